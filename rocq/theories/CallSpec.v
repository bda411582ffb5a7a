(** Sequences of calls of a user function, for CallModel. *)
From Verif Require Import Base CallModel.

Section Spec.
Context {E F W A B : Type}.
(** [calls f o w xs bs ys o' w']: starting from object [o] and world [w], calling f on
    the elements of xs, once each and in order, returns the values bs, leaves the
    elements ys, the object o' and the world w' *)
Inductive calls (f : @func E F W A B) : F -> W -> list A -> list B -> list A -> F -> W -> Prop :=
| CNil o w : calls f o w [] [] [] o w
| CCons o w x b y o1 w1 xs bs ys o2 w2 :
    f o x w = (Returned b, o1, y, w1) -> calls f o1 w1 xs bs ys o2 w2 ->
    calls f o w (x :: xs) (b :: bs) (y :: ys) o2 w2.
(** the calls end with an exception: the first ones return, the next one throws *)
Definition throws (f : @func E F W A B) (o : F) (w : W) (xs : list A) (e : E) (ys : list A) (w' : W) : Prop :=
  exists before x rest bs ys1 o1 w1 o2 y,
    xs = before ++ x :: rest /\ calls f o w before bs ys1 o1 w1 /\ f o1 x w1 = (Thrown e, o2, y, w') /\ ys = ys1 ++ y :: rest.
End Spec.
(** the elements at which the value is true *)
Fixpoint chosen {A} (ys : list A) (bs : list bool) : list A :=
  match ys, bs with
  | y :: ys, b :: bs => if b then y :: chosen ys bs else chosen ys bs
  | _, _ => []
  end.
