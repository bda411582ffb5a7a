(** Row echelon form for an arbitrary entry type: zero means "compares equal to 0". *)
From Coq Require Import Reals Qcanon.
From Verif Require Import Base Float FloatProofs MatModel MatSpec.
Local Open Scope Z_scope.

Section Spec.
Context {A : Type} (o : ops A).
Definition is_zero (x : A) : Prop := oeqb o x (o0 o) = true.
(** pivot columns [ps] strictly increase; row t < |ps| has 1 at its pivot, zeros before it;
    below a pivot and in the rows after the last pivot there are zeros *)
Definition echelon_any (m : mat A) (ps : list Z) : Prop :=
  (length ps <= Z.to_nat (row m))%nat /\
  (forall s t, (s < t < length ps)%nat -> nth s ps 0 < nth t ps 0) /\
  (forall t, (t < length ps)%nat ->
     0 <= nth t ps 0 < col m /\
     ent o m (Z.of_nat t) (nth t ps 0) = o1 o /\
     (forall j, 0 <= j < nth t ps 0 -> is_zero (ent o m (Z.of_nat t) j)) /\
     (forall i, Z.of_nat t < i < row m -> is_zero (ent o m i (nth t ps 0)))) /\
  (forall i j, Z.of_nat (length ps) <= i < row m -> 0 <= j < col m -> is_zero (ent o m i j)).
End Spec.

(** exact reals, and the exact matrix behind a matrix of doubles *)
Definition Rops : ops R := Ops R 0%R 1%R Rplus Rminus Rmult Rdiv (fun x y => if Req_EM_T x y then true else false).
Definition exact (m : mat double) : mat R := Mat (row m) (col m) (map (map real) (cells m)) (live m).
(** an n x 2 matrix of reals determines its solutions / has a solution other than 0 *)
Definition only_zero (m : mat R) : Prop := forall x, solves Rops m x -> x 0 = 0%R /\ x 1 = 0%R.
Definition has_solution (m : mat R) : Prop := exists x, solves Rops m x /\ x 1 <> 0%R.
