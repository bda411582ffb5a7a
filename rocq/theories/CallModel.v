(** Model of src/include/algorithm/Filter.h and Map.h with user functions that have
    effects: the function is called through its own object (state [F], a copy, since
    [func] is passed by value), gets the element by reference (it may change it),
    may read and change the rest of the world [W], and may throw ([E]).
    Simplification: the function does not insert into or erase from the container
    that is being traversed (that would invalidate the loop's iterators). *)
From Verif Require Import Base.

(** how a call ends: with a value or with an exception; Filter.h:24, Map.h:28 *)
Inductive ending (E B : Type) := Returned (b : B) | Thrown (e : E).
Arguments Returned {E B}. Arguments Thrown {E B}.

Section Calls.
Context {E F W A B : Type}.
(** one call [func(v)]: how it ends, the function object, the element and the world
    afterwards; Filter.h:24, Map.h:28 *)
Definition func := F -> A -> W -> ending E B * F * A * W.

(** Map.h:26-30: the loop of [mapAll]; [done] is the part of the container already
    visited.  Returns how the call ends, the container and the world. *)
Fixpoint mapAll_loop (f : func) (o : F) (done cont : list A) (ret : list B) (w : W) : ending E (list B) * list A * W :=
  match cont with
  | [] => (Returned ret, done, w)
  | v :: t =>
      match f o v w with
      | (Returned b, o, v, w) => mapAll_loop f o (done ++ [v]) t (ret ++ [b]) w
      | (Thrown e, _, v, w) => (Thrown e, done ++ v :: t, w)
      end
  end.
(** Map.h:19-31; the caller's function object [o] is copied and stays as it is *)
Definition mapAll (f : func) (o : F) (cont : list A) (w : W) : ending E (list B) * list A * W :=
  mapAll_loop f o [] cont [] w.
End Calls.

Section Filter.
Context {E F W A : Type}.
(** Filter.h:23-27: the loop of [filterContainer]; the element is copied into the
    result after the call *)
Fixpoint filter_loop (f : @func E F W A bool) (o : F) (done cont ret : list A) (w : W) : ending E (list A) * list A * W :=
  match cont with
  | [] => (Returned ret, done, w)
  | v :: t =>
      match f o v w with
      | (Returned b, o, v, w) => filter_loop f o (done ++ [v]) t (if b : bool then ret ++ [v] else ret) w
      | (Thrown e, _, v, w) => (Thrown e, done ++ v :: t, w)
      end
  end.
(** Filter.h:19-30; the caller's function object [o] is copied and stays as it is *)
Definition filterContainer (f : @func E F W A bool) (o : F) (cont : list A) (w : W) : ending E (list A) * list A * W :=
  filter_loop f o [] cont [] w.
End Filter.
