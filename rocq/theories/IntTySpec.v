(** Notions used in the statements about the integer templates at every type;
    independent of the model's operations. *)
From Verif Require Import Base NumSpec IntTyModel.
Local Open Scope Z_scope.

(** [z] is a value of the type *)
Definition inty (t : ty) (z : Z) : Prop :=
  if sgn t then - 2 ^ (bits t - 1) <= z < 2 ^ (bits t - 1) else 0 <= z < 2 ^ bits t.
(** [y] is the value of type [t] that is congruent to [x] modulo 2^bits *)
Definition residue (t : ty) (x y : Z) : Prop := inty t y /\ (2 ^ bits t | x - y).

(** a loop with unbounded execution: it returns [v], or runs for ever *)
Definition converges {A} (f : nat -> outcome A) (v : outcome A) : Prop :=
  exists n, forall k, (n <= k)%nat -> f k = v.
Definition diverges {A} (f : nat -> outcome A) : Prop := forall k, f k = Fuel.

(** types whose arithmetic is checked (int, int64_t) and types whose results wrap around;
    [uint16_t] wraps too, but its products are computed in [int] and may overflow there *)
Definition checked (t : ty) : Prop := sgn t = true /\ 32 <= bits t.
Definition wrapping (t : ty) : Prop := ~ checked t.

(** n (n-1) ... (n-k+1) *)
Fixpoint falling (n : Z) (k : nat) : Z :=
  match k with O => 1 | S k => n * falling (n - 1) k end.
(** every sum of a prefix *)
Definition prefixes_fit (t : ty) (l : list Z) : Prop :=
  forall p q, l = p ++ q -> inty t (zsum p).
