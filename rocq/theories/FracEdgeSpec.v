(** Notions for the exact domain of gcd and of Fraction. *)
From Verif Require Import Base FracModel.
Local Open Scope Z_scope.

(** Euclid's algorithm on the natural numbers [a] and [b] makes [k] divisions *)
Inductive euclid : Z -> Z -> nat -> Prop :=
| euclid_0 a : 0 <= a -> euclid a 0 0
| euclid_S a b k : 0 <= a -> 0 < b -> euclid b (a mod b) k -> euclid a b (S k).

(** the pairs of ints for which Fraction(n, d) is undefined *)
Definition bad_pair (n d : Z) : Prop :=
  (d = - 2 ^ 31 /\ Z.odd n = true) \/
  (n = - 2 ^ 31 /\ Z.odd d = true /\ d < 0) \/
  (n = - 2 ^ 31 /\ Z.odd d = true /\ 0 < d /\ exists k, euclid (2 ^ 31) d k /\ Nat.even k = true).
(** [f] is n/d in lowest terms *)
Definition lowest (n d : Z) (f : frac) : Prop :=
  0 < den f /\ Z.gcd (num f) (den f) = 1 /\ num f * d = n * den f.
