(** Mathematical notions for the random module. *)
From Coq Require Import QArith.
From Verif Require Import Base.
Local Open Scope Z_scope.

(** the values of a 64-bit engine *)
Definition output (x : Z) : Prop := 0 <= x < 2 ^ 64.

Fixpoint fac (n : nat) : Z := match n with O => 1 | S k => Z.of_nat n * fac k end.
Fixpoint qpow (q : Q) (n : nat) : Q := match n with O => 1%Q | S n => (q * qpow q n)%Q end.
(** probability mass functions *)
Definition negbin_pmf (r : nat) (p : Q) (x : nat) : Q :=
  (inject_Z (fac (x + r - 1)) / (inject_Z (fac x) * inject_Z (fac (r - 1))) * qpow p r * qpow (1 - p) x)%Q.
Definition geometric_pmf (p : Q) (x : nat) : Q := (p * qpow (1 - p) x)%Q.
(** Poisson with [e] in the role of exp(-lambda) *)
Definition poisson_pmf (lambda e : Q) (x : nat) : Q := (e * (qpow lambda x / inject_Z (fac x)))%Q.
Definition binomial_pmf (n : nat) (p : Q) (x : nat) : Q :=
  (inject_Z (fac n) / (inject_Z (fac x) * inject_Z (fac (n - x))) * qpow p x * qpow (1 - p) (n - x))%Q.
(** cumulative distribution and its inverse: the least k with u < cdf k *)
Fixpoint cdf (pmf : nat -> Q) (k : nat) : Q :=
  match k with O => pmf 0%nat | S j => (cdf pmf j + pmf k)%Q end.
Definition inverse_cdf (pmf : nat -> Q) (u : Q) (k : nat) : Prop :=
  (u < cdf pmf k)%Q /\ forall j, (j < k)%nat -> (cdf pmf j <= u)%Q.
