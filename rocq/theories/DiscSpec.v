(** The discrete distributions over the reals, and inversion of a distribution
    function up to an error. *)
From Coq Require Import Reals.
From Flocq Require Import Core.
From Verif Require Import Base Float FloatProofs DistNumSpec.
Local Open Scope R_scope.

(** probabilities of k *)
Definition poisson_mass (lambda : R) (k : nat) : R := exp (- lambda) * (lambda ^ k / INR (fact k)).
Definition choose (n k : nat) : R := INR (fact n) / (INR (fact k) * INR (fact (n - k))).
Definition negbin_mass (r : nat) (p : R) (k : nat) : R := choose (k + r - 1) k * p ^ r * (1 - p) ^ k.
Definition binom_mass (n : nat) (p : R) (k : nat) : R := choose n k * p ^ k * (1 - p) ^ (n - k).
(** at most k *)
Definition upto (mass : nat -> R) (k : nat) : R := sum_f_R0 mass k.
(** [k] is the result for the draw [u], up to eps: P(X < k) - eps <= u < P(X <= k) + eps *)
Definition near_inverse (mass : nat -> R) (eps u : R) (k : nat) : Prop :=
  u < upto mass k + eps /\ forall j, (j < k)%nat -> upto mass j - eps <= u.
(** what is assumed of std::pow on the powers that the binomial table takes: two units in the last place *)
Definition accurate_pow (pow : double -> Z -> double) : Prop :=
  forall x i, number x -> 0 <= real x <= 1 -> (0 <= i <= 33)%Z ->
    number (pow x i) /\ Rabs (real (pow x i) - real x ^ Z.to_nat i) <= bpow radix2 (-52) * real x ^ Z.to_nat i + bpow radix2 (-1074).
