(** The Gamma sampler in exact real arithmetic: specification. *)
From Coq Require Import Reals.
From Coquelicot Require Import Coquelicot.
From Flocq Require Import Core.
From Verif Require Import Base DistModel.
Local Open Scope R_scope.

(** exact arithmetic; x^y = exp (y ln x) is only used for x > 0 *)
Definition real_ops : field_ops R :=
  FieldOps 0 1 (exp 1) Rplus Rminus Rmult Rdiv Ropp Rle_bool (fun x y => Rlt_bool y x) ln exp Rpower.
(** the mean of [f] over [n] independent uniform draws from (0, 1) *)
Fixpoint is_mean (n : nat) (f : list R -> R) (p : R) : Prop :=
  match n with
  | O => f [] = p
  | S n => exists F, (forall u, 0 < u < 1 -> is_mean n (fun us => f (u :: us)) (F u)) /\ is_RInt F 0 1 p
  end.
(** indicators, and the probability that a result of [n] draws is within a <= x <= b *)
Definition chi (b : bool) : R := if b then 1 else 0.
Definition within (a b x : R) : bool := (Rle_bool a x && Rle_bool x b)%bool.
Definition is_probability (n : nat) (f : list R -> option R) (a b p : R) : Prop :=
  is_mean n (fun us => chi (match f us with Some x => within a b x | None => false end)) p.
(** the density of the Gamma distribution with shape [d] and scale 1, without its constant *)
Definition gamma_shape (d x : R) : R := Rpower x (d - 1) * exp (- x).
(** the distribution function of the Gamma distribution with shape [n], scale [theta] *)
Fixpoint exp_series (n : nat) (x : R) : R :=
  match n with O => 0 | S n => exp_series n x + x ^ n / INR (fact n) end.
Definition gamma_cdf (n : nat) (theta x : R) : R :=
  if Rle_bool 0 x then 1 - exp (- (x / theta)) * exp_series n (x / theta) else 0.
