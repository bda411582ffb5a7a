(** Property theorems C88 (the Gamma samplers in exact arithmetic). *)
From Coq Require Import Reals Lra.
From Coquelicot Require Import Coquelicot.
From Flocq Require Import Core.
From Verif Require Import Base Float FloatProofs NumModel RandModel DistModel DistNumSpec DistRealSpec DistRealProofs DistDrawProofs.
Local Open Scope R_scope.

(** C88: for shape 0 < d < 1, a round of the acceptance-rejection loop on three uniform
    draws returns a number of [a, b] with a probability proportional to the integral of the
    Gamma density over [a, b], with the same factor for all a and b *)
Theorem C88_fractional_shape :
  forall d, 0 < d < 1 -> exists c, 0 < c /\ forall a b, 0 < a <= b ->
    is_probability 3 (fun us => match us with [u; v; w] => gamma_try real_ops d (1 - u) (1 - v) (1 - w) | _ => None end)
      a b (c * RInt.RInt (gamma_shape d) a b).
Proof.
  intros d D. exists (const d). split; [|intros a b; now apply round_probability].
  pose proof (exp_pos 1). unfold const. apply Rdiv_lt_0_compat; [apply Rmult_lt_0_compat|]; lra.
Qed.
Print Assumptions C88_fractional_shape.
(** integer shape n, scale theta: the n draws give the Gamma (Erlang) distribution function;
    n = 1 is ExponentialDistribution *)
Theorem C88_integer_shape :
  forall n theta x, 0 < theta ->
    is_mean n (fun us => chi (Rle_bool (gamma_of_draws real_ops theta us) x)) (gamma_cdf n theta x).
Proof. exact gamma_distribution. Qed.
Print Assumptions C88_integer_shape.
Theorem C88_exponential :
  forall theta x, 0 < theta -> 0 <= x ->
    is_mean 1 (fun us => chi (Rle_bool (gamma_of_draws real_ops theta us) x)) (1 - exp (- (x / theta))).
Proof.
  intros theta x T X. replace (1 - exp (- (x / theta))) with (gamma_cdf 1 theta x); [now apply gamma_distribution|].
  unfold gamma_cdf. rewrite Rle_bool_true by exact X. cbn. field.
Qed.
Print Assumptions C88_exponential.
(** the binary64 code is the same computation: n draws of nextDouble(), then the formula *)
Theorem C88_same_code :
  forall (G : Type) (E : engine G) log exp pow fuel k theta n g, number k -> real k = IZR (Z.of_nat n) -> (0 < Z.of_nat n < 2 ^ 31)%Z ->
    exists us, Forall2 (fun x u => nextDouble x = Ok u) (outputs E n g) us /\
      gamma_draw E log exp pow fuel k theta g = Ok (gamma_of_draws (double_ops log exp pow) theta us, after E n g).
Proof. intros G E log exp pow fuel k theta n g. exact (gamma_of_integer E log exp pow fuel k theta n g). Qed.
Print Assumptions C88_same_code.
(** probabilities are unique, so the statements determine them *)
Theorem C88_mean_unique :
  forall n f p q, is_mean n f p -> is_mean n f q -> p = q.
Proof. exact mean_unique. Qed.
Print Assumptions C88_mean_unique.
Example C88_example :
  is_mean 2 (fun us => chi (Rle_bool (gamma_of_draws real_ops 3 us) 6)) (1 - exp (- (2)) * 3) /\
  0 < 1 / 2 < 1 /\ gamma_try real_ops (1 / 2) (1 - 1 / 2) (1 - 1 / 2) (1 - 1 / 2) = Some (1 / 4).
Proof.
  split; [replace (1 - exp (- (2)) * 3) with (gamma_cdf 2 3 6); [apply gamma_distribution; lra|]|split; [lra|]].
  - unfold gamma_cdf. rewrite Rle_bool_true by lra. replace (6 / 3) with 2 by field. cbn. field.
  - assert (X : Rpower (1 - 1 / 2) (1 / (1 / 2)) = 1 / 4) by (replace (1 / (1 / 2)) with (INR 2) by (cbn; field); rewrite Rpower_pow by lra; cbn; field).
    assert (Q : 1 - 1 / 2 <= q (1 / 2)). { pose proof (exp_pos 1). pose proof (exp_ineq1 1 ltac:(lra)). unfold q. apply Rmult_le_reg_r with (exp 1 + 1 / 2); [lra|]. replace (exp 1 / (exp 1 + 1 / 2) * (exp 1 + 1 / 2)) with (exp 1) by (field; lra). lra. }
    rewrite try_low by lra. rewrite X. rewrite Rle_bool_true; [reflexivity|]. pose proof (exp_ineq1 (- (1 / 4)) ltac:(lra)). lra.
Qed.
