(** Accuracy of the discrete samplers in binary64. *)
From Coq Require Import Reals Lra Psatz Floats.SpecFloat List.
From Flocq Require Import Core.
From Verif Require Import Base Float FloatProofs StatProofs NumModel RandModel RandSpec RandDoubleProofs DistNumSpec DistAccProofs DiscSpec DiscProofs DiscLoopProofs DiscNegProofs DiscBinProofs DiscExProofs.
Local Open Scope R_scope.

(** Poisson: the value returned for a draw v is the inverse of the distribution function up to (6 + 5 k) 2^-53 *)
Theorem C111_poisson :
  forall pow lambda e v fuel z, number lambda -> number e -> number v -> bpow radix2 (-900) <= real lambda <= 599 ->
    Rabs (real e - exp (- real lambda)) <= bpow radix2 (-51) * exp (- real lambda) ->
    poisson_next (binary64 pow) fuel (lambda, e) v = Ok z -> (z <= 2 ^ 20)%Z ->
    (0 <= z)%Z /\ near_inverse (poisson_mass (real lambda)) ((6 + 5 * INR (Z.to_nat z)) * bpow radix2 (-53)) (real v) (Z.to_nat z).
Proof. intros pow lambda e v fuel z. intros. now apply (poisson_near pow lambda e v fuel z). Qed.
Print Assumptions C111_poisson.
(** and it returns, with a value at most K, for every draw below P(X <= K) by more than that *)
Theorem C111_poisson_returns :
  forall pow lambda e v K, number lambda -> number e -> number v -> bpow radix2 (-900) <= real lambda <= 599 ->
    Rabs (real e - exp (- real lambda)) <= bpow radix2 (-51) * exp (- real lambda) -> (Z.of_nat K <= 2 ^ 20)%Z ->
    real v < upto (poisson_mass (real lambda)) K - (6 + 5 * INR K) * bpow radix2 (-53) ->
    exists fuel k, (k <= K)%nat /\ poisson_next (binary64 pow) fuel (lambda, e) v = Ok (Z.of_nat k).
Proof. intros pow lambda e v K. intros. now apply (poisson_returns pow lambda e v K). Qed.
Print Assumptions C111_poisson_returns.
(** negative binomial (and geometric: r = 1) *)
Theorem C111_negative_binomial :
  forall pow r p d v fuel z, (1 <= r)%nat -> (Z.of_nat r <= 2 ^ 20)%Z -> number p -> 0 < real p <= 1 -> bpow radix2 (-950) <= real p ^ r -> number v ->
    negbin_init (binary64 pow) (Z.of_nat r) p = Ok d -> negbin_next (binary64 pow) fuel d v = Ok z -> (z <= 2 ^ 20)%Z ->
    (0 <= z)%Z /\
    near_inverse (negbin_mass r (real p)) ((2 * INR r + 2 + 8 * INR (Z.to_nat z)) * bpow radix2 (-53)) (real v) (Z.to_nat z).
Proof. intros pow r p d v fuel z. intros. now apply (negbin_near pow r p d v fuel z). Qed.
Print Assumptions C111_negative_binomial.
Theorem C111_negative_binomial_returns :
  forall pow r p d v K, (1 <= r)%nat -> (Z.of_nat r <= 2 ^ 20)%Z -> number p -> 0 < real p <= 1 -> bpow radix2 (-950) <= real p ^ r -> number v ->
    negbin_init (binary64 pow) (Z.of_nat r) p = Ok d -> (Z.of_nat K <= 2 ^ 20)%Z ->
    real v < upto (negbin_mass r (real p)) K - (2 * INR r + 2 + 8 * INR K) * bpow radix2 (-53) ->
    exists fuel k, (k <= K)%nat /\ negbin_next (binary64 pow) fuel d v = Ok (Z.of_nat k).
Proof. intros pow r p d v K. intros. now apply (negbin_returns pow r p d v K). Qed.
Print Assumptions C111_negative_binomial_returns.
(** binomial: every n for which the table can be built, every p in [0,1], every draw below 1 *)
Theorem C111_binomial :
  forall pow n p v, accurate_pow pow -> (n <= 33)%nat -> number p -> 0 <= real p <= 1 -> number v -> real v < 1 ->
    exists d k, binomial_init (binary64 pow) (Z.of_nat n) p = Ok d /\ binomial_next (binary64 pow) d v = Ok (Z.of_nat k) /\ (k <= n)%nat /\
      near_inverse (binom_mass n (real p)) (bpow radix2 (-45)) (real v) k.
Proof. intros. now apply binomial_near. Qed.
Print Assumptions C111_binomial.
(** so a draw farther than the error from every step of the distribution function gets exactly the value that exact arithmetic gives it *)
Theorem C111_same_value :
  forall mass eps v k m, near_inverse mass eps v k -> near_inverse mass 0 v m -> (forall j, Rabs (v - upto mass j) > eps) -> 0 <= eps -> k = m.
Proof.
  intros mass eps v k m [A B] [C D] F E. destruct (Nat.lt_trichotomy k m) as [L|[L|L]]; [|exact L|].
  - specialize (D k L). specialize (F k). rewrite Rabs_pos_eq in F by lra. lra.
  - specialize (B m L). specialize (F m). rewrite Rabs_left in F by lra. lra.
Qed.
Print Assumptions C111_same_value.


(** 0.9, 0.7 and 1/2 *)
Definition d9 : double := dmake 8106479329266893 (-53).
Definition d7 : double := dmake 3152519739159347 (-52).
Definition d5 : double := dmake 1 (-1).
Lemma real_d9 : number d9 /\ real d9 = 8106479329266893 / 9007199254740992.
Proof. split; [split; vm_compute; reflexivity|]. change d9 with (S754_finite false 8106479329266893 (-53)). unfold real. cbn. unfold F2R. cbn. lra. Qed.
Lemma real_d7 : number d7 /\ real d7 = 3152519739159347 / 4503599627370496.
Proof. split; [split; vm_compute; reflexivity|]. change d7 with (S754_finite false 6305039478318694 (-53)). unfold real. cbn. unfold F2R. cbn. lra. Qed.
Lemma real_d5 : number d5 /\ real d5 = / 2.
Proof. split; [split; vm_compute; reflexivity|]. change d5 with (S754_finite false 4503599627370496 (-53)). unfold real. cbn. unfold F2R. cbn. lra. Qed.
(** Poisson with mean 1: the draw 0.9 gives 2 *)
Example C111_poisson_example :
  number done /\ number inv_e /\ number d9 /\ bpow radix2 (-900) <= real done <= 599 /\
  Rabs (real inv_e - exp (- real done)) <= bpow radix2 (-51) * exp (- real done) /\
  poisson_next (binary64 exact_pow) 10 (done, inv_e) d9 = Ok 2%Z /\
  real d9 < upto (poisson_mass (real done)) 3 - (6 + 5 * INR 3) * bpow radix2 (-53).
Proof.
  split; [exact valid_one|]. split; [split; vm_compute; reflexivity|]. split; [apply real_d9|]. rewrite real_one.
  split; [split; [change 1 with (bpow radix2 0); apply bpow_le; lia|lra]|]. split; [exact inv_e_close|]. split; [vm_compute; reflexivity|].
  rewrite (proj2 real_d9). pose proof inv_e_close as H. rewrite real_inv_e in H. change (bpow radix2 (-51)) with (/ 2251799813685248) in H. apply Rabs_le_inv in H.
  unfold upto, poisson_mass. cbn [sum_f_R0]. rewrite !pow1. cbn [fact Nat.mul Nat.add INR].
  match goal with |- _ < ?s - _ => replace s with (exp (Ropp 1) * (8 / 3)) by field end. change (exp (-1)) with (exp (Ropp 1)) in H. change (bpow radix2 (-53)) with (/ 9007199254740992). lra.
Qed.
(** failures before the second success of a fair coin: the draw 0.7 gives 3 *)
Example C111_negative_binomial_example :
  number d5 /\ 0 < real d5 <= 1 /\ bpow radix2 (-950) <= real d5 ^ 2 /\ number d7 /\
  omap (fun d => negbin_next (binary64 exact_pow) 10 d d7) (negbin_init (binary64 exact_pow) 2 d5) = Ok (Ok 3%Z) /\
  real d7 < upto (negbin_mass 2 (real d5)) 4 - (2 * INR 2 + 2 + 8 * INR 4) * bpow radix2 (-53).
Proof.
  rewrite (proj2 real_d5), (proj2 real_d7). split; [apply real_d5|]. split; [lra|].
  split; [replace ((/ 2) ^ 2) with (bpow radix2 (-2)) by (change (bpow radix2 (-2)) with (/ 4); lra); apply bpow_le; lia|]. split; [apply real_d7|]. split; [vm_compute; reflexivity|].
  unfold upto, negbin_mass, choose. cbn [sum_f_R0 Nat.add Nat.sub]. cbn [fact Nat.mul Nat.add INR Rpow_def.pow]. change (bpow radix2 (-53)) with (/ 9007199254740992). lra.
Qed.
(** ten fair coins: the draw 0.7 gives 6 heads *)
Example C111_binomial_example :
  accurate_pow exact_pow /\ (10 <= 33)%nat /\ number d5 /\ 0 <= real d5 <= 1 /\ number d7 /\ real d7 < 1 /\
  omap (fun d => binomial_next (binary64 exact_pow) d d7) (binomial_init (binary64 exact_pow) 10 d5) = Ok (Ok 6%Z).
Proof.
  rewrite (proj2 real_d5), (proj2 real_d7). split; [exact exact_pow_accurate|]. split; [lia|]. split; [apply real_d5|]. split; [lra|]. split; [apply real_d7|]. split; [lra|vm_compute; reflexivity].
Qed.
