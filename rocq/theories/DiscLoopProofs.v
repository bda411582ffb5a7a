(** The sampler loops in binary64 follow the distribution functions. *)
From Coq Require Import Reals Lra Psatz Floats.SpecFloat.
From Flocq Require Import Core.
From Verif Require Import Base Float FloatProofs StatProofs NumModel RandModel RandSpec RandDoubleProofs DistNumSpec DistAccProofs DiscSpec DiscProofs.
Local Open Scope R_scope.

(** the first threshold above the draw *)
Definition first_above (T : nat -> double) (v : double) (k : nat) : Prop :=
  dleb (T k) v = false /\ forall j, (j < k)%nat -> dleb (T j) v = true.
Lemma first_exists T v n : dleb (T n) v = false -> exists k, (k <= n)%nat /\ first_above T v k.
Proof.
  intros H. assert (X : forall m, (forall j, (j < m)%nat -> dleb (T j) v = true) \/ exists k, (k < m)%nat /\ first_above T v k).
  { induction m as [|m [IH|(k & K1 & K2)]]; [left; lia| |right; exists k; split; [lia|exact K2]].
    destruct (dleb (T m) v) eqn:E.
    - left. intros j J. destruct (Nat.eq_dec j m) as [->|]; [exact E|apply IH; lia].
    - right. exists m. split; [lia|]. split; assumption. }
  destruct (X (S n)) as [A|(k & K1 & K2)]; [rewrite A in H by lia; discriminate|]. exists k. split; [lia|exact K2].
Qed.
(** from thresholds near a distribution function to the result *)
Lemma near_of_first mass T v k eps : number v -> (forall j, (j <= k)%nat -> number (T j) /\ Rabs (real (T j) - upto mass j) <= eps) ->
  first_above T v k -> near_inverse mass eps (real v) k.
Proof.
  intros [Vv Fv] A [H1 H2]. split.
  - destruct (A k (le_n k)) as ([V F] & B). rewrite dleb_spec in H1 by assumption. destruct (Rle_bool_spec (real (T k)) (real v)) as [|L]; [discriminate|]. apply Rabs_le_inv in B. lra.
  - intros j J. destruct (A j ltac:(lia)) as ([V F] & B). specialize (H2 j J). rewrite dleb_spec in H2 by assumption.
    destruct (Rle_bool_spec (real (T j)) (real v)) as [L|]; [|discriminate]. apply Rabs_le_inv in B. lra.
Qed.
Lemma above_of_near mass T v k eps : number v -> number (T k) -> Rabs (real (T k) - upto mass k) <= eps ->
  real v < upto mass k - eps -> dleb (T k) v = false.
Proof.
  intros [Vv Fv] [V F] B L. rewrite dleb_spec by assumption. apply Rle_bool_false. apply Rabs_le_inv in B. lra.
Qed.

(** Poisson *)
Section Poisson.
Context (pow : double -> Z -> double) (lambda e : double).
Definition pratio (k : nat) : double := ddiv lambda (dof (Z.of_nat k)).
Let P := Pd pratio e. Let T := Td pratio e.
Lemma ploop_ok v fuel : forall k z, (Z.of_nat k <= int32_max)%Z -> poisson_loop (binary64 pow) fuel lambda v (Z.of_nat k) (P k) (T k) = Ok z ->
  (forall j, (j < k)%nat -> dleb (T j) v = true) -> exists k', z = Z.of_nat k' /\ first_above T v k'.
Proof.
  induction fuel as [|fuel IH]; intros k z B H A; [discriminate|]. cbn [poisson_loop] in H. cbn [geb binary64] in H.
  destruct (dleb (T k) v) eqn:E.
  - unfold chk32 in H. destruct (in_int32 (Z.of_nat k + 1)) eqn:I; [|discriminate]. cbn [bind] in H.
    replace (Z.of_nat k + 1)%Z with (Z.of_nat (S k)) in H by lia. apply (IH (S k) z); [unfold in_int32 in I; lia|exact H|].
    intros j J. destruct (Nat.eq_dec j k) as [->|]; [exact E|apply A; lia].
  - injection H as <-. exists k. split; [reflexivity|]. split; assumption.
Qed.
Lemma ploop_S v d a b c : poisson_loop (binary64 pow) (S d) lambda v a b c =
  if dleb c v then result <- chk32 (a + 1) ;; poisson_loop (binary64 pow) d lambda v result (dmul b (ddiv lambda (dof result))) (dadd c (dmul b (ddiv lambda (dof result)))) else Ok a.
Proof. reflexivity. Qed.
Lemma ploop_run v d : forall k, (Z.of_nat (k + d) <= int32_max)%Z -> first_above T v (k + d) ->
  poisson_loop (binary64 pow) (S d) lambda v (Z.of_nat k) (P k) (T k) = Ok (Z.of_nat (k + d)).
Proof.
  induction d as [|d IH]; intros k B H; rewrite ploop_S.
  - rewrite Nat.add_0_r in *. destruct H as [H _]. now rewrite H.
  - rewrite (proj2 H k) by lia. assert (I : in_int32 (Z.of_nat k + 1) = true) by (clear - B; unfold in_int32, int32_min; unfold int32_max in *; lia). unfold chk32. rewrite I. cbn [bind].
    replace (Z.of_nat k + 1)%Z with (Z.of_nat (S k)) by lia. replace (k + S d)%nat with (S k + d)%nat in * by lia. exact (IH (S k) B H).
Qed.
End Poisson.

Lemma exp_partial x : 0 <= x -> forall n, sum_f_R0 (fun k => x ^ k / INR (fact k)) n <= exp x.
Proof.
  intros X n. unfold exp. destruct (exist_exp x) as [l L]. cbn [proj1_sig]. 
  assert (E : sum_f_R0 (fun k => x ^ k / INR (fact k)) n = sum_f_R0 (fun i => / INR (fact i) * x ^ i) n).
  { apply sum_eq. intros i _. unfold Rdiv. ring. }
  rewrite E. apply sum_incr; [exact L|]. intros k. apply Rmult_le_pos; [left; apply Rinv_0_lt_compat, INR_fact_lt_0|now apply pow_le].
Qed.
Lemma poisson_sum l : 0 <= l -> forall k, upto (poisson_mass l) k <= 1.
Proof.
  intros L k. unfold upto, poisson_mass. 
  replace (sum_f_R0 (fun k => exp (- l) * (l ^ k / INR (fact k))) k) with (exp (- l) * sum_f_R0 (fun k => l ^ k / INR (fact k)) k).
  2:{ rewrite scal_sum. apply sum_eq. intros. ring. }
  pose proof (exp_partial l L k) as H. apply (Rmult_le_compat_l (exp (- l))) in H; [|left; apply exp_pos].
  rewrite <- exp_plus in H. replace (- l + l) with 0 in H by ring. rewrite exp_0 in H. exact H.
Qed.
Lemma poisson_step l k : poisson_mass l (S k) = poisson_mass l k * (l / INR (S k)).
Proof.
  unfold poisson_mass. change (fact (S k)) with (S k * fact k)%nat. rewrite mult_INR. cbn [Rpow_def.pow].
  assert (INR (S k) <> 0) by (apply not_0_INR; lia). pose proof (INR_fact_neq_0 k). field. split; assumption.
Qed.
Lemma exp_low l : l <= 599 -> bpow radix2 (-950) <= exp (- l).
Proof.
  intros L. rewrite exp_Ropp. change (-950)%Z with (- (950))%Z. rewrite bpow_opp. apply Rinv_le; [apply exp_pos|].
  apply Rle_trans with (exp 599). { destruct L as [L| ->]; [left; now apply exp_increasing|lra]. }
  assert (H : forall n : nat, exp (INR n) <= 3 ^ n).
  { induction n as [|n IH]; [cbn [INR Rpow_def.pow]; rewrite exp_0; lra|]. rewrite S_INR, exp_plus. cbn [Rpow_def.pow]. pose proof exp_le_3. pose proof (exp_pos 1). pose proof (exp_pos (INR n)).
    rewrite Rmult_comm. apply Rmult_le_compat; lra. }
  specialize (H (Z.to_nat 599)). rewrite INR_IZR_INZ, Z2Nat.id in H by lia. eapply Rle_trans; [exact H|].
  rewrite pow_IZR. rewrite Z2Nat.id by lia. change (bpow radix2 950) with (IZR (2 ^ 950)). apply IZR_le. vm_compute. discriminate.
Qed.
Lemma int_double k : (1 <= k)%nat -> INR k <= 2097152 -> dvalid (dof (Z.of_nat k)) = true /\ dfinite (dof (Z.of_nat k)) = true /\ real (dof (Z.of_nat k)) = INR k.
Proof.
  intros K B. rewrite INR_IZR_INZ in *. apply le_IZR in B. apply dof_exact. rewrite Z.abs_eq by lia. lia.
Qed.
Definition slack_poisson (k : nat) : R := (6 + 5 * INR k) * bpow radix2 (-53).
Lemma poisson_core lambda e K : number lambda -> number e -> bpow radix2 (-900) <= real lambda <= 599 -> Rabs (real e - exp (- real lambda)) <= bpow radix2 (-51) * exp (- real lambda) ->
  INR K <= 1048576 -> forall k, (k <= K)%nat -> number (Td (pratio lambda) e k) /\ Rabs (real (Td (pratio lambda) e k) - upto (poisson_mass (real lambda)) k) <= slack_poisson k.
Proof.
  intros [VL FL] NE [L1 L2] EE KB. pose proof (bpow_gt_0 radix2 (-900)) as P9. set (l := real lambda) in *.
  intros k HK. pose proof (core_sum (poisson_mass l) (fun k => l / INR k) (pratio lambda) e 4 1 K) as C.
  assert (S := C). clear C. replace (slack_poisson k) with ((4 + 2 + (1 + 4) * INR k) * u) by (unfold slack_poisson, u; ring). apply S; clear S.
  - apply poisson_step.
  - unfold poisson_mass. cbn [Rpow_def.pow fact]. change (INR 1) with 1. replace (exp (- l) * (1 / 1)) with (exp (- l)) by field. now apply exp_low.
  - intros j. apply Rmult_le_pos; [lra|]. left. apply Rinv_0_lt_compat, lt_0_INR. lia.
  - intros j. unfold Rdiv. apply Rmult_le_compat_l; [lra|]. apply Rinv_le; [apply lt_0_INR; lia|apply le_INR; lia].
  - change (INR 1) with 1. unfold Rdiv. rewrite Rinv_1, Rmult_1_r. apply Rle_trans with 1024; [lra|]. change 1024 with (bpow radix2 10). apply bpow_le. lia.
  - intros j. apply poisson_sum. lra.
  - intros j J. assert (JB : INR (Datatypes.S j) <= 1048576) by (apply le_INR in J; lra).
    destruct (int_double (Datatypes.S j) ltac:(lia) ltac:(lra)) as (V & F & R). unfold pratio.
    assert (JP : 1 <= INR (Datatypes.S j)) by (change 1 with (INR 1); apply le_INR; lia).
    assert (Q : bpow radix2 (-950) <= l / INR (Datatypes.S j) <= 599).
    { assert (I0 : 0 < / INR (Datatypes.S j)) by (apply Rinv_0_lt_compat; lra). assert (I1 : / INR (Datatypes.S j) <= 1) by (rewrite <- Rinv_1; apply Rinv_le; lra).
      assert (I2 : bpow radix2 (-20) <= / INR (Datatypes.S j)). { change (-20)%Z with (- (20))%Z. rewrite bpow_opp. apply Rinv_le; [lra|]. change (bpow radix2 20) with 1048576. lra. }
      split; unfold Rdiv.
      - apply Rle_trans with (bpow radix2 (-900) * bpow radix2 (-20)); [rewrite <- bpow_plus; apply bpow_le; lia|]. apply Rmult_le_compat; try assumption; apply bpow_ge_0.
      - apply Rle_trans with (599 * 1); [|lra]. apply Rmult_le_compat; lra. }
    pose proof (bpow_gt_0 radix2 (-950)) as P95.
    destruct (ddiv_ok lambda (dof (Z.of_nat (Datatypes.S j))) 10 VL V FL ltac:(lra) ltac:(lia)) as (V1 & F1 & R1).
    { rewrite R. fold l. rewrite Rabs_pos_eq by lra. change (bpow radix2 10) with 1024. lra. }
    split; [now split|]. rewrite R1, R. fold l. rewrite Rmult_1_l.
    pose proof (rnd_rel (l / INR (Datatypes.S j))) as RE. rewrite (Rabs_pos_eq (l / INR (Datatypes.S j))) in RE by lra. apply RE.
    apply Rle_trans with (bpow radix2 (-950)); [apply bpow_le; lia|lra].
  - lra.
  - lra.
  - exact NE.
  - unfold poisson_mass. cbn [Rpow_def.pow fact]. change (INR 1) with 1. replace (exp (- l) * (1 / 1)) with (exp (- l)) by field. rewrite <- u4. exact EE.
  - exact KB.
  - exact HK.
Qed.
Lemma slack_mono j k : (j <= k)%nat -> slack_poisson j <= slack_poisson k.
Proof. intros H. apply le_INR in H. unfold slack_poisson. apply Rmult_le_compat_r; [apply bpow_ge_0|lra]. Qed.
Lemma poisson_near pow lambda e v fuel z : number lambda -> number e -> number v -> bpow radix2 (-900) <= real lambda <= 599 ->
  Rabs (real e - exp (- real lambda)) <= bpow radix2 (-51) * exp (- real lambda) ->
  poisson_next (binary64 pow) fuel (lambda, e) v = Ok z -> (z <= 2 ^ 20)%Z ->
  (0 <= z)%Z /\ near_inverse (poisson_mass (real lambda)) (slack_poisson (Z.to_nat z)) (real v) (Z.to_nat z).
Proof.
  intros NL NE NV LB EE H B. unfold poisson_next in H. destruct (ploop_ok pow lambda e v fuel 0 z) as (k & -> & F); [unfold int32_max; lia|exact H|lia|].
  split; [lia|]. rewrite Nat2Z.id. apply (near_of_first _ (Td (pratio lambda) e)); [exact NV| |exact F].
  intros j J. destruct (poisson_core lambda e k NL NE LB EE) with (k := j) as [N A]; [rewrite INR_IZR_INZ; apply IZR_le; lia|exact J|].
  split; [exact N|]. eapply Rle_trans; [exact A|]. now apply slack_mono.
Qed.
Lemma poisson_returns pow lambda e v K : number lambda -> number e -> number v -> bpow radix2 (-900) <= real lambda <= 599 ->
  Rabs (real e - exp (- real lambda)) <= bpow radix2 (-51) * exp (- real lambda) -> (Z.of_nat K <= 2 ^ 20)%Z ->
  real v < upto (poisson_mass (real lambda)) K - slack_poisson K ->
  exists fuel k, (k <= K)%nat /\ poisson_next (binary64 pow) fuel (lambda, e) v = Ok (Z.of_nat k).
Proof.
  intros NL NE NV LB EE B L. destruct (poisson_core lambda e K NL NE LB EE) with (k := K) as [N A]; [rewrite INR_IZR_INZ; apply IZR_le; lia|lia|].
  pose proof (above_of_near _ (Td (pratio lambda) e) v K _ NV N A L) as X. destruct (first_exists _ _ _ X) as (k & K1 & K2).
  exists (S k), k. split; [exact K1|]. apply (ploop_run pow lambda e v k 0); [unfold int32_max; cbn [Nat.add]; lia|exact K2].
Qed.
