(** Doubles drawn by the random module. *)
From Coq Require Import Reals Lra Floats.SpecFloat.
From Flocq Require Import Core Mult_error IEEE754.BinarySingleNaN.
From Verif Require Import Base Float FloatProofs RandModel RandSpec RandProofs.
Local Open Scope Z_scope.

Definition two64 : R := bpow radix2 64.
Lemma two64_IZR : two64 = IZR (2 ^ 64). Proof. unfold two64. now rewrite <- (IZR_Zpower radix2) by lia. Qed.
Lemma big_IZR e : 0 <= e -> bpow radix2 e = IZR (2 ^ e). Proof. intros. now rewrite <- (IZR_Zpower radix2) by lia. Qed.
Lemma big_two64 : (two64 < big)%R. Proof. unfold two64, big. apply bpow_lt. lia. Qed.
Lemma rnd_two64 : rnd two64 = two64. Proof. apply rnd_pow. lia. Qed.
Lemma rnd_nonneg a : (0 <= a)%R -> (0 <= rnd a)%R. Proof. intros H. rewrite <- rnd_0. now apply rnd_le. Qed.
Lemma small_not_big r a : (Rabs r <= a)%R -> (a < big)%R -> Rlt_bool (Rabs r) big = true.
Proof. intros. apply Rlt_bool_true. lra. Qed.

Lemma dof_spec x : output x -> dvalid (dof x) = true /\ dfinite (dof x) = true /\ real (dof x) = rnd (IZR x) /\ (0 <= rnd (IZR x) <= two64)%R.
Proof.
  intros [X0 X1]. assert (B : (0 <= rnd (IZR x) <= two64)%R).
  { split; [apply rnd_nonneg; apply IZR_le; lia|]. rewrite <- rnd_two64. apply rnd_le. rewrite two64_IZR. apply IZR_le. lia. }
  destruct (dmake_spec x 0) as [V S]. unfold dof. rewrite Rmult_1_r in S.
  rewrite (small_not_big _ two64) in S; [|rewrite Rabs_pos_eq; lra|exact big_two64]. tauto.
Qed.
Lemma real_two64 : real (dof 18446744073709551615) = two64 /\ dvalid (dof 18446744073709551615) = true /\ dfinite (dof 18446744073709551615) = true.
Proof.
  destruct (dof_spec 18446744073709551615) as (V & F & _); [unfold output; lia|]. split; [|tauto].
  assert (E : dof 18446744073709551615 = S754_finite false 4503599627370496 12) by (vm_compute; reflexivity). rewrite E.
  unfold real, SF2R, F2R. cbn [Fnum Fexp cond_Zopp]. rewrite two64_IZR, (big_IZR 12), <- mult_IZR by lia. f_equal.
Qed.
Lemma rnd_int_1 x : 1 <= x -> (1 <= rnd (IZR x))%R.
Proof. intros H. change 1%R with (bpow radix2 0). rewrite <- (rnd_pow 0) by lia. apply rnd_le. change (bpow radix2 0) with (IZR 1). now apply IZR_le. Qed.
Lemma format_rnd r : generic_format radix2 (FLT_exp (-1074) 53) (rnd r).
Proof. unfold rnd. apply generic_format_round; typeclasses eauto. Qed.
(** dividing by 2^64 is exact *)
Lemma scale_exact x : output x -> rnd (rnd (IZR x) / two64) = (rnd (IZR x) / two64)%R.
Proof.
  intros [X0 X1]. destruct (Z.eq_dec x 0) as [-> | N].
  - rewrite rnd_0. unfold Rdiv. rewrite Rmult_0_l. apply rnd_0.
  - assert (R1 : (1 <= rnd (IZR x))%R) by (apply rnd_int_1; lia).
    unfold rnd at 1. apply round_generic; [typeclasses eauto|]. unfold Rdiv, two64. rewrite <- bpow_opp.
    change fx with (FLT_exp (-1074) 53). apply mult_bpow_exact_FLT; [apply format_rnd|].
    assert (0 < mag radix2 (rnd (IZR x))); [|lia]. apply mag_gt_bpow. rewrite Rabs_pos_eq; cbn; lra.
Qed.
Lemma unit_spec x : output x -> dvalid (unit_draw x) = true /\ dfinite (unit_draw x) = true /\
  real (unit_draw x) = (rnd (IZR x) / two64)%R /\ (0 <= real (unit_draw x) <= 1)%R.
Proof.
  intros X. destruct (dof_spec x X) as (V & F & E & B). destruct real_two64 as (E2 & V2 & F2).
  assert (T : (0 < two64)%R) by apply bpow_gt_0.
  assert (Q : (0 <= rnd (IZR x) / two64 <= 1)%R).
  { split; [apply Rmult_le_pos; [lra|apply Rlt_le, Rinv_0_lt_compat; assumption]|]. apply Rmult_le_reg_r with two64; [assumption|]. unfold Rdiv. rewrite Rmult_assoc, Rinv_l; lra. }
  destruct (ddiv_spec (dof x) (dof 18446744073709551615)) as [Vd S]; [assumption|assumption|assumption|rewrite E2; lra|].
  rewrite E, E2, scale_exact in S by assumption.
  rewrite (small_not_big _ 1) in S.
  - unfold unit_draw. destruct S as [S1 S2]. rewrite S1. tauto.
  - rewrite Rabs_pos_eq; lra.
  - change 1%R with (bpow radix2 0). apply bpow_lt. lia.
Qed.
Lemma unit_one x : output x -> (real (unit_draw x) = 1%R <-> 18446744073709550592 <= x).
Proof.
  intros X. destruct (unit_spec x X) as (_ & _ & E & _). rewrite E. assert (T : (0 < two64)%R) by apply bpow_gt_0.
  destruct (dof_spec x X) as (_ & _ & _ & B). split.
  - intros H. destruct (Z.le_gt_cases 18446744073709550592 x) as [|L]; [assumption|]. exfalso.
    assert (R : (rnd (IZR x) <= rnd (IZR 18446744073709550591))%R) by (apply rnd_le, IZR_le; lia).
    destruct (dof_spec 18446744073709550591) as (_ & _ & E' & _); [unfold output; lia|]. rewrite <- E' in R.
    assert (E2 : dof 18446744073709550591 = S754_finite false 9007199254740991 11) by (vm_compute; reflexivity). rewrite E2 in R.
    unfold real, SF2R, F2R in R. cbn [Fnum Fexp cond_Zopp] in R. rewrite (big_IZR 11), <- mult_IZR in R by lia.
    assert (N : rnd (IZR x) = two64). { apply Rmult_eq_reg_r with (/ two64)%R; [|apply Rinv_neq_0_compat; lra]. rewrite Rinv_r by lra. exact H. }
    rewrite N, two64_IZR in R. apply le_IZR in R. cbn in R. lia.
  - intros L. destruct (dof_spec 18446744073709550592) as (_ & _ & E' & _); [unfold output; lia|].
    assert (E2 : dof 18446744073709550592 = S754_finite false 4503599627370496 12) by (vm_compute; reflexivity). rewrite E2 in E'.
    unfold real, SF2R, F2R in E'. cbn [Fnum Fexp cond_Zopp] in E'. rewrite (big_IZR 12), <- mult_IZR in E' by lia.
    assert (R : (rnd (IZR 18446744073709550592) <= rnd (IZR x))%R) by (apply rnd_le, IZR_le; lia). rewrite <- E' in R.
    assert (two64 <= rnd (IZR x))%R by (rewrite two64_IZR; exact R).
    assert (N : rnd (IZR x) = two64) by lra. rewrite N. field. lra.
Qed.
Lemma unit_zero x : output x -> (real (unit_draw x) = 0%R <-> x = 0).
Proof.
  intros X. destruct (unit_spec x X) as (_ & _ & E & _). rewrite E. assert (T : (0 < two64)%R) by apply bpow_gt_0. split.
  - intros H. destruct (Z.eq_dec x 0) as [|N]; [assumption|]. exfalso. assert (1 <= rnd (IZR x))%R by (apply rnd_int_1; destruct X; lia).
    assert (0 < rnd (IZR x) / two64)%R; [|lra]. apply Rmult_lt_0_compat; [lra|]. now apply Rinv_0_lt_compat.
  - intros ->. rewrite rnd_0. unfold Rdiv. ring.
Qed.

(** [nextDouble(min, max)] *)
Definition tame : R := bpow radix2 1022.
Lemma tame_big : (4 * tame = big)%R.
Proof. unfold tame, big. change 4%R with (bpow radix2 2). rewrite <- bpow_plus. reflexivity. Qed.
Lemma rnd_mul_pow k : 0 <= k <= 1023 -> rnd (bpow radix2 k) = bpow radix2 k.
Proof. intros. apply rnd_pow. lia. Qed.
Section Range.
Context (min max : double).
Hypothesis Vmin : dvalid min = true.
Hypothesis Vmax : dvalid max = true.
Hypothesis Fmin : dfinite min = true.
Hypothesis Fmax : dfinite max = true.
Hypothesis Tmin : (Rabs (real min) <= tame)%R.
Hypothesis Tmax : (Rabs (real max) <= tame)%R.
Hypothesis Ord : (real min <= real max)%R.
Let T2 : (rnd (2 * tame) = 2 * tame)%R.
Proof. unfold tame. change 2%R with (bpow radix2 1). rewrite <- bpow_plus. apply rnd_pow. lia. Qed.
Let T3 : (rnd (3 * tame) = 3 * tame)%R.
Proof.
  unfold rnd. apply round_generic; [typeclasses eauto|]. change fx with (FLT_exp (-1074) 53).
  apply generic_format_FLT. exists (Float radix2 3 1022); [reflexivity|cbn; lia|cbn; lia].
Qed.
Let T0 : (0 < tame)%R. Proof. apply bpow_gt_0. Qed.
Let diff : (0 <= rnd (real max - real min) <= 2 * tame)%R.
Proof.
  split; [apply rnd_nonneg; lra|]. rewrite <- T2. apply rnd_le. apply Rabs_le_inv in Tmin, Tmax. lra.
Qed.
Lemma range_spec x : output x ->
  exists r, nextDouble_range x min max = Ok r /\ dvalid r = true /\ dfinite r = true /\
    real r = rnd (rnd (real (unit_draw x) * rnd (real max - real min)) + real min) /\
    (real min <= real r <= rnd (rnd (real max - real min) + real min))%R.
Proof.
  intros X. destruct (unit_spec x X) as (Vu & Fu & Eu & Bu). pose proof tame_big as TB. unfold nextDouble_range.
  rewrite dltb_spec, Rlt_bool_false by assumption.
  destruct (dsub_spec max min) as [Vd S]; try assumption.
  rewrite (small_not_big _ (2 * tame)) in S by (try rewrite Rabs_pos_eq; lra). destruct S as [Ed Fd].
  set (u := real (unit_draw x)) in *. set (d := rnd (real max - real min)) in *.
  assert (P : (0 <= rnd (u * d) <= d)%R).
  { split; [apply rnd_nonneg; apply Rmult_le_pos; lra|]. rewrite <- Ed at 2. rewrite <- rnd_real by assumption. rewrite Ed. apply rnd_le. nra. }
  destruct (dmul_spec (unit_draw x) (dsub max min)) as [Vp S]; try assumption. rewrite Ed in S. fold u in S.
  rewrite (small_not_big _ (2 * tame)) in S by (try rewrite Rabs_pos_eq; lra). destruct S as [Ep Fp].
  assert (Q : (real min <= rnd (rnd (u * d) + real min) <= rnd (d + real min))%R).
  { split; [rewrite <- (rnd_real min) at 1 by assumption; apply rnd_le; lra|apply rnd_le; lra]. }
  assert (U : (rnd (d + real min) <= 3 * tame)%R).
  { rewrite <- T3. apply rnd_le. apply Rabs_le_inv in Tmin. lra. }
  destruct (dadd_spec (dmul (unit_draw x) (dsub max min)) min) as [Vr S]; try assumption. rewrite Ep in S.
  rewrite (small_not_big _ (3 * tame)) in S.
  - destruct S as [Er Fr]. eexists. split; [reflexivity|]. split; [assumption|]. split; [assumption|]. split; [exact Er|]. rewrite Er. exact Q.
  - apply Rabs_le. apply Rabs_le_inv in Tmin. lra.
  - lra.
Qed.
Lemma range_low x r : output x -> nextDouble_range x min max = Ok r -> x = 0 -> real r = real min.
Proof.
  intros X H ->. destruct (range_spec 0 X) as (r' & H' & _ & _ & E & _). assert (r' = r) as -> by congruence. rewrite E.
  rewrite (proj2 (unit_zero 0 X) eq_refl), Rmult_0_l, rnd_0, Rplus_0_l. now apply rnd_real.
Qed.
Lemma range_high x r : output x -> nextDouble_range x min max = Ok r -> 18446744073709550592 <= x ->
  real r = rnd (rnd (real max - real min) + real min).
Proof.
  intros X H L. destruct (range_spec x X) as (r' & H' & _ & _ & E & _). assert (r' = r) as -> by congruence. rewrite E.
  rewrite (proj2 (unit_one x X) L), Rmult_1_l. f_equal. f_equal. 
  destruct (dsub_spec max min) as [Vd S]; try assumption. pose proof tame_big.
  rewrite (small_not_big _ (2 * tame)) in S by (try rewrite Rabs_pos_eq; lra). destruct S as [Ed Fd]. rewrite <- Ed. now apply rnd_real.
Qed.
End Range.
Lemma real_zero : real dzero = 0%R. Proof. reflexivity. Qed.
Lemma real_one : real done = 1%R.
Proof.
  assert (E : done = S754_finite false 4503599627370496 (-52)) by (vm_compute; reflexivity). rewrite E. unfold real, SF2R, F2R. cbn [Fnum Fexp cond_Zopp].
  change (-52) with (- (52)). rewrite (bpow_opp radix2 52), (big_IZR 52) by lia. change (2 ^ 52) with 4503599627370496. field.
Qed.
Lemma valid_one : dvalid done = true /\ dfinite done = true. Proof. split; vm_compute; reflexivity. Qed.
Lemma tame_1 : (1 <= tame)%R. Proof. change 1%R with (bpow radix2 0). apply bpow_le. lia. Qed.
Lemma nextDouble_spec x : output x -> exists r, nextDouble x = Ok r /\ dvalid r = true /\ dfinite r = true /\
  real r = (rnd (IZR x) / two64)%R /\ (0 <= real r <= 1)%R.
Proof.
  intros X. destruct valid_one as [V F]. pose proof tame_1. destruct (unit_spec x X) as (Vu & Fu & Eu & Bu).
  destruct (range_spec dzero done) with (x := x) as (r & H1 & H2 & H3 & H4 & H5); try reflexivity; try assumption; rewrite ?real_zero, ?real_one, ?Rabs_R0, ?Rabs_R1; try lra.
  exists r. split; [exact H1|]. split; [assumption|]. split; [assumption|]. rewrite H4, real_one, real_zero, Rminus_0_r.
  assert (O : rnd 1 = 1%R) by (apply (rnd_pow 0); lia). rewrite O, Rmult_1_r, Rplus_0_r, (rnd_real (unit_draw x)), rnd_real by assumption. tauto.
Qed.
