(** Proofs about the text of doubles on streams. *)
From Coq Require Import Reals Lra Psatz Floats.SpecFloat.
From Flocq Require Import Core IEEE754.BinarySingleNaN Relative.
From Verif Require Import Base DecModel DecProofs ContModel ContProofs Float FloatProofs VecIOModel VecIOSpec VecIOProofs VecAnyModel VecAnyProofs JsonFloatModel JsonFloatSpec JsonFloatProofs NumTextModel NumTextSpec.
Local Open Scope R_scope.

(** ** six significant digits *)
Lemma round_div_spec a b : (0 < b)%Z -> round_div a b = ZnearestE (IZR a / IZR b).
Proof. intros B. symmetry. now apply nearest_frac. Qed.
Lemma ten_pos k : 0 < bpow radix10 k. Proof. apply bpow_gt_0. Qed.
Lemma ten_Z k : (0 <= k)%Z -> IZR (10 ^ k) = bpow radix10 k.
Proof. intros K. change (10 ^ k)%Z with (Zpower radix10 k). now apply IZR_Zpower. Qed.
Lemma ten_neg k : (k < 0)%Z -> bpow radix10 k * IZR (10 ^ (- k)) = 1.
Proof. intros K. rewrite ten_Z by lia. rewrite <- bpow_plus. now replace (k + - k)%Z with 0%Z by lia. Qed.
Lemma test_spec k n d : (0 < d)%Z -> (if 0 <=? k then 10 ^ k * d <=? n else d <=? n * 10 ^ (- k))%Z = true <-> bpow radix10 k <= IZR n / IZR d.
Proof.
  intros D. apply IZR_lt in D. assert (A : forall z, z <= IZR n / IZR d <-> z * IZR d <= IZR n).
  { intros z. split; intros H.
    - apply (Rmult_le_compat_r (IZR d)) in H; [|lra]. unfold Rdiv in H. rewrite Rmult_assoc, Rinv_l, Rmult_1_r in H by lra. exact H.
    - apply Rmult_le_reg_r with (IZR d); [lra|]. unfold Rdiv. rewrite Rmult_assoc, Rinv_l, Rmult_1_r by lra. exact H. }
  rewrite A. destruct (Z.leb_spec 0 k) as [K|K]; rewrite Z.leb_le.
  - rewrite <- ten_Z, <- mult_IZR by assumption. split; [apply IZR_le|apply le_IZR].
  - pose proof (ten_neg k K) as T. assert (P : 0 < IZR (10 ^ (- k))) by (apply IZR_lt, Z.pow_pos_nonneg; lia). split; intros H.
    + apply IZR_le in H. rewrite mult_IZR in H. apply Rmult_le_reg_r with (IZR (10 ^ (- k))); [exact P|].
      replace (bpow radix10 k * IZR d * IZR (10 ^ (- k))) with (IZR d * (bpow radix10 k * IZR (10 ^ (- k)))) by ring. rewrite T, Rmult_1_r. exact H.
    + apply le_IZR. rewrite mult_IZR. apply (Rmult_le_compat_r (IZR (10 ^ (- k)))) in H; [|lra].
      replace (bpow radix10 k * IZR d * IZR (10 ^ (- k))) with (IZR d * (bpow radix10 k * IZR (10 ^ (- k)))) in H by ring. rewrite T, Rmult_1_r in H. exact H.
Qed.
Lemma decade_spec : forall fuel k n d, (0 < d)%Z -> bpow radix10 (k - Z.of_nat fuel) <= IZR n / IZR d < bpow radix10 (k + 1) ->
  let j := decade fuel k n d in bpow radix10 j <= IZR n / IZR d < bpow radix10 (j + 1).
Proof.
  induction fuel as [|f IH]; intros k n d D [L U]; cbn [decade].
  - rewrite Z.sub_0_r in L. auto.
  - destruct (if (0 <=? k)%Z then _ else _) eqn:E.
    + apply test_spec in E; auto.
    + apply IH; [assumption|]. split.
      * now replace (k - 1 - Z.of_nat f)%Z with (k - Z.of_nat (S f))%Z by lia.
      * replace (k - 1 + 1)%Z with k by lia. apply Rnot_le_lt. intros H. apply test_spec in H; [|assumption]. congruence.
Qed.
Lemma fraction_spec m e : let (n, d) := fraction m e in (0 < n)%Z /\ (0 < d)%Z /\ IZR n / IZR d = mag_of m e.
Proof.
  unfold fraction. rewrite mag_of_val. destruct (Z.leb_spec 0 e) as [H|H].
  - split; [apply Z.mul_pos_pos; [reflexivity|apply Z.pow_pos_nonneg; lia]|]. split; [reflexivity|]. rewrite mult_IZR. change (2 ^ e)%Z with (Zpower radix2 e). rewrite IZR_Zpower by assumption. field.
  - split; [reflexivity|]. split; [apply Z.pow_pos_nonneg; lia|]. change (2 ^ (- e))%Z with (Zpower radix2 (- e)). rewrite IZR_Zpower by lia. rewrite bpow_opp. unfold Rdiv. now rewrite Rinv_inv.
Qed.
Lemma scaled_spec n d k : (0 < d)%Z -> scaled n d k = ZnearestE (IZR n / IZR d * bpow radix10 (5 - k)).
Proof.
  intros D. pose proof (IZR_lt _ _ D) as Dr. unfold scaled. destruct (Z.leb_spec 5 k) as [K|K].
  - assert (P : (0 < 10 ^ (k - 5))%Z) by (apply Z.pow_pos_nonneg; lia). rewrite round_div_spec by now apply Z.mul_pos_pos. f_equal. rewrite mult_IZR, ten_Z by lia.
    replace (5 - k)%Z with (- (k - 5))%Z by lia. rewrite bpow_opp. field. split; [apply Rgt_not_eq, ten_pos|lra].
  - rewrite round_div_spec by assumption. f_equal. rewrite mult_IZR, ten_Z by lia. unfold Rdiv. ring.
Qed.
Lemma in_range s m e : proper (S754_finite s m e) -> bpow radix10 (308 - Z.of_nat 634) <= mag_of m e < bpow radix10 (308 + 1).
Proof.
  intros P. pose proof (proper_small _ P) as S. rewrite abs_real in S. destruct P as [V _]. unfold dvalid in V. cbn [valid_binary] in V. apply andb_true_iff in V. destruct V as [V _].
  unfold canonical_mantissa in V. apply Zeq_bool_eq in V. assert (E : (-1074 <= e)%Z) by (unfold SpecFloat.fexp, SpecFloat.emin in V; lia).
  split.
  - apply Rle_trans with (bpow radix2 (-1074)).
    + change (308 - Z.of_nat 634)%Z with (- (326))%Z. change (-1074)%Z with (- (1074))%Z. rewrite !bpow_opp. apply Rinv_le; [apply bpow_gt_0|].
      rewrite <- (IZR_Zpower radix2), <- (IZR_Zpower radix10) by lia. apply IZR_le. apply Zle_bool_imp_le. vm_compute. reflexivity.
    + rewrite mag_of_val. rewrite <- (Rmult_1_l (bpow radix2 (-1074))). apply Rmult_le_compat; [lra|apply bpow_ge_0|apply IZR_le; lia|now apply bpow_le].
  - apply Rlt_le_trans with (1 := S). unfold big. rewrite <- (IZR_Zpower radix2), <- (IZR_Zpower radix10) by lia. apply IZR_le. apply Zle_bool_imp_le. vm_compute. reflexivity.
Qed.
Lemma to_six_at v k : bpow radix10 k <= v < bpow radix10 (k + 1) -> to_six v = IZR (ZnearestE (v * bpow radix10 (5 - k))) * bpow radix10 (k - 5).
Proof.
  intros H. unfold to_six, round, scaled_mantissa, cexp, F2R. cbn [Fnum Fexp].
  rewrite (mag_unique_pos radix10 v (k + 1)) by (now replace (k + 1 - 1)%Z with k by lia). unfold FLX_exp. replace (- (k + 1 - 6))%Z with (5 - k)%Z by lia. now replace (k + 1 - 6)%Z with (k - 5)%Z by lia.
Qed.
Lemma six_bounds v k : bpow radix10 k <= v < bpow radix10 (k + 1) -> (100000 <= ZnearestE (v * bpow radix10 (5 - k)) <= 1000000)%Z.
Proof.
  intros [L U]. pose proof (ten_pos (5 - k)) as P. split.
  - rewrite <- (nearest_int 100000). apply nearest_mono. apply (Rmult_le_compat_r (bpow radix10 (5 - k))) in L; [|lra]. rewrite <- bpow_plus in L.
    replace (k + (5 - k))%Z with 5%Z in L by lia. exact L.
  - rewrite <- (nearest_int 1000000). apply nearest_mono. apply Rlt_le in U. apply (Rmult_le_compat_r (bpow radix10 (5 - k))) in U; [|lra]. rewrite <- bpow_plus in U.
    replace (k + 1 + (5 - k))%Z with 6%Z in U by lia. exact U.
Qed.
Lemma significant_spec s m e : proper (S754_finite s m e) -> let (N, k) := significant m e in
  (100000 <= N <= 999999)%Z /\ IZR N * bpow radix10 (k - 5) = to_six (mag_of m e).
Proof.
  intros P. pose proof (in_range s m e P) as R. unfold significant. pose proof (fraction_spec m e) as F. destruct (fraction m e) as [n d]. destruct F as (_ & D & E).
  rewrite <- E in R |- *. pose proof (decade_spec 634 308 n d D R) as K. cbv zeta in K. set (k := decade 634 308 n d) in *. clearbody k. rewrite (scaled_spec n d k D).
  rewrite (to_six_at _ k K). pose proof (six_bounds _ k K) as B. set (N := ZnearestE _) in *. clearbody N. destruct (Z.eqb_spec N 1000000) as [-> |NE].
  - split; [lia|]. replace (k + 1 - 5)%Z with (1 + (k - 5))%Z by lia. rewrite bpow_plus. change (bpow radix10 1) with 10. lra.
  - split; [lia|reflexivity].
Qed.

(** ** rounding to six digits and to doubles *)
Definition flx := FLX_exp 6.
Lemma p6 : Prec_gt_0 6. Proof. reflexivity. Qed.
#[local] Existing Instance p6.
Lemma to_six_format r : generic_format radix10 (FLX_exp 6) (to_six r).
Proof. apply generic_format_round; typeclasses eauto. Qed.
Lemma of_six_format r : of_six r <-> generic_format radix10 (FLX_exp 6) r.
Proof.
  split.
  - intros (n & k & N & ->). apply generic_format_FLX. exists (Float radix10 n k); [reflexivity|]. cbn. exact N.
  - intros H. apply FLX_format_generic in H; [|typeclasses eauto]. destruct H as [[n k] -> N]. exists n, k. split; [exact N|reflexivity].
Qed.
Lemma to_six_opp r : to_six (- r) = - to_six r.
Proof. apply round_NE_opp. Qed.
Lemma to_six_sgn s r : to_six (sgn s * r) = sgn s * to_six r.
Proof. destruct s; cbn [sgn]; [|now rewrite !Rmult_1_l]. replace (-1 * r) with (- r) by ring. rewrite to_six_opp. ring. Qed.
Lemma to_six_le a b : a <= b -> to_six a <= to_six b.
Proof. apply round_le; typeclasses eauto. Qed.
Lemma to_six_0 : to_six 0 = 0.
Proof. apply round_0. typeclasses eauto. Qed.
Lemma to_six_error r : Rabs (to_six r - r) <= 5 / 1000000 * Rabs r.
Proof.
  pose proof (relative_error_N_FLX radix10 6 eq_refl (fun x => negb (Z.even x)) r) as H. fold (to_six r) in H.
  replace (/ 2 * bpow radix10 (- (6) + 1)) with (5 / 1000000) in H; [exact H|]. cbn. lra.
Qed.
Lemma rnd_close r : bpow radix2 (-1000) <= Rabs r -> Rabs (rnd r - r) <= bpow radix2 (-53) * Rabs r.
Proof.
  intros H. pose proof (relative_error_N_FLT radix2 (-1074) 53 eq_refl (fun x => negb (Z.even x)) r) as L.
  assert (G : bpow radix2 (-1074 + 53 - 1) <= Rabs r) by (apply Rle_trans with (2 := H); apply bpow_le; lia). specialize (L G).
  replace (bpow radix2 (-53)) with (/ 2 * bpow radix2 (- (53) + 1)); [exact L|]. rewrite bpow_plus. change (bpow radix2 1) with 2. change (- (53))%Z with (-53)%Z. lra.
Qed.
(** a number with six digits is recovered from the nearest double *)
Lemma recovered_pos r : of_six r -> bpow radix2 (-1000) <= r -> to_six (rnd r) = r.
Proof.
  intros F L. apply of_six_format in F. assert (P : 0 < r) by (pose proof (bpow_gt_0 radix2 (-1000)); lra).
  assert (C : Rabs (rnd r - r) < r * (/ 2 * bpow radix10 (-6))).
  { apply Rle_lt_trans with (1 := rnd_close r ltac:(rewrite Rabs_pos_eq by lra; exact L)). rewrite Rabs_pos_eq by lra. rewrite (Rmult_comm _ r). apply Rmult_lt_compat_l; [exact P|].
    change (-53)%Z with (- (53))%Z. change (-6)%Z with (- (6))%Z. rewrite !bpow_opp. cbn. lra. }
  assert (U : r * bpow radix10 (-6) <= ulp radix10 (FLX_exp 6) r).
  { pose proof (ulp_FLX_ge radix10 6 r) as G. rewrite Rabs_pos_eq in G by lra. exact G. }
  apply Rabs_def2 in C. unfold to_six. apply Rle_antisym.
  - apply round_N_le_midp; [typeclasses eauto|exact F|]. rewrite succ_eq_pos by lra. lra.
  - apply round_N_ge_midp; [typeclasses eauto|exact F|]. rewrite pred_eq_pos by lra. unfold pred_pos.
    destruct (Req_bool_spec r (bpow radix10 (mag radix10 r - 1))) as [E|_]; [|lra].
    assert (X : bpow radix10 (FLX_exp 6 (mag radix10 r - 1)) = r * bpow radix10 (-6)).
    { transitivity (bpow radix10 (mag radix10 r - 1) * bpow radix10 (-6)); [rewrite <- bpow_plus; f_equal; unfold FLX_exp; lia|]. apply (f_equal (fun z => z * bpow radix10 (-6))). symmetry. exact E. }
    rewrite X. lra.
Qed.
Lemma rnd_opp r : rnd (- r) = - rnd r.
Proof. replace (- r) with (sgn true * r) by (cbn [sgn]; ring). rewrite rnd_sgn. cbn [sgn]. ring. Qed.
Lemma recovered r : of_six r -> bpow radix2 (-1000) <= Rabs r -> to_six (rnd r) = r.
Proof.
  intros F L. destruct (Rle_or_lt 0 r) as [H|H].
  - apply recovered_pos; [exact F|]. now rewrite Rabs_pos_eq in L.
  - rewrite Rabs_left in L by assumption. assert (F' : of_six (- r)).
    { destruct F as (n & k & N & ->). exists (- n)%Z, k. split; [now rewrite Z.abs_opp|]. rewrite opp_IZR. ring. }
    pose proof (recovered_pos (- r) F' L) as E. rewrite rnd_opp, to_six_opp in E. lra.
Qed.
Lemma greatest v : v <= bpow radix2 1024 - bpow radix2 971 -> to_six v <= bpow radix2 1024 - bpow radix2 971.
Proof.
  intros H. apply to_six_le in H. apply Rle_trans with (1 := H).
  assert (E : bpow radix2 1024 - bpow radix2 971 = mag_of 9007199254740991 971).
  { rewrite mag_of_val. replace (bpow radix2 1024) with (bpow radix2 53 * bpow radix2 971) by (rewrite <- bpow_plus; reflexivity).
    replace (bpow radix2 53) with 9007199254740992 by (cbn; lra). ring. }
  assert (P : proper (S754_finite false 9007199254740991 971)) by (split; reflexivity).
  pose proof (significant_spec false 9007199254740991 971 P) as S. replace (significant 9007199254740991 971) with (179769, 308)%Z in S by (vm_compute; reflexivity).
  destruct S as [_ S]. rewrite E, <- S, mag_of_val. change (308 - 5)%Z with 303%Z. rewrite <- (IZR_Zpower radix2), <- (IZR_Zpower radix10), <- !mult_IZR by lia.
  apply IZR_le. apply Zle_bool_imp_le. vm_compute. reflexivity.
Qed.
Lemma no_overflow x : proper x -> Rabs (rnd (to_six (real x))) < big.
Proof.
  intros P. assert (B : Rabs (real x) <= bpow radix2 1024 - bpow radix2 971).
  { destruct P as [V F]. destruct (to_bf x V) as [a ->]. rewrite real_bf. apply abs_B2R_le_emax_minus_prec. reflexivity. }
  rewrite (sgn_real x P), to_six_sgn, rnd_sgn, abs_sgn. apply greatest in B.
  assert (N : 0 <= to_six (Rabs (real x))) by (rewrite <- to_six_0; apply to_six_le, Rabs_pos).
  rewrite Rabs_pos_eq by (rewrite <- rnd_0; now apply rnd_le).
  apply rnd_le in B. apply Rle_lt_trans with (1 := B). assert (E : bpow radix2 1024 - bpow radix2 971 = real (S754_finite false 9007199254740991 971)).
  { rewrite real_split, mag_of_val. cbn [sgn]. replace (bpow radix2 1024) with (bpow radix2 53 * bpow radix2 971) by (rewrite <- bpow_plus; reflexivity).
    replace (bpow radix2 53) with 9007199254740992 by (cbn; lra). ring. }
  rewrite E, rnd_real by reflexivity. rewrite <- E. unfold big. pose proof (bpow_gt_0 radix2 971). lra.
Qed.
