(** Proofs about floats in JSON texts. *)
From Coq Require Import Reals Lra Psatz Floats.SpecFloat.
From Flocq Require Import Core IEEE754.BinarySingleNaN.
From Verif Require Import Base DecModel DecProofs Float FloatProofs JsonModel JsonSpec JsonRoundProofs JsonFloatModel JsonFloatSpec.
Local Open Scope R_scope.

(** ** the digits printed *)
Definition mag_of (m : positive) (e : Z) : R := F2R (Float radix2 (Zpos m) e).
Lemma mag_of_val m e : mag_of m e = IZR (Zpos m) * bpow radix2 e.
Proof. reflexivity. Qed.
Lemma nearest_int z : ZnearestE (IZR z) = z.
Proof. apply Zrnd_IZR. typeclasses eauto. Qed.
Lemma nearest_frac a d : (0 < d)%Z ->
  ZnearestE (IZR a / IZR d) = match Z.compare (2 * (a mod d)) d with Lt => a / d | Gt => a / d + 1 | Eq => if Z.even (a / d) then a / d else a / d + 1 end%Z.
Proof.
  intros D. assert (Dr : 0 < IZR d) by now apply IZR_lt.
  assert (E : IZR a / IZR d = IZR (a / d) + IZR (a mod d) / IZR d).
  { rewrite (Z.div_mod a d) at 1 by lia. rewrite plus_IZR, mult_IZR. field. lra. }
  pose proof (Z.mod_pos_bound a d D) as B. assert (F : Zfloor (IZR a / IZR d) = (a / d)%Z) by (apply Zfloor_div; lia).
  assert (M : 0 <= IZR (a mod d) / IZR d).
  { apply Rmult_le_pos; [apply IZR_le; lia|]. left. now apply Rinv_0_lt_compat. }
  unfold Znearest. rewrite F.
  replace (IZR a / IZR d - IZR (a / d)) with (IZR (a mod d) / IZR d) by lra.
  assert (C : Rcompare (IZR (a mod d) / IZR d) (/ 2) = Z.compare (2 * (a mod d)) d).
  { rewrite <- (Rcompare_mult_r (2 * IZR d)) by lra. replace (IZR (a mod d) / IZR d * (2 * IZR d)) with (IZR (2 * (a mod d))) by (rewrite mult_IZR; field; lra).
    replace (/ 2 * (2 * IZR d)) with (IZR d) by field. apply Rcompare_IZR. }
  rewrite C. destruct (Z.compare_spec (2 * (a mod d)) d) as [Hc|Hc|Hc].
  - rewrite Zceil_floor_neq; rewrite F.
    + now destruct (Z.even (a / d)).
    + rewrite E. assert (0 < IZR (a mod d) / IZR d); [|lra]. apply Rmult_lt_0_compat; [apply IZR_lt; lia|]. now apply Rinv_0_lt_compat.
  - reflexivity.
  - rewrite Zceil_floor_neq; rewrite F; [reflexivity|].
    rewrite E. assert (0 < IZR (a mod d) / IZR d); [|lra]. apply Rmult_lt_0_compat; [apply IZR_lt; lia|]. now apply Rinv_0_lt_compat.
Qed.
Lemma micros_spec m e : micros m e = ZnearestE (mag_of m e * 1000000).
Proof.
  unfold micros. rewrite mag_of_val. destruct (Z.leb_spec 0 e) as [H|H].
  - rewrite <- (IZR_Zpower radix2 e H), <- !mult_IZR. now rewrite nearest_int.
  - assert (P : (0 < 2 ^ (- e))%Z) by (apply Z.pow_pos_nonneg; lia).
    rewrite <- nearest_frac by assumption. f_equal. rewrite mult_IZR. change (2 ^ (- e))%Z with (Zpower radix2 (- e)). rewrite IZR_Zpower by lia.
    rewrite bpow_opp. unfold Rdiv. rewrite Rinv_inv. ring.
Qed.
Lemma nearest_mono a b : a <= b -> (ZnearestE a <= ZnearestE b)%Z.
Proof. apply Zrnd_le. typeclasses eauto. Qed.
Lemma nearest_nonneg r : 0 <= r -> (0 <= ZnearestE r)%Z.
Proof. intros H. rewrite <- (nearest_int 0). now apply nearest_mono. Qed.
Lemma nearest_half r : Rabs (IZR (ZnearestE r) - r) <= / 2.
Proof. rewrite Rabs_minus_sym. apply Znearest_half. Qed.

(** ** small and large numbers *)
Lemma fx_at e : (-1021 <= e)%Z -> fx e = (e - 53)%Z.
Proof. intros H. unfold SpecFloat.fexp, SpecFloat.emin. lia. Qed.
Lemma fx_mono a b : (a <= b)%Z -> (fx a <= fx b)%Z.
Proof. unfold SpecFloat.fexp. lia. Qed.
Lemma p33 : bpow radix2 33 = 8589934592. Proof. reflexivity. Qed.
Lemma micro_small n : (0 <= n <= 8589934592 * 1000000)%Z -> ZnearestE (rnd (IZR n / 1000000) * 1000000) = n.
Proof.
  intros [H0 H1]. destruct (Z.eq_dec n (8589934592 * 1000000)) as [-> |N].
  - replace (IZR (8589934592 * 1000000) / 1000000) with (bpow radix2 33) by (rewrite mult_IZR, p33; field).
    rewrite rnd_pow by lia. rewrite p33, <- mult_IZR. apply nearest_int.
  - destruct (Z.eq_dec n 0) as [-> |N0].
    { replace (0 / 1000000) with 0 by field. rewrite rnd_0, Rmult_0_l. exact (nearest_int 0). }
    assert (L : IZR n / 1000000 < bpow radix2 33).
    { rewrite p33. assert (IZR n < IZR (8589934592 * 1000000)) by (apply IZR_lt; lia). rewrite mult_IZR in H. lra. }
    assert (P : 0 < IZR n / 1000000) by (assert (0 < IZR n) by (apply IZR_lt; lia); lra).
    apply Znearest_imp. pose proof (error_le_half_ulp radix2 fx (fun x => negb (Z.even x)) (IZR n / 1000000)) as E.
    fold (rnd (IZR n / 1000000)) in E. set (x := IZR n / 1000000) in *.
    assert (U : ulp radix2 fx x <= bpow radix2 (-20)).
    { rewrite ulp_neq_0 by lra. unfold cexp. apply bpow_le. change (-20)%Z with (fx 33). apply fx_mono.
      apply mag_le_bpow; [lra|]. rewrite Rabs_pos_eq; lra. }
    replace (IZR n) with (x * 1000000) by (unfold x; field).
    replace (rnd x * 1000000 - x * 1000000) with ((rnd x - x) * 1000000) by ring. rewrite Rabs_mult, (Rabs_pos_eq 1000000) by lra.
    change (bpow radix2 (-20)) with (/ 1048576) in U. set (q := Rabs (rnd x - x)) in *. set (u := ulp radix2 fx x) in *. clearbody q u. lra.
Qed.
(** numbers from 2^33 on: their distance to the next double is more than 10^-6 *)
Lemma micro_large m e : SpecFloat.valid_binary 53 1024 (S754_finite false m e) = true -> bpow radix2 33 <= mag_of m e ->
  rnd (IZR (micros m e) / 1000000) = mag_of m e.
Proof.
  intros V L. assert (R0 : rnd (mag_of m e) = mag_of m e).
  { pose proof (rnd_real (S754_finite false m e) V) as R. exact R. }
  assert (Ex : forall z, mag_of m e = IZR z -> rnd (IZR (micros m e) / 1000000) = mag_of m e).
  { intros z E. rewrite micros_spec, E, <- mult_IZR, nearest_int, mult_IZR. replace (IZR z * 1000000 / 1000000) with (IZR z) by field.
    now rewrite <- E. }
  destruct (Z.leb_spec 0 e) as [He|He].
  { apply (Ex (Zpos m * 2 ^ e)%Z). rewrite mag_of_val, mult_IZR. f_equal. symmetry. exact (IZR_Zpower radix2 e He). }
  assert (C : Zdigits radix2 (Zpos m) = 53%Z /\ (-19 <= e)%Z).
  { cbn [SpecFloat.valid_binary] in V. unfold SpecFloat.bounded, SpecFloat.canonical_mantissa in V. apply andb_true_iff in V. destruct V as [V _].
    apply Zeq_bool_eq in V. rewrite Digits.Zpos_digits2_pos in V.
    assert (M : (33 < Zdigits radix2 (Zpos m) + e)%Z).
    { pose proof (mag_F2R_Zdigits radix2 (Zpos m) e ltac:(discriminate)) as Mg. rewrite <- Mg.
      apply mag_gt_bpow. rewrite Rabs_pos_eq; [exact L|]. eapply Rle_trans; [|exact L]. apply bpow_ge_0. }
    rewrite fx_at in V by lia. lia. }
  destruct C as [C E19].
  assert (Bm : (2 ^ 52 <= Zpos m < 2 ^ 53)%Z).
  { pose proof (Zdigits_correct radix2 (Zpos m)) as Dg. rewrite C in Dg. exact Dg. }
  destruct (Z.eq_dec (Zpos m) (2 ^ 52)) as [E52|N52].
  { apply (Ex (2 ^ (52 + e))%Z). rewrite mag_of_val, E52. change (IZR (2 ^ 52)) with (bpow radix2 52). rewrite <- bpow_plus.
    symmetry. apply (IZR_Zpower radix2). lia. }
  set (r := IZR (micros m e) / 1000000).
  assert (Dl : Rabs (r - mag_of m e) <= / 2000000).
  { pose proof (nearest_half (mag_of m e * 1000000)) as H. rewrite <- micros_spec in H. unfold r.
    replace (IZR (micros m e)) with (IZR (micros m e) / 1000000 * 1000000) in H by field. set (q := IZR (micros m e) / 1000000) in *.
    replace (q * 1000000 - mag_of m e * 1000000) with ((q - mag_of m e) * 1000000) in H by ring.
    rewrite Rabs_mult, (Rabs_pos_eq 1000000) in H by lra. set (w := Rabs (q - mag_of m e)) in *. clearbody w. lra. }
  clearbody r. assert (Be : / 524288 <= bpow radix2 e).
  { change (/ 524288) with (bpow radix2 (-19)). apply bpow_le. lia. }
  assert (M1 : IZR (Zpos m) <= bpow radix2 53 - 1).
  { change (bpow radix2 53) with (IZR (2 ^ 53)). rewrite <- minus_IZR. apply IZR_le. lia. }
  assert (M2 : bpow radix2 52 + 1 <= IZR (Zpos m)).
  { change (bpow radix2 52) with (IZR (2 ^ 52)). rewrite <- plus_IZR. apply IZR_le. lia. }
  rewrite mag_of_val in *. set (b := bpow radix2 e) in *. set (k := IZR (Zpos m)) in *.
  assert (Bp : 0 < b) by (unfold b; apply bpow_gt_0).
  apply Rabs_le_inv in Dl.
  assert (Mg : mag radix2 r = (53 + e)%Z :> Z).
  { apply mag_unique. assert (E1 : bpow radix2 (53 + e - 1) = bpow radix2 52 * b) by (unfold b; rewrite <- bpow_plus; f_equal; lia).
    assert (E2 : bpow radix2 (53 + e) = bpow radix2 53 * b) by (unfold b; now rewrite <- bpow_plus).
    rewrite E1, E2. clear E1 E2. pose proof (bpow_gt_0 radix2 52) as P52. set (t := bpow radix2 52) in *. set (t' := bpow radix2 53) in *.
    assert (A1 : (t + 1) * b <= k * b) by (apply Rmult_le_compat_r; lra).
    assert (A2 : k * b <= (t' - 1) * b) by (apply Rmult_le_compat_r; lra).
    assert (A3 : 0 < t * b) by (apply Rmult_lt_0_compat; lra).
    rewrite Rabs_pos_eq by lra. lra. }
  unfold rnd, round, scaled_mantissa, cexp. rewrite Mg, fx_at by lia. replace (53 + e - 53)%Z with e by lia.
  unfold F2R. cbn [Fnum Fexp]. fold b. f_equal. unfold k. apply f_equal. apply Znearest_imp.
  replace (r * bpow radix2 (- e) - IZR (Zpos m)) with ((r - k * b) * bpow radix2 (- e)).
  2:{ unfold k. rewrite Rmult_minus_distr_r, Rmult_assoc. unfold b. rewrite <- bpow_plus. replace (e + - e)%Z with 0%Z by lia. cbn [bpow]. ring. }
  rewrite Rabs_mult, (Rabs_pos_eq (bpow radix2 (- e))) by apply bpow_ge_0.
  assert (I : bpow radix2 (- e) = / b) by (unfold b; apply bpow_opp). rewrite I.
  assert (A : Rabs (r - k * b) <= / 2000000) by (apply Rabs_le; lra).
  apply Rle_lt_trans with (/ 2000000 * / b).
  - apply Rmult_le_compat_r; [left; now apply Rinv_0_lt_compat|exact A].
  - apply Rmult_lt_reg_r with b; [assumption|]. rewrite Rmult_assoc, Rinv_l by lra. lra.
Qed.

(** ** the double nearest to a fraction *)
Definition sgn (s : bool) : R := if s then -1 else 1.
Lemma sgn_cond s z : IZR (cond_Zopp s z) = sgn s * IZR z.
Proof. destruct s; cbn [cond_Zopp sgn]; [rewrite opp_IZR|]; ring. Qed.
Lemma rnd_sgn s r : rnd (sgn s * r) = sgn s * rnd r.
Proof.
  destruct s; cbn [sgn]; [|now rewrite !Rmult_1_l]. replace (-1 * r) with (- r) by ring. unfold rnd. rewrite round_NE_opp. ring.
Qed.
Lemma abs_sgn s r : Rabs (sgn s * r) = Rabs r.
Proof. destruct s; cbn [sgn]; [replace (-1 * r) with (- r) by ring; apply Rabs_Ropp|now rewrite Rmult_1_l]. Qed.
Lemma finite_SF x : is_finite_SF x = dfinite x. Proof. now destruct x. Qed.
Lemma nearest_spec s n d : (0 <= n)%Z -> (0 < d)%Z ->
  if Rlt_bool (Rabs (rnd (IZR n / IZR d))) big then is_nearest s (sgn s * (IZR n / IZR d)) (nearest s n d)
  else nearest s n d = S754_finite s 9007199254740991 971.
Proof.
  intros N D. unfold nearest. destruct (Z.eqb_spec n 0) as [-> |Nz].
  - replace (0 / IZR d) with 0 by (field; apply IZR_lt in D; lra). rewrite rnd_0, Rabs_R0. rewrite Rlt_bool_true by apply bpow_gt_0.
    split; [split; reflexivity|]. split; [|reflexivity]. rewrite Rmult_0_r, rnd_0. reflexivity.
  - pose proof (Bdiv_correct_aux 53 1024 Hprec Hmax mode_NE s (Z.to_pos n) 0 false (Z.to_pos d) 0) as H. cbv zeta in H.
    unfold SFdiv. destruct (SFdiv_core_binary 53 1024 _ _ _ _) as [[mz ez] lz]. rewrite round_aux_equiv. rewrite xorb_false_r in *.
    destruct H as [V H]. assert (E : forall p, F2R (Float radix2 p 0) = IZR p) by (intros p; unfold F2R; cbn [Fnum Fexp bpow]; ring).
    rewrite !E, sgn_cond, !Z2Pos.id in H by lia. cbn [cond_Zopp] in H. change (round_mode mode_NE) with ZnearestE in H.
    replace (sgn s * IZR n / IZR d) with (sgn s * (IZR n / IZR d)) in H by (unfold Rdiv; ring).
    fold (rnd (sgn s * (IZR n / IZR d))) in H. rewrite rnd_sgn, abs_sgn in H. fold big in H. destruct (Rlt_bool _ _).
    + destruct H as (Hr & Hf & Hs). destruct (binary_round_aux 53 1024 mode_NE s mz ez lz); try discriminate;
        (split; [split; [exact V|reflexivity]|]; split; [rewrite rnd_sgn; exact Hr|exact Hs]).
    + rewrite H, overflow_inf. reflexivity.
Qed.
Lemma proper_unique x y : proper x -> proper y -> real x = real y -> sign_SF x = sign_SF y -> x = y.
Proof.
  intros [Vx Fx] [Vy Fy]. destruct (to_bf x Vx) as [a ->], (to_bf y Vy) as [b ->]. rewrite !finite_bf in *. rewrite !real_bf. intros R S.
  f_equal. apply B2R_Bsign_inj; auto. revert S. destruct a, b; auto.
Qed.
Lemma proper_small x : proper x -> Rabs (real x) < big.
Proof. intros [V F]. destruct (to_bf x V) as [a ->]. rewrite real_bf. apply abs_B2R_lt_emax. Qed.
Lemma times_one x : proper x -> dmul x done = x.
Proof.
  intros P. pose proof (proper_small x P) as Sm. destruct P as [V F]. assert (V1 : dvalid done = true) by reflexivity.
  assert (R1 : real done = 1) by (unfold real; vm_compute; lra).
  pose proof (rnd_real x V) as Rr. pose proof (valid_bf (SF2B done V1)) as V1'.
  destruct (to_bf x V) as [a ->]. replace done with (B2SF (SF2B done V1)) in * by apply B2SF_SF2B. set (o := SF2B done V1) in *.
  rewrite mul_equiv. pose proof (Bmult_correct _ _ _ _ mode_NE a o) as H. rewrite real_bf in R1, Sm, Rr. rewrite R1, Rmult_1_r in H.
  change (round_mode mode_NE) with ZnearestE in H. fold (rnd (B2R a)) in H. rewrite Rr in H. unfold big in Sm. rewrite Rlt_bool_true in H by assumption.
  destruct H as (Hr & Hf & Hs). f_equal. rewrite finite_bf in F. apply B2R_Bsign_inj; auto.
  - rewrite Hf, F. reflexivity.
  - rewrite Hs; [change (Bsign o) with false; apply xorb_false_r|]. destruct (Bmult mode_NE a o); auto. cbn in Hf. rewrite F in Hf. discriminate.
Qed.

(** ** printed and read back *)
Definition micro_of (x : double) : Z := match x with S754_finite _ m e => micros m e | _ => 0%Z end.
(** what becomes of a double *)
Definition once (x : double) : double := nearest (sign_SF x) (micro_of x) 1000000.
Lemma real_split s m e : real (S754_finite s m e) = sgn s * mag_of m e.
Proof. unfold real, SF2R, mag_of, F2R. cbn [Fnum Fexp]. rewrite sgn_cond. ring. Qed.
Lemma mag_pos m e : 0 < mag_of m e.
Proof. rewrite mag_of_val. apply Rmult_lt_0_compat; [now apply IZR_lt|apply bpow_gt_0]. Qed.
Lemma abs_real s m e : Rabs (real (S754_finite s m e)) = mag_of m e.
Proof. rewrite real_split, abs_sgn. apply Rabs_pos_eq. left. apply mag_pos. Qed.
Lemma micro_of_spec x : proper x -> micro_of x = ZnearestE (Rabs (real x) * 1000000).
Proof.
  intros [V F]. destruct x as [s|s| |s m e]; try discriminate; cbn [micro_of].
  - change (real (S754_zero s)) with 0. rewrite Rabs_R0, Rmult_0_l. symmetry. exact (nearest_int 0).
  - rewrite abs_real. apply micros_spec.
Qed.
Lemma micro_of_nonneg x : (0 <= micro_of x)%Z.
Proof.
  destruct x as [s|s| |s m e]; cbn [micro_of]; try lia. rewrite micros_spec. apply nearest_nonneg. pose proof (mag_pos m e). lra.
Qed.
Lemma sgn_real x : proper x -> real x = sgn (sign_SF x) * Rabs (real x).
Proof.
  intros [V F]. destruct x as [s|s| |s m e]; try discriminate; cbn [sign_SF].
  - change (real (S754_zero s)) with 0. rewrite Rabs_R0. ring.
  - rewrite abs_real. apply real_split.
Qed.
Lemma large x : proper x -> bpow radix2 33 <= Rabs (real x) -> rnd (IZR (micro_of x) / 1000000) = Rabs (real x).
Proof.
  intros [V F] L. destruct x as [s|s| |s m e]; try discriminate.
  - exfalso. change (real (S754_zero s)) with 0 in L. rewrite Rabs_R0 in L. pose proof (bpow_gt_0 radix2 33). lra.
  - rewrite abs_real in *. cbn [micro_of]. apply micro_large; [exact V|exact L].
Qed.
Lemma micro_bound x : proper x -> Rabs (real x) < bpow radix2 33 -> (0 <= micro_of x <= 8589934592 * 1000000)%Z.
Proof.
  intros P L. split; [apply micro_of_nonneg|]. rewrite (micro_of_spec x P). rewrite <- (nearest_int (8589934592 * 1000000)). apply nearest_mono.
  rewrite p33 in L. rewrite mult_IZR. lra.
Qed.
Lemma once_range x : proper x -> Rabs (rnd (IZR (micro_of x) / 1000000)) < big.
Proof.
  intros P. destruct (Rle_or_lt (bpow radix2 33) (Rabs (real x))) as [L|L].
  - rewrite (large x P L), Rabs_Rabsolu. now apply proper_small.
  - pose proof (micro_bound x P L) as B. rewrite Rabs_pos_eq.
    + apply Rle_lt_trans with (bpow radix2 33); [|apply bpow_lt; lia]. rewrite <- (rnd_pow 33) by lia. apply rnd_le. rewrite p33.
      destruct B as [_ B]. apply IZR_le in B. rewrite mult_IZR in B. lra.
    + rewrite <- rnd_0. apply rnd_le. destruct B as [B _]. apply IZR_le in B. lra.
Qed.
Lemma once_spec x : proper x -> is_nearest (sign_SF x) (sgn (sign_SF x) * (IZR (micro_of x) / 1000000)) (once x).
Proof.
  intros P. pose proof (nearest_spec (sign_SF x) (micro_of x) 1000000 (micro_of_nonneg x) eq_refl) as H.
  rewrite Rlt_bool_true in H by now apply once_range. exact H.
Qed.
Lemma once_abs x : proper x -> Rabs (real (once x)) = rnd (IZR (micro_of x) / 1000000).
Proof.
  intros P. destruct (once_spec x P) as (_ & R & _). rewrite R, rnd_sgn, abs_sgn, Rabs_pos_eq; [reflexivity|].
  rewrite <- rnd_0. apply rnd_le. pose proof (micro_of_nonneg x) as H. apply IZR_le in H. lra.
Qed.
(** the digits do not change any more *)
Lemma once_micro x : proper x -> micro_of (once x) = micro_of x.
Proof.
  intros P. destruct (once_spec x P) as (P' & _ & _). rewrite (micro_of_spec _ P'), (once_abs x P).
  destruct (Rle_or_lt (bpow radix2 33) (Rabs (real x))) as [L|L].
  - rewrite (large x P L). symmetry. now apply micro_of_spec.
  - apply micro_small. now apply micro_bound.
Qed.
Lemma once_once x : proper x -> once (once x) = once x.
Proof.
  intros P. destruct (once_spec x P) as (P' & _ & S). unfold once at 1. now rewrite (once_micro x P), S.
Qed.
Lemma once_eq x : proper x -> (once x = x <-> Rabs (real x) = rnd (IZR (micro_of x) / 1000000)).
Proof.
  intros P. destruct (once_spec x P) as (P' & R & S). split.
  - intros E. rewrite <- (once_abs x P). now rewrite E.
  - intros E. apply proper_unique; auto. rewrite R, rnd_sgn, <- E. symmetry. now apply sgn_real.
Qed.
Lemma once_exact x : proper x -> (once x = x <-> exists n : Z, real x = rnd (IZR n / 1000000)).
Proof.
  intros P. rewrite (once_eq x P). split.
  - intros E. exists (cond_Zopp (sign_SF x) (micro_of x)). rewrite sgn_cond. rewrite (sgn_real x P) at 1.
    replace (sgn (sign_SF x) * IZR (micro_of x) / 1000000) with (sgn (sign_SF x) * (IZR (micro_of x) / 1000000)) by (unfold Rdiv; ring).
    rewrite rnd_sgn. now rewrite <- E.
  - intros [n E]. destruct (Rle_or_lt (bpow radix2 33) (Rabs (real x))) as [L|L]; [symmetry; now apply large|].
    assert (E' : Rabs (real x) = rnd (IZR (Z.abs n) / 1000000)).
    { rewrite E, abs_IZR. destruct (Rle_or_lt 0 (IZR n)) as [H|H].
      - rewrite (Rabs_pos_eq (IZR n)) by assumption. apply Rabs_pos_eq. rewrite <- rnd_0. apply rnd_le. lra.
      - rewrite (Rabs_left (IZR n)) by assumption. replace (- IZR n / 1000000) with (sgn true * (IZR n / 1000000)) by (cbn [sgn]; field).
        rewrite rnd_sgn. cbn [sgn]. rewrite Rabs_left1; [ring|]. rewrite <- rnd_0. apply rnd_le. lra. }
    assert (B : (0 <= Z.abs n <= 8589934592 * 1000000)%Z).
    { split; [lia|]. apply Znot_gt_le. intros G. assert (bpow radix2 33 <= rnd (IZR (Z.abs n) / 1000000)); [|lra].
      rewrite <- (rnd_pow 33) by lia. apply rnd_le. rewrite p33. apply Z.gt_lt, IZR_lt in G. rewrite mult_IZR in G. lra. }
    rewrite E' at 1. rewrite (micro_of_spec x P), E', micro_small by assumption. reflexivity.
Qed.
Lemma once_close x : proper x -> Rabs (real (once x) - real x) <= / 1000000.
Proof.
  intros P. destruct (once_spec x P) as (P' & R & _). rewrite R, rnd_sgn. rewrite (sgn_real x P) at 1.
  replace (sgn (sign_SF x) * rnd (IZR (micro_of x) / 1000000) - sgn (sign_SF x) * Rabs (real x))
    with (sgn (sign_SF x) * (rnd (IZR (micro_of x) / 1000000) - Rabs (real x))) by ring. rewrite abs_sgn.
  destruct (Rle_or_lt (bpow radix2 33) (Rabs (real x))) as [L|L].
  { rewrite (large x P L). replace (Rabs (real x) - Rabs (real x)) with 0 by ring. rewrite Rabs_R0. lra. }
  pose proof (micro_small _ (micro_bound x P L)) as E.
  assert (H1 : Rabs (rnd (IZR (micro_of x) / 1000000) - IZR (micro_of x) / 1000000) <= / 2000000).
  { pose proof (nearest_half (rnd (IZR (micro_of x) / 1000000) * 1000000)) as H. rewrite E in H. set (a := rnd (IZR (micro_of x) / 1000000)) in *. clearbody a. set (b := IZR (micro_of x)) in *. clearbody b.
    apply Rabs_le_inv in H. apply Rabs_le. lra. }
  assert (H2 : Rabs (IZR (micro_of x) / 1000000 - Rabs (real x)) <= / 2000000).
  { pose proof (nearest_half (Rabs (real x) * 1000000)) as H. rewrite <- (micro_of_spec x P) in H. set (a := Rabs (real x)) in *. clearbody a. set (b := IZR (micro_of x)) in *. clearbody b.
    apply Rabs_le_inv in H. apply Rabs_le. lra. }
  apply Rabs_le_inv in H1, H2. apply Rabs_le. lra.
Qed.

(** ** the texts *)
Lemma digit_prefix_app a c t : forallb is_digit a = true -> is_digit c = false -> digit_prefix (a ++ c :: t) = a.
Proof.
  intros A C. induction a as [|x a IH]; cbn [app digit_prefix]; [now rewrite C|]. cbn in A. apply andb_true_iff in A. destruct A as [A1 A2].
  now rewrite A1, IH.
Qed.
Lemma digit_prefix_all a : forallb is_digit a = true -> digit_prefix a = a.
Proof.
  intros A. induction a as [|x a IH]; [reflexivity|]. cbn in A. apply andb_true_iff in A. destruct A as [A1 A2]. cbn [digit_prefix]. now rewrite A1, IH.
Qed.
Lemma skipn_len {A} (a b : list A) : skipn (length a) (a ++ b) = b.
Proof. induction a; auto. Qed.
Definition read_rest (neg : bool) (t : bytes) : double :=
  let a := digit_prefix t in
  let b := match skipn (length a) t with c :: t => if Ascii.eqb c "." then digit_prefix t else [] | [] => [] end in
  match a ++ b with [] => dzero | ds => nearest neg (dec_value ds) (10 ^ Z.of_nat (length b)) end.
Lemma read_rest_text (neg : bool) (a b : bytes) : forallb is_digit a = true -> forallb is_digit b = true -> a ++ b <> [] ->
  read_rest neg (a ++ "."%char :: b) = nearest neg (dec_value (a ++ b)) (10 ^ Z.of_nat (length b)).
Proof.
  intros A B NE. unfold read_rest. rewrite digit_prefix_app by (assumption || reflexivity). rewrite skipn_len. change (Ascii.eqb "." ".") with true. cbv iota zeta.
  rewrite digit_prefix_all by assumption. destruct (a ++ b); [congruence|reflexivity].
Qed.
Lemma read_text (neg : bool) (a b : bytes) : forallb is_digit a = true -> forallb is_digit b = true -> a ++ b <> [] ->
  float_read ((if neg then ["-"%char] else []) ++ a ++ "."%char :: b) = nearest neg (dec_value (a ++ b)) (10 ^ Z.of_nat (length b)).
Proof.
  intros A B NE. rewrite <- read_rest_text by assumption. destruct neg; [reflexivity|]. cbn [app]. destruct a as [|c a]; [reflexivity|].
  unfold float_read. cbn [app]. destruct (Ascii.eqb_spec c "-") as [-> |_]; [discriminate|reflexivity].
Qed.
Lemma six_digits n : (0 <= n < 1000000)%Z -> forallb is_digit (six n) = true /\ dec_value (six n) = n /\ length (six n) = 6%nat.
Proof.
  intros H. unfold six.
  assert (D : forall k, (0 < k)%Z -> (0 <= n / k mod 10 <= 9)%Z) by (intros k K; pose proof (Z.mod_pos_bound (n / k) 10 eq_refl); lia).
  assert (D0 : (0 <= n mod 10 <= 9)%Z) by (pose proof (Z.mod_pos_bound n 10 eq_refl); lia).
  assert (D5 : (0 <= n / 100000 <= 9)%Z).
  { split; [apply Z.div_pos; lia|]. assert (n / 100000 < 10)%Z; [|lia]. apply Z.div_lt_upper_bound; lia. }
  split; [|split; [|reflexivity]].
  - cbn [forallb]. rewrite !is_digit_char; auto; apply D; lia.
  - unfold dec_value. cbn [fold_left]. rewrite !byteZ_digit_char; auto; try (apply D; lia).
    pose proof (Z.div_mod n 10 ltac:(lia)). pose proof (Z.div_mod (n / 10) 10 ltac:(lia)). pose proof (Z.div_mod (n / 100) 10 ltac:(lia)).
    pose proof (Z.div_mod (n / 1000) 10 ltac:(lia)). pose proof (Z.div_mod (n / 10000) 10 ltac:(lia)).
    rewrite Z.div_div in * by lia. change (10 * 10)%Z with 100%Z in *. change (100 * 10)%Z with 1000%Z in *. change (1000 * 10)%Z with 10000%Z in *. change (10000 * 10)%Z with 100000%Z in *.
    lia.
Qed.
Lemma read_fixed s n : (0 <= n)%Z -> float_read (fixed s n) = nearest s n 1000000.
Proof.
  intros N. unfold fixed. pose proof (Z.div_pos n 1000000 N eq_refl) as Q. destruct (dec_nat_spec (n / 1000000) Q) as [(NE & A & _) V].
  destruct (six_digits (n mod 1000000) (Z.mod_pos_bound n 1000000 eq_refl)) as (B & Vb & Lb).
  rewrite read_text; auto.
  - rewrite dec_value_app, V, Vb, Lb. change (10 ^ Z.of_nat 6)%Z with 1000000%Z. f_equal. pose proof (Z.div_mod n 1000000 ltac:(lia)). lia.
  - intros H. now apply app_eq_nil in H.
Qed.
Lemma text_fixed b x : proper x -> float_text b x = fixed (sign_SF x) (micro_of x).
Proof. intros [_ F]. now destruct x. Qed.
Section Load.
Context (ns : bool) (p10 : Z -> double) (Hp : p10 0%Z = done).
Notation D := (binary64 ns p10).
Lemma reread x : proper x -> f_scale D (f_read D (f_text D x)) 0 = once x.
Proof.
  intros P. cbn [f_scale f_read f_text binary64]. rewrite Hp, (text_fixed ns x P), read_fixed by apply micro_of_nonneg.
  apply times_one. exact (proj1 (once_spec x P)).
Qed.
Lemma same_text x : proper x -> f_text D (once x) = f_text D x.
Proof.
  intros P. destruct (once_spec x P) as (P' & _ & S). cbn [f_text binary64]. now rewrite !text_fixed, once_micro, S.
Qed.
Lemma text_shape x : proper x -> exists c t, f_text D x = c :: t /\ (is_digit c = true \/ c = "-"%char) /\ forallb number_char t = true /\ In "."%char t.
Proof.
  intros P. cbn [f_text binary64]. rewrite (text_fixed ns x P). unfold fixed. pose proof (micro_of_nonneg x) as N.
  destruct (dec_nat_spec (micro_of x / 1000000) (Z.div_pos _ 1000000 N eq_refl)) as [(NE & A & _) _].
  destruct (six_digits (micro_of x mod 1000000) (Z.mod_pos_bound _ 1000000 eq_refl)) as (B & _).
  assert (NC : forall l, forallb is_digit l = true -> forallb number_char l = true).
  { intros l. rewrite !forallb_forall. intros H c I. unfold number_char. now rewrite (H c I). }
  destruct (dec_nat (micro_of x / 1000000)) as [|c a]; [congruence|]. cbn in A. apply andb_true_iff in A. destruct A as [A1 A2].
  destruct (sign_SF x).
  - exists "-"%char, ((c :: a) ++ "."%char :: six (micro_of x mod 1000000)). split; [reflexivity|]. split; [now right|]. split.
    + rewrite forallb_app. cbn [forallb]. unfold number_char at 1. rewrite A1, (NC a A2). cbn [orb andb]. rewrite (NC _ B). reflexivity.
    + apply in_or_app. right. now left.
  - exists c, (a ++ "."%char :: six (micro_of x mod 1000000)). split; [reflexivity|]. split; [now left|]. split.
    + rewrite forallb_app. cbn [forallb]. rewrite (NC a A2), (NC _ B). reflexivity.
    + apply in_or_app. right. now left.
Qed.
Lemma once_stable x : proper x -> float_stable D (once x).
Proof.
  intros P. destruct (once_spec x P) as (P' & _ & _). split; [now apply text_shape|]. rewrite (reread _ P'). now apply once_once.
Qed.
Lemma stable_iff x : proper x -> (float_stable D x <-> once x = x).
Proof.
  intros P. split.
  - intros [_ E]. now rewrite (reread x P) in E.
  - intros E. rewrite <- E. now apply once_stable.
Qed.
End Load.

(** ** whole documents *)
Section Doc.
Context {F : Type} (D : doubles F) (h : F -> F) (FL FL' : F -> Prop) (K : bytes -> Prop).
Context (HT : forall f, FL f -> f_text D (h f) = f_text D f) (HL : forall f, FL f -> FL' (h f)).
Lemma map_dump v : value K FL v -> forall depth tab, dump D depth tab (map_floats h v) = dump D depth tab v.
Proof.
  induction v as [|b|z|f|s|l IH|m IH] using json_ind2; intros V depth tab; try reflexivity.
  - cbn [map_floats dump]. now apply HT.
  - cbn [map_floats dump]. cbn [value] in V. apply (f_equal (fun z => ["["%char] ++ z ++ ["]"%char])).
    match goal with |- ?g true ?a = _ true ?b => enough (G : forall skip, g skip a = g skip b) by apply G end.
    induction l as [|v l IHl]; intros skip; [reflexivity|]. cbn [fold_right] in V. destruct V as [V1 V2]. inversion IH as [|? ? I1 I2]; subst.
    cbn [map]. rewrite (I1 V1). apply f_equal, f_equal. exact (IHl I2 V2 false).
  - cbn [map_floats dump]. cbn [value] in V. destruct V as [_ V].
    apply (f_equal (fun z => ["{"%char; LF] ++ z ++ [LF] ++ skipn 2 (pad depth tab) ++ ["}"%char])).
    match goal with |- ?g true ?a = _ true ?b => enough (G : forall skip, g skip a = g skip b) by apply G end.
    induction m as [|[k v] m IHm]; intros skip; [reflexivity|]. cbn [fold_right fst snd] in V. destruct V as (V1 & V2 & V3). inversion IH as [|? ? I1 I2]; subst.
    cbn [map fst snd]. cbn [snd] in I1. rewrite (I1 V2). do 6 apply f_equal. exact (IHm I2 V3 false).
Qed.
Lemma map_value v : value K FL v -> value K FL' (map_floats h v).
Proof.
  induction v as [|b|z|f|s|l IH|m IH] using json_ind2; intros V; auto.
  - cbn [map_floats value] in *. auto.
  - cbn [map_floats value] in *. induction l as [|v l IHl]; [exact I|]. cbn [fold_right map] in *. destruct V as [V1 V2]. inversion IH; subst. auto.
  - cbn [map_floats value] in *. destruct V as [V1 V2]. split.
    + rewrite map_map. cbn [fst]. exact V1.
    + clear V1. induction m as [|[k v] m IHm]; [exact I|]. cbn [fold_right map fst snd] in *. destruct V2 as (V2 & V3 & V4). inversion IH; subst. cbn [snd] in *. auto.
Qed.
End Doc.

(** ** in terms of the specification *)
Lemma near_opp r : ZnearestE (- r) = (- ZnearestE r)%Z.
Proof.
  rewrite Znearest_opp. f_equal. unfold Znearest. destruct (Rcompare _ _); try reflexivity.
  replace (negb (negb (Z.even (- (Zfloor r + 1))))) with (negb (Z.even (Zfloor r))); [reflexivity|].
  rewrite negb_involutive, Z.even_opp, Z.even_add. change (Z.even 1) with false. now destruct (Z.even _).
Qed.
Lemma to_micro_once x : proper x -> to_micro (real x) = sgn (sign_SF x) * (IZR (micro_of x) / 1000000).
Proof.
  intros P. unfold to_micro. rewrite (sgn_real x P) at 1. rewrite (micro_of_spec x P). destruct (sign_SF x); cbn [sgn].
  - replace (-1 * Rabs (real x) * 1000000) with (- (Rabs (real x) * 1000000)) by ring. rewrite near_opp, opp_IZR. field.
  - now rewrite !Rmult_1_l.
Qed.
Lemma once_micros x : proper x -> is_nearest (sign_SF x) (to_micro (real x)) (once x).
Proof. intros P. rewrite (to_micro_once x P). now apply once_spec. Qed.
Lemma nearest_one s r x y : is_nearest s r x -> is_nearest s r y -> x = y.
Proof. intros (P & R & S) (P' & R' & S'). apply proper_unique; auto; congruence. Qed.
Lemma map_fixed (h : double -> double) (FL : double -> Prop) v : map_floats h v = v -> value escaped FL v -> value escaped (fun x => FL x /\ h x = x) v.
Proof.
  induction v as [|b|z|f|s|l IH|m IH] using json_ind2; intros E V; auto.
  - cbn [map_floats value] in *. split; [assumption|congruence].
  - cbn [map_floats value] in *. injection E as E. induction l as [|v l IHl]; [exact I|]. cbn [fold_right map] in *. destruct V as [V1 V2]. inversion IH; subst.
    injection E as E1 E2. auto.
  - cbn [map_floats value] in *. injection E as E. destruct V as [V1 V2]. split; [assumption|]. clear V1.
    induction m as [|[k v] m IHm]; [exact I|]. cbn [fold_right map fst snd] in *. destruct V2 as (V2 & V3 & V4). inversion IH; subst. cbn [snd] in *.
    injection E as E1 E2. auto.
Qed.
