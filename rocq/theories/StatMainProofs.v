From Coq Require Import Reals Lra Psatz Floats.SpecFloat.
From Flocq Require Import Core IEEE754.BinarySingleNaN.
From Verif Require Import Base Float FloatProofs NumModel NumSpec NumBinProofs StatModel StatSpec StatProofs.
Local Open Scope R_scope.

(** the parts of the result of variance(const int* , int) *)
Lemma variance_parts l rest : fits l -> no_int_overflow l ->
  exists q mm v, variance_of_int (l ++ rest) (len l) = Ok v /\ dvalid v = true /\ dfinite v = true /\
    dvalid q = true /\ dvalid mm = true /\ real v = rnd (real q - real mm) /\
    real mm = rnd (rnd (IZR (zsum l) / IZR (len l)) * rnd (IZR (zsum l) / IZR (len l))) /\
    (sumsq l <= 2 ^ 53 -> real q = rnd (IZR (sumsq l) / IZR (len l)))%Z /\
    rnd (IZR (Z.min (sumsq l) (2 ^ 53)) / IZR (len l)) <= real q.
Proof.
  intros FL [H1 H2]. pose proof (fits_len l FL) as N. pose proof (len_R l FL) as NR.
  unfold variance_of_int. unfold len at 1. rewrite elements_prefix. cbn [bind].
  destruct (add_squares_spec l dzero 0 0 H1) as (ss & -> & V1 & F1 & E1 & B1); try reflexivity; try lia.
  { change (0 <= 0 <= 0). lra. }
  cbn [bind]. destruct (mean_of_int_ok l rest FL H2) as (m & -> & Vm & Fm & Rm & Bm). cbn [bind].
  rewrite Z.add_0_l in E1, B1. rewrite Z.add_0_l in B1.
  destruct (dof_exact (len l)) as (V2 & F2 & R2); [lia|].
  assert (B2 : Rabs (real ss / real (dof (len l))) <= bpow radix2 62).
  { rewrite R2. assert (0 <= IZR (Z.min (sumsq l) (2 ^ 53))) by (apply IZR_le; pose proof (sumsq_nonneg l); lia).
    rewrite Rabs_pos_eq by (apply Rmult_le_pos; [lra|apply Rlt_le, Rinv_0_lt_compat; lra]).
    apply (Rle_trans _ (real ss * 1)); [apply Rmult_le_compat_l; [lra|rewrite <- Rinv_1; apply Rinv_le; lra]|].
    rewrite Rmult_1_r. eapply Rle_trans; [apply B1|]. change (bpow radix2 62) with (IZR (2 ^ 62)). apply IZR_le. lia. }
  destruct (ddiv_ok ss (dof (len l)) 62 V1 V2 F1) as (V3 & F3 & R3); [lra|lia|exact B2|].
  assert (B4 : Rabs (real m * real m) <= bpow radix2 62).
  { rewrite Rabs_mult. change 62%Z with (31 + 31)%Z. rewrite bpow_plus. apply Rmult_le_compat; try apply Rabs_pos; assumption. }
  destruct (dmul_ok m m 62 Vm Vm Fm Fm) as (V4 & F4 & R4); [lia|exact B4|].
  assert (B5 : Rabs (real (ddiv ss (dof (len l))) - real (dmul m m)) <= bpow radix2 63).
  { rewrite R3, R4. replace (rnd (real ss / real (dof (len l))) - rnd (real m * real m)) with (rnd (real ss / real (dof (len l))) + - rnd (real m * real m)) by ring.
    eapply Rle_trans; [apply Rabs_triang|]. rewrite Rabs_Ropp. change 63%Z with (62 + 1)%Z. rewrite bpow_plus. change (bpow radix2 1) with 2.
    pose proof (rnd_bound _ 62 ltac:(lia) B2). pose proof (rnd_bound _ 62 ltac:(lia) B4). lra. }
  destruct (dsub_ok (ddiv ss (dof (len l))) (dmul m m) 63 V3 V4 F3 F4) as (V5 & F5 & R5); [lia|exact B5|].
  exists (ddiv ss (dof (len l))), (dmul m m), (dsub (ddiv ss (dof (len l))) (dmul m m)).
  split; [reflexivity|]. split; [exact V5|]. split; [exact F5|]. split; [exact V3|]. split; [exact V4|]. split; [exact R5|].
  split; [now rewrite R4, Rm|]. split.
  - intros L. rewrite R3, R2, E1 by assumption. reflexivity.
  - rewrite R3, R2. apply rnd_le. apply Rmult_le_compat_r; [apply Rlt_le, Rinv_0_lt_compat; lra|apply B1].
Qed.

Section Core.
Context (l : list Z) (FL : fits l) (NO : no_int_overflow l).
Let n := IZR (len l). Let S := IZR (zsum l). Let N := IZR (sumsq l).
Lemma n_range : 1 <= n <= IZR (2 ^ 31). Proof. exact (len_R l FL). Qed.
Lemma over_n a : 1 <= a -> bpow radix2 (-31) <= a * / n.
Proof.
  intros A. pose proof n_range as R. change (bpow radix2 (-31)) with (/ IZR (2 ^ 31)). rewrite <- (Rmult_1_l (/ IZR (2 ^ 31))).
  assert (0 < IZR (2 ^ 31)) by (apply IZR_lt; reflexivity).
  apply Rmult_le_compat; [lra|apply Rlt_le, Rinv_0_lt_compat; lra|lra|]. apply Rinv_le; lra.
Qed.
Lemma s_big : 0 = S / n \/ bpow radix2 (-31) <= Rabs (S / n).
Proof.
  pose proof n_range as R. destruct (Z.eq_dec (zsum l) 0) as [E|E]; [left; unfold S; rewrite E; field; lra|right].
  unfold Rdiv. rewrite Rabs_mult, Rabs_inv. rewrite (Rabs_pos_eq n) by lra.
  assert (1 <= Rabs S) by (unfold S; rewrite <- abs_IZR; apply IZR_le; lia).
  now apply over_n.
Qed.
Lemma a_big k : (0 <= k)%Z -> 0 = IZR k / n \/ bpow radix2 (-200) <= IZR k / n.
Proof.
  intros K. pose proof n_range as R. destruct (Z.eq_dec k 0) as [->|E]; [left; field; lra|right].
  apply (Rle_trans _ (bpow radix2 (-31))); [apply bpow_le; lia|]. unfold Rdiv.
  apply over_n. apply IZR_le. lia.
Qed.

(** equal entries: all steps are exact *)
Lemma equal_zero q mm : all_equal l ->
  mm = rnd (rnd (S / n) * rnd (S / n)) -> ((sumsq l <= 2 ^ 53)%Z -> q = rnd (N / n)) -> q = mm.
Proof.
  intros A Em Eq. pose proof (fits_len l FL) as LN. pose proof n_range as R.
  assert (exists c, In c l) as [c HC] by (pose proof (proj1 FL) as NE; clear -NE; destruct l as [|c r]; [congruence|exists c; now left]).
  destruct (all_equal_sums l c (fun y Y => A y c Y HC)) as [E1 E2]. pose proof (sum_range _ NO) as [SR _].
  pose proof (square_range c (proj1 NO c HC)) as CR.
  assert (QS : (sumsq l <= 2 ^ 53)%Z) by (rewrite E2; rewrite E1 in SR; nia).
  rewrite (Eq QS), Em. unfold S, N. rewrite E1, E2. rewrite !mult_IZR. fold n.
  replace (n * IZR c / n) with (IZR c) by (field; lra). replace (n * (IZR c * IZR c) / n) with (IZR c * IZR c) by (field; lra).
  rewrite (rnd_int c) by lia. reflexivity.
Qed.
(** different entries: the quotient exceeds the squared mean *)
Lemma different_less q mm x y : In x l -> In y l -> x <> y ->
  mm = rnd (rnd (S / n) * rnd (S / n)) -> rnd (IZR (Z.min (sumsq l) (2 ^ 53)) / n) <= q -> mm < q.
Proof.
  intros X Y XY Em Eq. pose proof (fits_len l FL) as LN. pose proof n_range as R. pose proof (spread_gap l x y X Y XY) as G.
  destruct (sum_range l NO) as [S1 S2]. pose proof u_small as [U0 U1]. assert (U2 : u < / 4503599627370496) by exact U1. assert (U3 : u = / 9007199254740992) by exact u_val.
  assert (L2 : (2 <= len l)%Z).
  { clear -X Y XY. unfold len. destruct l as [|a [|b r]]; [destruct X|destruct X as [<-|[]], Y as [<-|[]]; congruence|cbn [length]; lia]. }
  pose proof (rnd_square (S / n) s_big) as [_ MU]. rewrite <- Em in MU.
  destruct (Z.le_gt_cases (sumsq l) (2 ^ 53)) as [C|C].
  - rewrite Z.min_l in Eq by assumption. fold N in Eq. pose proof (sumsq_nonneg l) as N0.
    destruct (rnd_rel_pos (N / n) (a_big (sumsq l) N0)) as [QL _].
    apply (Rle_lt_trans _ _ _ MU). apply (Rlt_le_trans _ (N / n * (1 - u))); [|lra].
    (* multiply by n^2 *)
    assert (GR : IZR (len l) * IZR (sumsq l) - IZR (zsum l) * IZR (zsum l) >= IZR (len l) - 1).
    { rewrite <- !mult_IZR, <- minus_IZR. replace (IZR (len l) - 1) with (IZR (len l - 1)) by now rewrite minus_IZR. apply Rle_ge, IZR_le. exact G. }
    fold n S N in GR.
    assert (SB : 5 * u * (S * S) < (n - 1) * (1 - u)).
    { destruct (Z.le_gt_cases (len l) (2 ^ 18)) as [A|A].
      - assert (n <= 262144) by (unfold n; change 262144 with (IZR (2 ^ 18)); now apply IZR_le). assert (2 <= n) by (unfold n; now apply IZR_le).
        assert (SS : S * S <= 2147395600 * (n * n)).
        { unfold S, n. rewrite <- !mult_IZR. apply IZR_le. nia. }
        nra.
      - assert (262144 <= n) by (unfold n; change 262144 with (IZR (2 ^ 18)); apply IZR_le; lia).
        assert (SS : S * S <= 4611686018427387904).
        { unfold S. rewrite <- mult_IZR. apply IZR_le. nia. }
        nra. }
    assert (I0 : 0 < / (n * n)) by (apply Rinv_0_lt_compat; nra).
    replace (S / n * (S / n) * (1 + 4 * u)) with (S * S * (1 + 4 * u) * / (n * n)) by (field; lra).
    replace (N / n * (1 - u)) with (n * N * (1 - u) * / (n * n)) by (field; lra).
    apply Rmult_lt_compat_r; [exact I0|]. assert (D : n * N >= S * S + (n - 1)) by lra.
    apply (Rlt_le_trans _ ((S * S + (n - 1)) * (1 - u))); [|apply Rmult_le_compat_r; lra]. lra.
  - rewrite Z.min_r in Eq by lia.
    (* the squares alone exceed 2^53, so there are at least 2^22 entries *)
    assert (LB : (2 ^ 22 <= len l)%Z).
    { destruct NO as [NQ _]. clear -C NQ. assert (sumsq l <= len l * (2 ^ 31))%Z; [|nia].
      clear C. induction l as [|a r IH]; [reflexivity|]. rewrite sumsq_cons, len_cons. specialize (IH (fun y Y => NQ y (or_intror Y))).
      pose proof (NQ a (or_introl eq_refl)) as Q. unfold in_int32, int32_max, int32_min in Q. lia. }
    assert (NB : 4194304 <= n) by (unfold n; change 4194304 with (IZR (2 ^ 22)); now apply IZR_le).
    assert (QB : bpow radix2 22 <= rnd (IZR (2 ^ 53) / n)).
    { rewrite <- (rnd_pow 22) by lia. apply rnd_le. change (bpow radix2 22) with 4194304.
      apply (Rmult_le_reg_r n); [lra|]. replace (IZR (2 ^ 53) / n * n) with (IZR (2 ^ 53)) by (field; lra).
      change (IZR (2 ^ 53)) with 9007199254740992. change (IZR (2 ^ 31)) with 2147483648 in R. lra. }
    change (bpow radix2 22) with 4194304 in QB.
    assert (SQ : S / n * (S / n) <= 262144).
    { replace (S / n * (S / n)) with (S * S * / (n * n)) by (field; lra).
      apply (Rmult_le_reg_r (n * n)); [nra|]. rewrite Rmult_assoc, Rinv_l, Rmult_1_r by nra.
      assert (SS : S * S <= 4611686018427387904) by (unfold S; rewrite <- mult_IZR; apply IZR_le; nia). nra. }
    assert (0 <= S / n * (S / n)) by (apply Rle_0_sqr). nra.
Qed.
(** error bound *)
Lemma error_bound q mm : (sumsq l <= 2 ^ 53)%Z ->
  mm = rnd (rnd (S / n) * rnd (S / n)) -> q = rnd (N / n) ->
  Rabs (rnd (q - mm) - (N / n - S / n * (S / n))) <= 8 * u * (N / n).
Proof.
  intros C Em Eq. pose proof n_range as R. pose proof u_small as [U0 U1]. assert (U2 : u < / 4503599627370496) by exact U1.
  pose proof (rnd_square (S / n) s_big) as MB. rewrite <- Em in MB. pose proof (sumsq_nonneg l) as N0.
  pose proof (rnd_rel_pos (N / n) (a_big (sumsq l) N0)) as QB. rewrite <- Eq in QB.
  assert (SP : S / n * (S / n) <= N / n).
  { pose proof (spread_nonneg l) as G. replace (S / n * (S / n)) with (S * S * / (n * n)) by (field; lra).
    replace (N / n) with (n * N * / (n * n)) by (field; lra). apply Rmult_le_compat_r; [apply Rlt_le, Rinv_0_lt_compat; nra|].
    unfold n, N, S. rewrite <- !mult_IZR. apply IZR_le. unfold spread in G. lia. }
  assert (S0 : 0 <= S / n * (S / n)) by apply Rle_0_sqr.
  pose proof (a_big (sumsq l) N0) as AB. fold N in AB.
  destruct (Req_dec 0 (N / n)) as [Z|Z].
  { rewrite <- Z in *. assert (S / n * (S / n) = 0) as Z2 by lra. rewrite Z2 in *. replace q with 0 by lra. replace mm with 0 by lra.
    rewrite Rminus_0_r, rnd_0, Rminus_0_r, Rabs_R0. lra. }
  assert (T : bpow radix2 (-1075) <= u * / 8 * (N / n)).
  { destruct AB as [E|E]; [contradiction|]. fold N in E.
    apply (Rle_trans _ (u * / 8 * bpow radix2 (-200))); [|apply Rmult_le_compat_l; lra]. unfold u. change (/ 8) with (bpow radix2 (-3)). rewrite <- !bpow_plus. apply bpow_le. lia. }
  pose proof (rnd_err (q - mm)) as ER. apply Rabs_le_inv in ER.
  assert (Q1 : Rabs (q - mm) <= 2 * (N / n)) by (apply Rabs_le; nra).
  apply Rabs_le. nra.
Qed.
End Core.

(** the textbook quantities *)
Lemma rsum_IZR l : rsum (map IZR l) = IZR (zsum l).
Proof. induction l as [|x l IH]; [reflexivity|]. cbn [map rsum]. now rewrite IH, <- plus_IZR. Qed.
Lemma rmean_IZR l : rmean (map IZR l) = IZR (zsum l) / IZR (len l).
Proof. unfold rmean. now rewrite rsum_IZR, map_length, INR_IZR_INZ. Qed.
Lemma rsum_dev m l : rsum (map (fun x => (x - m) * (x - m)) (map IZR l)) = IZR (sumsq l) - 2 * m * IZR (zsum l) + IZR (len l) * (m * m).
Proof.
  induction l as [|x l IH]; [unfold sumsq, len; simpl; ring|]. cbn [map rsum]. rewrite IH, sumsq_cons, StatProofs.zsum_cons, len_cons, !plus_IZR, mult_IZR. ring.
Qed.
Lemma mean_sq_dev_IZR l : fits l ->
  mean_sq_dev (map IZR l) = IZR (sumsq l) / IZR (len l) - IZR (zsum l) / IZR (len l) * (IZR (zsum l) / IZR (len l)).
Proof.
  intros H. pose proof (len_R l H). unfold mean_sq_dev. unfold rmean at 1. rewrite rsum_dev, rmean_IZR, !map_length, INR_IZR_INZ. fold (len l). field. lra.
Qed.
Lemma mean_square_IZR l : rmean (map (fun x => x * x) (map IZR l)) = IZR (sumsq l) / IZR (len l).
Proof.
  unfold rmean. rewrite !map_length, INR_IZR_INZ. fold (len l). f_equal.
  induction l as [|x l IH]; [reflexivity|]. cbn [map rsum]. now rewrite IH, sumsq_cons, plus_IZR, mult_IZR.
Qed.

Lemma variance_of_int_ok l rest : fits l -> no_int_overflow l ->
  exists v, variance_of_int (l ++ rest) (len l) = Ok v /\ dvalid v = true /\ dfinite v = true /\ 0 <= real v /\
    (real v = 0 <-> all_equal l) /\
    ((sumsq l <= 2 ^ 53)%Z -> Rabs (real v - mean_sq_dev (map IZR l)) <= 8 * u * rmean (map (fun x => x * x) (map IZR l))).
Proof.
  intros FL NO. destruct (variance_parts l rest FL NO) as (q & mm & v & E & Vv & Fv & Vq & Vm & Rv & Rm & Rq & Lq).
  exists v. split; [exact E|]. split; [exact Vv|]. split; [exact Fv|]. destruct (all_equal_dec l) as [A|(x & y & X & Y & N)].
  - pose proof (equal_zero l FL NO (real q) (real mm) A Rm Rq) as Z. split; [rewrite Rv, Z, Rminus_eq_0, rnd_0; lra|].
    split; [split; [intros _; exact A|intros _; rewrite Rv, Z, Rminus_eq_0; apply rnd_0]|].
    intros C. rewrite mean_sq_dev_IZR, mean_square_IZR, Rv by assumption. apply (error_bound l FL); auto.
  - pose proof (different_less l FL NO (real q) (real mm) x y X Y N Rm Lq) as L.
    pose proof (rnd_sub_neq q mm Vq Vm ltac:(lra)) as NZ. assert (P : 0 <= rnd (real q - real mm)) by (apply rnd_pos; lra).
    split; [now rewrite Rv|]. split; [rewrite Rv; split; [intros; contradiction|intros A; elim N; now apply A]|].
    intros C. rewrite mean_sq_dev_IZR, mean_square_IZR, Rv by assumption. apply (error_bound l FL); auto.
Qed.
Lemma int_squares_bad l acc : ~ (forall x, In x l -> in_int32 (x * x) = true) -> add_int_squares l acc = UB.
Proof.
  revert acc. induction l as [|x l IH]; intros acc H; [elim H; intros x []|]. cbn [add_int_squares]. unfold chk32. destruct (in_int32 (x * x)) eqn:E; [|reflexivity].
  cbn [bind]. apply IH. intros A. apply H. intros y [<-|Y]; auto.
Qed.
Lemma int_squares_total l acc : (exists r, add_int_squares l acc = Ok r) \/ add_int_squares l acc = UB.
Proof. revert acc. induction l as [|x l IH]; intros acc; [left; eexists; reflexivity|]. cbn [add_int_squares]. unfold chk32. destruct (in_int32 (x * x)); [apply IH|now right]. Qed.
Lemma squares_dec l : (forall x, In x l -> in_int32 (x * x) = true) \/ ~ (forall x, In x l -> in_int32 (x * x) = true).
Proof.
  induction l as [|x l [I|I]]; [left; intros x []| |right; intros F; apply I; intros y Y; apply F; now right].
  destruct (in_int32 (x * x)) eqn:E; [left; intros y [<-|Y]; auto|right; intros F; rewrite F in E; [discriminate|now left]].
Qed.
Lemma variance_of_int_bad l rest : ~ no_int_overflow l -> variance_of_int (l ++ rest) (len l) = UB.
Proof.
  intros H. unfold variance_of_int, mean_of_int, len. rewrite !elements_prefix. cbn [bind].
  destruct (squares_dec l) as [S|S]; [|now rewrite int_squares_bad]. destruct (int_squares_total l dzero) as [[r ->]| ->]; [|reflexivity].
  cbn [bind]. rewrite sum_int_bad; [reflexivity|]. intros P. apply H. now split.
Qed.
Lemma stddev_of_nonneg v : dvalid v = true -> dfinite v = true -> 0 <= real v ->
  dfinite (dsqrt v) = true /\ 0 <= real (dsqrt v) /\ real (dsqrt v) = rnd (sqrt (real v)) /\ (real (dsqrt v) = 0 <-> real v = 0).
Proof.
  intros V F P. destruct (dsqrt_spec v V F P) as (V2 & F2 & R2). split; [exact F2|]. rewrite R2.
  assert (0 <= rnd (sqrt (real v))) by (apply rnd_pos, sqrt_pos). split; [assumption|]. split; [reflexivity|].
  split; [|intros ->; rewrite sqrt_0; apply rnd_0]. intros Z.
  destruct (Rle_lt_or_eq_dec 0 (real v) P) as [L|E]; [exfalso|now rewrite <- E].
  (* a positive double is at least 2^-1074, its root at least 2^-537 *)
  assert (G : bpow radix2 (-1074) <= real v).
  { destruct (to_bf v V) as [b Eb]. rewrite Eb, real_bf in *. pose proof (generic_format_B2R 53 1024 b) as GF.
    change (SpecFloat.fexp 53 1024) with (FLT_exp (-1074) 53) in GF. apply (generic_format_ge_bpow radix2 (FLT_exp (-1074) 53)); [intros e; unfold FLT_exp; lia|exact L|exact GF]. }
  assert (Q : bpow radix2 (-537) <= sqrt (real v)).
  { rewrite <- (sqrt_Rsqr (bpow radix2 (-537))) by apply bpow_ge_0. apply sqrt_le_1_alt. unfold Rsqr. rewrite <- bpow_plus. exact G. }
  apply rnd_le in Q. rewrite rnd_pow in Q by lia. pose proof (bpow_gt_0 radix2 (-537)). lra.
Qed.

(** mean of ints lies between the extremes *)
Lemma mean_between l rest lo hi : fits l -> (forall p q, l = p ++ q -> in_int32 (zsum p) = true) ->
  (forall x, In x l -> lo <= x <= hi)%Z -> in_int32 lo = true -> in_int32 hi = true ->
  exists m, mean_of_int (l ++ rest) (len l) = Ok m /\ dfinite m = true /\ IZR lo <= real m <= IZR hi /\ real m = rnd (rmean (map IZR l)).
Proof.
  intros FL H B LO HI. destruct (mean_of_int_ok l rest FL H) as (m & E & V & F & R & _). exists m. split; [exact E|]. split; [exact F|].
  rewrite rmean_IZR. split; [|exact R]. rewrite R. pose proof (len_R l FL) as NR.
  assert (SB : (lo * len l <= zsum l <= hi * len l)%Z).
  { clear -B. induction l as [|x l IH]; [unfold len; simpl; lia|]. rewrite StatProofs.zsum_cons, len_cons. specialize (IH (fun y Y => B y (or_intror Y))). pose proof (B x (or_introl eq_refl)). lia. }
  unfold in_int32, int32_max, int32_min in LO, HI. rewrite <- (rnd_int lo), <- (rnd_int hi) by lia. split; apply rnd_le.
  - apply (Rmult_le_reg_r (IZR (len l))); [lra|]. unfold Rdiv. rewrite Rmult_assoc, Rinv_l, Rmult_1_r by lra. rewrite <- mult_IZR. apply IZR_le. lia.
  - apply (Rmult_le_reg_r (IZR (len l))); [lra|]. unfold Rdiv. rewrite Rmult_assoc, Rinv_l, Rmult_1_r by lra. rewrite <- mult_IZR. apply IZR_le. lia.
Qed.

(** arrays of doubles: no result is negative *)
Definition nn (x : double) : Prop := match x with S754_zero _ | S754_nan => True | S754_infinity s | S754_finite s _ _ => s = false end.
Lemma nn_not_negative x : nn x -> dltb x dzero = false.
Proof. destruct x as [s|s| |s m e]; simpl; try reflexivity; intros ->; reflexivity. Qed.
Lemma nn_round mx ex lx : nn (SpecFloat.binary_round_aux 53 1024 false mx ex lx).
Proof.
  unfold SpecFloat.binary_round_aux. destruct (shr_fexp 53 1024 mx ex lx) as [r1 e1]. destruct (shr_fexp 53 1024 _ e1 loc_Exact) as [r2 e2].
  destruct (shr_m r2); simpl; auto. destruct (Z.leb _ _); simpl; auto.
Qed.
Lemma nn_round_pos p e : nn (SpecFloat.binary_round 53 1024 false p e).
Proof. unfold SpecFloat.binary_round. destruct (shl_align p e _) as [mz ez]. apply nn_round. Qed.
Lemma nn_square d : nn (dmul d d).
Proof. destruct d as [s|s| |s m e]; try exact I; unfold dmul, SFmul; rewrite Bool.xorb_nilpotent; [reflexivity|apply nn_round]. Qed.
Lemma nn_add x y : nn x -> nn y -> nn (dadd x y).
Proof.
  destruct x as [sx|sx| |sx mx ex], y as [sy|sy| |sy my ey]; simpl; auto; try (intros -> ->); try (intros _ ->); try (intros -> _); simpl; auto.
  - intros _ _. destruct (Bool.eqb sx sy); exact I.
  - apply nn_round_pos.
Qed.
Lemma nn_div x n : nn x -> (0 < n < 2 ^ 53)%Z -> nn (ddiv x (dof n)).
Proof.
  intros H N. destruct (dof_exact n) as (V & F & R); [lia|]. assert (P : 0 < real (dof n)) by (rewrite R; apply IZR_lt; lia).
  destruct (dof n) as [s|s| |s m e]; try discriminate; [simpl in P; lra|]. destruct s.
  { exfalso. unfold real in P. pose proof (F2R_lt_0 radix2 (Float radix2 (Z.neg m) e) eq_refl). simpl in P. lra. }
  destruct x as [sx|sx| |sx mx ex]; simpl in H; subst; try exact I; [reflexivity|]. unfold ddiv, SFdiv. cbn [xorb].
  destruct (SFdiv_core_binary 53 1024 _ _ _ _) as [[mz ez] lz]. apply nn_round.
Qed.
Lemma nn_squares m l : nn (add_squares m l).
Proof.
  unfold add_squares. assert (W : forall acc, nn acc -> nn (fold_left (fun acc x => let d := dsub x m in dadd acc (dmul d d)) l acc)); [|apply W; exact I].
  induction l as [|x l IH]; intros acc H; [exact H|]. cbn [fold_left]. apply IH, nn_add; [exact H|apply nn_square].
Qed.
Lemma add_fold_bound {A} (f : A -> double) K l : (-1000 <= K <= 982)%Z -> forall k acc,
  (forall x, In x l -> dvalid (f x) = true /\ dfinite (f x) = true /\ Rabs (real (f x)) <= bpow radix2 K) ->
  dvalid acc = true -> dfinite acc = true -> (0 <= k)%Z -> (k + Z.of_nat (length l) <= 2 ^ 31)%Z -> Rabs (real acc) <= IZR k * bpow radix2 K ->
  let r := fold_left (fun acc x => dadd acc (f x)) l acc in
  dvalid r = true /\ dfinite r = true /\ Rabs (real r) <= IZR (k + Z.of_nat (length l)) * bpow radix2 K.
Proof.
  intros KB. induction l as [|x l IH]; intros k acc H V F K0 KL B r.
  - subst r. cbn [fold_left length]. rewrite Z.add_0_r. auto.
  - subst r. cbn [fold_left]. destruct (H x (or_introl eq_refl)) as (Vx & Fx & Bx). cbn [length] in KL |- *. rewrite Nat2Z.inj_succ in *.
    assert (G : Rabs (real acc + real (f x)) <= IZR (k + 1) * bpow radix2 K).
    { eapply Rle_trans; [apply Rabs_triang|]. rewrite plus_IZR. lra. }
    assert (GK : IZR (k + 1) * bpow radix2 K <= bpow radix2 (31 + K)).
    { rewrite bpow_plus. apply Rmult_le_compat_r; [apply bpow_ge_0|]. change (bpow radix2 31) with (IZR (2 ^ 31)). apply IZR_le. lia. }
    destruct (dadd_ok acc (f x) (31 + K) V Vx F Fx) as (V2 & F2 & R2); [lia|lra|].
    replace (k + Z.succ (Z.of_nat (length l)))%Z with (k + 1 + Z.of_nat (length l))%Z by lia. apply IH; try assumption; try lia.
    + intros y Y. apply H. now right.
    + rewrite R2. assert (E : rnd (IZR (k + 1) * bpow radix2 K) = IZR (k + 1) * bpow radix2 K).
      { unfold rnd. apply round_generic; [typeclasses eauto|]. change fx with (FLT_exp (-1074) 53). apply generic_format_FLT.
        exists (Float radix2 (k + 1) K); [reflexivity| |]; simpl; lia. }
      apply Rabs_le. apply Rabs_le_inv in G. split; [|rewrite <- E; apply rnd_le; tauto].
      rewrite <- E. unfold rnd at 1. rewrite <- round_NE_opp. apply rnd_le. lra.
Qed.
Lemma div_count x n K : dvalid x = true -> dfinite x = true -> (1 <= n <= 2 ^ 31)%Z -> (-1000 <= K <= 990)%Z -> Rabs (real x) <= IZR n * bpow radix2 K ->
  dvalid (ddiv x (dof n)) = true /\ dfinite (ddiv x (dof n)) = true /\ Rabs (real (ddiv x (dof n))) <= bpow radix2 K.
Proof.
  intros V F N KB B. destruct (dof_exact n) as (V2 & F2 & R2); [lia|]. assert (1 <= IZR n) by now apply IZR_le.
  assert (G : Rabs (real x / real (dof n)) <= bpow radix2 K).
  { rewrite R2. unfold Rdiv. rewrite Rabs_mult, Rabs_inv, (Rabs_pos_eq (IZR n)) by lra. apply (Rmult_le_reg_r (IZR n)); [lra|]. rewrite Rmult_assoc, Rinv_l, Rmult_1_r by lra. lra. }
  destruct (ddiv_ok x (dof n) K V V2 F) as (V3 & F3 & R3); [lra|lia|exact G|]. rewrite R3. split; [assumption|]. split; [assumption|]. apply rnd_bound; [lia|exact G].
Qed.
Lemma variance_of_double_ok l rest : l <> [] -> (Z.of_nat (length l) <= int32_max)%Z ->
  (forall x, In x l -> dvalid x = true /\ dfinite x = true /\ Rabs (real x) <= bpow radix2 490) ->
  exists v, variance_of_double (l ++ rest) (Z.of_nat (length l)) = Ok v /\ dvalid v = true /\ dfinite v = true /\ 0 <= real v.
Proof.
  intros NE L H. unfold variance_of_double, mean_of_double, sum_double. rewrite elements_prefix. cbn [bind]. eexists. split; [reflexivity|].
  assert (N : (1 <= Z.of_nat (length l) < 2 ^ 31)%Z) by (unfold int32_max in L; destruct l; [congruence|cbn [length] in *; lia]). set (n := Z.of_nat (length l)) in *.
  destruct (add_fold_bound (fun x => x) 490 l ltac:(lia) 0 dzero H eq_refl eq_refl ltac:(lia) ltac:(lia)) as (V1 & F1 & B1).
  { simpl. rewrite Rabs_R0, Rmult_0_l. lra. }
  fold n in B1. rewrite Z.add_0_l in B1. change (fold_left (fun acc x : double => dadd acc x) l dzero) with (fold_left dadd l dzero) in *.
  destruct (div_count _ n 490 V1 F1 ltac:(lia) ltac:(lia) B1) as (V2 & F2 & B2). set (m := ddiv (fold_left dadd l dzero) (dof n)) in *.
  destruct (add_fold_bound (fun x => dmul (dsub x m) (dsub x m)) 982 l ltac:(lia) 0 dzero) as (V3 & F3 & B3); try reflexivity; try lia.
  { intros x X. destruct (H x X) as (Vx & Fx & Bx).
    assert (G : Rabs (real x - real m) <= bpow radix2 491).
    { unfold Rminus. eapply Rle_trans; [apply Rabs_triang|]. rewrite Rabs_Ropp. change 491%Z with (490 + 1)%Z. rewrite bpow_plus. change (bpow radix2 1) with 2. lra. }
    destruct (dsub_ok x m 491 Vx V2 Fx F2) as (V4 & F4 & R4); [lia|exact G|].
    apply (rnd_bound _ 491) in G; [|lia]. rewrite <- R4 in G.
    assert (G2 : Rabs (real (dsub x m) * real (dsub x m)) <= bpow radix2 982).
    { rewrite Rabs_mult. change 982%Z with (491 + 491)%Z. rewrite bpow_plus. apply Rmult_le_compat; try apply Rabs_pos; assumption. }
    destruct (dmul_ok _ _ 982 V4 V4 F4 F4) as (V5 & F5 & R5); [lia|exact G2|]. rewrite R5. repeat split; try assumption. apply rnd_bound; [lia|exact G2]. }
  { simpl. rewrite Rabs_R0, Rmult_0_l. lra. }
  fold n in B3. rewrite Z.add_0_l in B3. change (fold_left (fun acc x => dadd acc (dmul (dsub x m) (dsub x m))) l dzero) with (add_squares m l) in *.
  destruct (div_count _ n 982 V3 F3 ltac:(lia) ltac:(lia) B3) as (V6 & F6 & _). split; [exact V6|]. split; [exact F6|].
  pose proof (nn_not_negative _ (nn_div _ n (nn_squares m l) ltac:(lia))) as P. rewrite dltb_spec in P by (assumption || reflexivity).
  destruct (Rlt_bool_spec (real (ddiv (add_squares m l) (dof n))) (real dzero)) as [C|C]; [discriminate|exact C].
Qed.
Lemma variance_of_double_sign l rest : l <> [] -> (Z.of_nat (length l) <= int32_max)%Z ->
  exists v, variance_of_double (l ++ rest) (Z.of_nat (length l)) = Ok v /\ dltb v dzero = false.
Proof.
  intros NE L. unfold variance_of_double, mean_of_double, sum_double. rewrite elements_prefix. cbn [bind]. eexists. split; [reflexivity|].
  apply nn_not_negative, nn_div; [apply nn_squares|]. unfold int32_max in L. destruct l; [congruence|cbn [length] in *; lia].
Qed.

(** the container version for ints *)
Lemma rnd_scaled k K : (0 <= k <= 2 ^ 31)%Z -> (-1000 <= K)%Z -> rnd (IZR k * bpow radix2 K) = IZR k * bpow radix2 K.
Proof.
  intros A B. unfold rnd. apply round_generic; [typeclasses eauto|]. change fx with (FLT_exp (-1074) 53). apply generic_format_FLT.
  exists (Float radix2 k K); [reflexivity| |]; simpl; lia.
Qed.
Lemma grid m : dvalid m = true -> real m = 0 \/ bpow radix2 (-32) <= Rabs (real m) -> exists k, real m = IZR k * bpow radix2 (-90).
Proof.
  intros V [E|B]; [exists 0%Z; rewrite E; ring|]. destruct (to_bf m V) as [b Eb]. pose proof (generic_format_B2R 53 1024 b) as GF.
  rewrite Eb, real_bf in *. unfold generic_format, F2R in GF. cbn [Fnum Fexp] in GF. unfold cexp in GF.
  assert (M : (-32 < mag radix2 (B2R b))%Z).
  { apply mag_gt_bpow. exact B. }
  assert (C : (-90 <= fx (mag radix2 (B2R b)))%Z) by (unfold SpecFloat.fexp, SpecFloat.emin; lia).
  set (e := fx (mag radix2 (B2R b))) in *. set (t := Ztrunc _) in GF.
  exists (t * 2 ^ (e + 90))%Z. rewrite mult_IZR. rewrite GF at 1. rewrite Rmult_assoc. f_equal.
  replace e with (e + 90 + -90)%Z at 1 by lia. rewrite bpow_plus. f_equal. rewrite <- IZR_Zpower by lia. reflexivity.
Qed.
Lemma grid_gap x m : dvalid m = true -> real m = 0 \/ bpow radix2 (-32) <= Rabs (real m) -> IZR x <> real m ->
  bpow radix2 (-200) <= Rabs (rnd (IZR x - real m)).
Proof.
  intros V B N. destruct (grid m V B) as [k E].
  assert (G : bpow radix2 (-200) <= Rabs (IZR x - real m)).
  { apply (Rle_trans _ (bpow radix2 (-90))); [apply bpow_le; lia|].
    assert (D : IZR x - real m = IZR (x * 2 ^ 90 - k) * bpow radix2 (-90)).
    { rewrite minus_IZR, mult_IZR, Rmult_minus_distr_r, <- E. f_equal. change (IZR (2 ^ 90)) with (bpow radix2 90). rewrite Rmult_assoc, <- bpow_plus. simpl. ring. }
    rewrite D in *. rewrite Rabs_mult, (Rabs_pos_eq (bpow _ _)) by apply bpow_ge_0. rewrite <- (Rmult_1_l (bpow radix2 (-90))) at 1.
    apply Rmult_le_compat_r; [apply bpow_ge_0|]. rewrite <- abs_IZR. apply IZR_le.
    assert (x * 2 ^ 90 - k <> 0)%Z; [|lia]. intros Z. rewrite Z, Rmult_0_l in D. apply N. lra. }
  rewrite <- (rnd_pow (-200)) by lia. apply rnd_le in G.
  replace (Rabs (rnd (IZR x - real m))) with (rnd (Rabs (IZR x - real m))); [exact G|].
  unfold rnd. apply round_NE_abs. typeclasses eauto.
Qed.
Lemma squares_lower m l : dvalid m = true -> dfinite m = true -> Rabs (real m) <= bpow radix2 31 -> real m = 0 \/ bpow radix2 (-32) <= Rabs (real m) ->
  (forall x, In x l -> in_int32 x = true) -> forall k acc, dvalid acc = true -> dfinite acc = true -> (0 <= k)%Z -> (k + len l <= 2 ^ 31)%Z ->
  0 <= real acc <= IZR k * bpow radix2 64 ->
  let r := fold_left (fun acc x => let d := dsub x m in dadd acc (dmul d d)) (map dof l) acc in
  dvalid r = true /\ dfinite r = true /\ real acc <= real r <= IZR (k + len l) * bpow radix2 64 /\
  (forall x, In x l -> IZR x <> real m -> bpow radix2 (-400) <= real r) /\ ((forall x, In x l -> IZR x = real m) -> real acc = 0 -> real r = 0).
Proof.
  intros Vm Fm Bm Gm. induction l as [|x l IH]; intros H k acc V F K0 K B r.
  - subst r. cbn [map fold_left]. change (len []) with 0%Z. rewrite Z.add_0_r. repeat split; try assumption; try lra. intros x [].
  - subst r. cbn [map fold_left]. rewrite len_cons in K |- *. assert (L0 : (0 <= len l)%Z) by (unfold len; lia).
    pose proof (H x (or_introl eq_refl)) as X. unfold in_int32, int32_max, int32_min in X. destruct (dof_exact x) as (Vx & Fx & Rx); [lia|].
    assert (BX : Rabs (IZR x) <= bpow radix2 31) by (rewrite <- abs_IZR; change (bpow radix2 31) with (IZR (2 ^ 31)); apply IZR_le; lia).
    assert (G : Rabs (real (dof x) - real m) <= bpow radix2 32).
    { rewrite Rx. unfold Rminus. eapply Rle_trans; [apply Rabs_triang|]. rewrite Rabs_Ropp. change 32%Z with (31 + 1)%Z. rewrite bpow_plus. change (bpow radix2 1) with 2. lra. }
    destruct (dsub_ok (dof x) m 32 Vx Vm Fx Fm) as (V4 & F4 & R4); [lia|exact G|]. pose proof (rnd_bound _ 32 ltac:(lia) G) as G1. rewrite <- R4 in G1.
    assert (G2 : Rabs (real (dsub (dof x) m) * real (dsub (dof x) m)) <= bpow radix2 64).
    { rewrite Rabs_mult. change 64%Z with (32 + 32)%Z. rewrite bpow_plus. apply Rmult_le_compat; try apply Rabs_pos; assumption. }
    destruct (dmul_ok _ _ 64 V4 V4 F4 F4) as (V5 & F5 & R5); [lia|exact G2|]. pose proof (rnd_bound _ 64 ltac:(lia) G2) as G3. rewrite <- R5 in G3.
    assert (P5 : 0 <= real (dmul (dsub (dof x) m) (dsub (dof x) m))) by (rewrite R5; apply rnd_pos, Rle_0_sqr). rewrite Rabs_pos_eq in G3 by assumption.
    set (sq := dmul (dsub (dof x) m) (dsub (dof x) m)) in *. clearbody sq.
    assert (G4 : 0 <= real acc + real sq <= IZR (k + 1) * bpow radix2 64) by (rewrite plus_IZR; lra).
    assert (GK : IZR (k + 1) * bpow radix2 64 <= bpow radix2 95).
    { change 95%Z with (31 + 64)%Z. rewrite bpow_plus. apply Rmult_le_compat_r; [apply bpow_ge_0|]. change (bpow radix2 31) with (IZR (2 ^ 31)). apply IZR_le. lia. }
    destruct (dadd_ok acc sq 95 V V5 F F5) as (V6 & F6 & R6); [lia|rewrite Rabs_pos_eq; lra|].
    assert (U6 : real (dadd acc sq) <= IZR (k + 1) * bpow radix2 64).
    { assert (E := rnd_scaled (k + 1) 64 ltac:(clear -K K0 L0; lia) ltac:(clear; lia)).
      rewrite R6. rewrite <- E. apply rnd_le. lra. }
    assert (L6 : real acc <= real (dadd acc sq)) by (rewrite R6, <- (rnd_real acc V) at 1; apply rnd_le; lra).
    assert (L7 : real sq <= real (dadd acc sq)) by (rewrite R6, <- (rnd_real sq V5) at 1; apply rnd_le; lra).
    destruct (IH (fun y Y => H y (or_intror Y)) (k + 1)%Z (dadd acc sq) V6 F6 ltac:(clear -K0; lia) ltac:(clear -K; lia) ltac:(lra)) as (V7 & F7 & B7 & P7 & Z7).
    cbn zeta in *. set (r := fold_left _ (map dof l) (dadd acc sq)) in *.
    split; [assumption|]. split; [assumption|]. replace (k + (len l + 1))%Z with (k + 1 + len l)%Z by (clear; lia). split; [lra|]. split.
    + intros y [<-|Y] N; [|now apply (P7 y Y)]. assert (bpow radix2 (-400) <= real sq); [|lra].
      assert (DB : bpow radix2 (-200) <= Rabs (real (dsub (dof x) m))) by (rewrite R4, Rx; now apply grid_gap).
      assert (SB : bpow radix2 (-400) <= real (dsub (dof x) m) * real (dsub (dof x) m)).
      { replace (real (dsub (dof x) m) * real (dsub (dof x) m)) with (Rabs (real (dsub (dof x) m)) * Rabs (real (dsub (dof x) m))) by (rewrite <- Rabs_mult; apply Rabs_pos_eq, Rle_0_sqr). change (-400)%Z with (-200 + -200)%Z. rewrite bpow_plus. apply Rmult_le_compat; try apply bpow_ge_0; assumption. }
      apply rnd_le in SB. rewrite rnd_pow in SB by (clear; lia). now rewrite R5.
    + intros A E0. apply Z7; [intros y Y; apply A; now right|]. rewrite R6. assert (E : real sq = 0).
      { rewrite R5, R4, Rx, (A x (or_introl eq_refl)), Rminus_eq_0, rnd_0, Rmult_0_l. apply rnd_0. }
      rewrite E, E0, Rplus_0_r. apply rnd_0.
Qed.
Lemma variance_container_ok l : fits l -> (forall x, In x l -> in_int32 x = true) -> (forall p q, l = p ++ q -> in_int32 (zsum p) = true) ->
  exists v, variance_of_int_container l = Ok v /\ dvalid v = true /\ dfinite v = true /\ 0 <= real v /\ (real v = 0 <-> all_equal l).
Proof.
  intros FL H P. unfold variance_of_int_container. rewrite sum_int_ok by assumption. cbn [bind]. cbv zeta. fold (len l). eexists. split; [reflexivity|].
  destruct (mean_of_int_ok l [] FL P) as (m & E & Vm & Fm & Rm & Bm). unfold mean_of_int in E. unfold len at 1 in E. rewrite elements_prefix in E. cbn [bind] in E.
  rewrite sum_int_ok in E by assumption. cbn [bind] in E. injection E as E. rewrite E. clear E.
  pose proof (fits_len l FL) as LN. pose proof (len_R l FL) as NR.
  assert (Gm : real m = 0 \/ bpow radix2 (-32) <= Rabs (real m)).
  { rewrite Rm. destruct (s_big l FL) as [Z|Z]; [left; rewrite <- Z; apply rnd_0|right].
    apply (Rle_trans _ (bpow radix2 (-31))); [apply bpow_le; lia|]. rewrite <- (rnd_pow (-31)) by lia. apply rnd_le in Z.
    replace (Rabs (rnd (IZR (zsum l) / IZR (len l)))) with (rnd (Rabs (IZR (zsum l) / IZR (len l)))); [exact Z|]. unfold rnd. apply round_NE_abs. typeclasses eauto. }
  destruct (squares_lower m l Vm Fm Bm Gm H 0 dzero eq_refl eq_refl) as (V1 & F1 & B1 & P1 & Z1); [lia|lia|simpl; lra|]. cbv zeta in *.
  change (fold_left _ (map dof l) dzero) with (add_squares m (map dof l)) in *. change (real dzero) with 0 in *. rewrite Z.add_0_l in B1.
  destruct (div_count _ (len l) 64 V1 F1 ltac:(lia) ltac:(lia)) as (V2 & F2 & _); [rewrite Rabs_pos_eq; lra|]. split; [exact V2|]. split; [exact F2|].
  destruct (dof_exact (len l)) as (V3 & F3 & R3); [lia|].
  destruct (ddiv_ok (add_squares m (map dof l)) (dof (len l)) 95 V1 V3 F1) as (_ & _ & R4); [lra|lia| |].
  { rewrite R3. unfold Rdiv. rewrite Rabs_pos_eq by (apply Rmult_le_pos; [lra|apply Rlt_le, Rinv_0_lt_compat; lra]). apply (Rmult_le_reg_r (IZR (len l))); [lra|].
    rewrite Rmult_assoc, Rinv_l, Rmult_1_r by lra. eapply Rle_trans; [apply B1|]. rewrite Rmult_comm. apply Rmult_le_compat_r; [lra|]. apply bpow_le. lia. }
  rewrite R4, R3. split; [apply rnd_pos; apply Rmult_le_pos; [lra|apply Rlt_le, Rinv_0_lt_compat; lra]|].
  destruct (all_equal_dec l) as [A|(x & y & X & Y & N)].
  - split; [intros _; exact A|intros _]. rewrite Z1; [|clear Z1|reflexivity].
    + unfold Rdiv. rewrite Rmult_0_l. apply rnd_0.
    + intros x X. destruct (all_equal_sums l x (fun y Y => A y x Y X)) as [E1 _]. rewrite Rm, E1, mult_IZR.
      replace (IZR (len l) * IZR x / IZR (len l)) with (IZR x) by (field; lra). symmetry. apply rnd_int. pose proof (H x X) as Q. unfold in_int32, int32_max, int32_min in Q. lia.
  - split; [|intros A; elim N; now apply A]. intros E. exfalso.
    assert (Q : exists z, In z l /\ IZR z <> real m).
    { destruct (Req_dec (IZR x) (real m)) as [Q|Q]; [|eauto]. exists y. split; [exact Y|]. rewrite <- Q. intros W. apply N. now apply eq_IZR in W. }
    destruct Q as (z & Z & NZ). specialize (P1 z Z NZ). clear Z1.
    assert (W : bpow radix2 (-431) <= real (add_squares m (map dof l)) / IZR (len l)).
    { apply (Rmult_le_reg_r (IZR (len l))); [lra|]. unfold Rdiv. rewrite Rmult_assoc, Rinv_l, Rmult_1_r by lra.
      eapply Rle_trans; [|exact P1]. change (-400)%Z with (-431 + 31)%Z. rewrite bpow_plus. apply Rmult_le_compat_l; [apply bpow_ge_0|exact (proj2 NR)]. }
    apply rnd_le in W. rewrite rnd_pow in W by lia. pose proof (bpow_gt_0 radix2 (-431)). lra.
Qed.
