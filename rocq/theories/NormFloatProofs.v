(** The polar method in binary64: every accepted round gives finite numbers of
    size at most 13. *)
From Coq Require Import Reals Lra Psatz Floats.SpecFloat.
From Flocq Require Import Core Mult_error.
From Verif Require Import Base Float FloatProofs StatProofs NumModel RandModel RandSpec RandDoubleProofs DistModel DistNumSpec DistNumProofs DistAccProofs NormModel NormSpec.
Local Open Scope R_scope.

Lemma real_m1 : real (dof (-1)) = -1 /\ number (dof (-1)).
Proof. split; [vm_compute; lra|split; vm_compute; reflexivity]. Qed.
Lemma real_m2 : real (dof (-2)) = -2 /\ number (dof (-2)).
Proof. split; [vm_compute; lra|split; vm_compute; reflexivity]. Qed.
Lemma two_diff : dsub done (dof (-1)) = dof 2. Proof. vm_compute. reflexivity. Qed.
Lemma real_2 : real (dof 2) = 2 /\ number (dof 2).
Proof. split; [vm_compute; lra|split; vm_compute; reflexivity]. Qed.
Lemma rnd_1 : rnd 1 = 1. Proof. apply (rnd_pow 0). lia. Qed.

(** a double next to 2^63 is 2^63 *)
Lemma near_half r : generic_format radix2 (FLT_exp (-1074) 53) r -> IZR (2 ^ 63) - 1024 < r < IZR (2 ^ 63) + 1024 -> r = IZR (2 ^ 63).
Proof.
  intros F [L H]. apply FLT_format_generic in F; [|reflexivity]. destruct F as [[n e] E P _]. cbn in P. unfold F2R in E. cbn in E.
  destruct (Z_lt_le_dec e 10) as [S|S].
  - exfalso. assert (Rabs r <= IZR (2 ^ 62)).
    { rewrite E, Rabs_mult, (Rabs_pos_eq (bpow radix2 e)) by apply bpow_ge_0. rewrite <- abs_IZR.
      apply Rle_trans with (IZR (2 ^ 53) * bpow radix2 9).
      - apply Rmult_le_compat; [apply IZR_le; lia|apply bpow_ge_0|apply IZR_le; lia|apply bpow_le; lia].
      - change (bpow radix2 9) with (IZR (2 ^ 9)). rewrite <- mult_IZR. apply IZR_le. lia. }
    apply Rabs_le_inv in H0. vm_compute Z.pow in *. lra.
  - assert (E2 : r = IZR (n * 2 ^ (e - 10)) * 1024).
    { rewrite E, mult_IZR. replace e with (e - 10 + 10)%Z at 1 by lia. rewrite bpow_plus. change (bpow radix2 10) with 1024.
      rewrite <- (IZR_Zpower radix2) by lia. change (radix_val radix2) with 2%Z. ring. }
    set (q := (n * 2 ^ (e - 10))%Z) in *. clearbody q. rewrite E2 in L, H. rewrite E2.
    change 1024 with (IZR (1024)) in *. rewrite <- minus_IZR, <- mult_IZR in L. rewrite <- plus_IZR, <- mult_IZR in H. rewrite <- mult_IZR.
    apply lt_IZR in L. apply lt_IZR in H. f_equal. vm_compute Z.pow in *. lia.
Qed.
(** a coordinate: u = nextDouble(-1, 1) *)
Lemma spread_spec log x : output x -> let v := spread (dnorm log) (unit_draw x) in
  number v /\ Rabs (real v) <= 1 /\ (real v = 0 \/ bpow radix2 (-53) <= Rabs (real v)).
Proof.
  intros X v. destruct (unit_spec x X) as (V & F & E & B). unfold v, spread, dnorm. cbn [nadd nmul nsub none nneg1]. rewrite two_diff.
  destruct real_2 as (R2 & V2 & F2). destruct real_m1 as (R1 & V1 & F1).
  destruct (dmul_ok (unit_draw x) (dof 2) 1 V V2 F F2 ltac:(lia)) as (Vm & Fm & Rm).
  { rewrite R2. change (bpow radix2 1) with 2. rewrite Rabs_pos_eq by lra. lra. }
  assert (EX : rnd (real (unit_draw x) * 2) = real (unit_draw x) * 2).
  { change 2 with (bpow radix2 1). unfold rnd. apply round_generic; [typeclasses eauto|]. change fx with (FLT_exp (-1074) 53).
    destruct (Req_dec (real (unit_draw x)) 0) as [Z|NZ]; [rewrite Z, Rmult_0_l; apply generic_format_0|].
    apply mult_bpow_pos_exact_FLT; [|lia]. rewrite <- (rnd_real (unit_draw x)) by assumption. apply format_rnd. }
  rewrite R2, EX in Rm. set (w := real (unit_draw x)) in *.
  destruct (dadd_ok _ (dof (-1)) 0 Vm V1 Fm F1 ltac:(lia)) as (Va & Fa & Ra).
  { rewrite Rm, R1. change (bpow radix2 0) with 1. apply Rabs_le. lra. }
  rewrite Rm, R1 in Ra. split; [now split|]. rewrite Ra. split.
  - pose proof (rnd_bound (w * 2 + -1) 0 ltac:(lia)) as RB. apply RB. change (bpow radix2 0) with 1. apply Rabs_le. lra.
  - destruct (Rle_or_lt (bpow radix2 (-53)) (Rabs (rnd (w * 2 + -1)))) as [|L]; [now right|left].
    assert (S : Rabs (w * 2 + -1) < bpow radix2 (-53)).
    { apply Rnot_le_lt. intros Q. apply (Rlt_not_le _ _ L). unfold rnd.
      apply abs_round_ge_generic; [typeclasses eauto|typeclasses eauto| |exact Q].
      apply generic_format_bpow. unfold SpecFloat.fexp, SpecFloat.emin. lia. }
    assert (W : w * two64 = rnd (IZR x)).
    { rewrite E. field. apply Rgt_not_eq, bpow_gt_0. }
    assert (T : rnd (IZR x) = IZR (2 ^ 63)).
    { apply near_half; [apply format_rnd|]. rewrite <- W. apply Rabs_lt_inv in S.
      assert (TT : two64 = 2 * IZR (2 ^ 63)) by (rewrite two64_IZR, <- mult_IZR; reflexivity).
      assert (T53 : bpow radix2 (-53) * IZR (2 ^ 63) = 1024).
      { change (IZR (2 ^ 63)) with (bpow radix2 63). rewrite <- bpow_plus. reflexivity. }
      rewrite TT. assert (0 < IZR (2 ^ 63)) by (apply IZR_lt; lia). set (h := IZR (2 ^ 63)) in *. set (p := bpow radix2 (-53)) in *. clearbody h p.
      split; nra. }
    assert (H : w * 2 + -1 = 0).
    { rewrite E, T, two64_IZR. replace (2 ^ 64)%Z with (2 * 2 ^ 63)%Z by lia. rewrite mult_IZR.
      assert (IZR (2 ^ 63) <> 0) by (apply Rgt_not_eq, IZR_lt; lia). set (h := IZR (2 ^ 63)) in *. field. assumption. }
    rewrite H. apply rnd_0.
Qed.
Lemma rnd_up a : 1 <= a -> rnd a <= a * (1 + u).
Proof.
  intros H. pose proof (rnd_rel a) as L. rewrite (Rabs_pos_eq a) in L by lra. apply Rabs_le_inv in L; [lra|].
  apply Rle_trans with 1; [|assumption]. change 1 with (bpow radix2 0). apply bpow_le. lia.
Qed.
Lemma square_low x : x = 0 \/ bpow radix2 (-53) <= Rabs x -> x * x * (1 - u) <= rnd (x * x).
Proof.
  intros [->|H]; [rewrite Rmult_0_l, rnd_0; lra|]. pose proof (bpow_gt_0 radix2 (-53)).
  assert (P : bpow radix2 (-106) <= x * x).
  { rewrite <- (Rabs_pos_eq (x * x)) by nra. rewrite Rabs_mult. change (-106)%Z with (-53 + -53)%Z. rewrite bpow_plus. apply Rmult_le_compat; lra. }
  destruct (rnd_rel_pos (x * x)) as [L _]; [|exact L]. right. eapply Rle_trans; [|exact P]. apply bpow_le. lia.
Qed.
(** the value of one accepted round *)
Lemma round_size (x y l s : R) : x * x * (1 - u) <= s -> 0 < s <= 1 -> 0 <= l <= 148 -> 0 <= y ->
  y <= rnd (sqrt (rnd (148 / s))) -> Rabs x * y <= 13.
Proof.
  intros X [S0 S1] L Y0 Y. assert (U : 0 < u <= / 1024) by apply DistAccProofs.u_small.
  assert (I : 1 <= / s) by (rewrite <- Rinv_1; apply Rinv_le; lra).
  assert (D1 : 148 <= 148 / s) by (unfold Rdiv; lra).
  pose proof (rnd_up (148 / s) ltac:(lra)) as D2. set (d := 148 / s * (1 + u)) in *.
  assert (DP : 148 <= d) by (unfold d; nra).
  assert (Y1 : y <= rnd (sqrt d)) by (eapply Rle_trans; [exact Y|]; apply rnd_le, sqrt_le_1_alt; exact D2).
  assert (SD : 1 <= sqrt d) by (rewrite <- sqrt_1; apply sqrt_le_1_alt; lra).
  pose proof (rnd_up (sqrt d) SD) as Y2. assert (Y3 : y <= sqrt d * (1 + u)) by lra.
  assert (YY : y * y <= d * ((1 + u) * (1 + u))).
  { rewrite <- (sqrt_sqrt d) by lra. replace (sqrt d * sqrt d * ((1 + u) * (1 + u))) with ((sqrt d * (1 + u)) * (sqrt d * (1 + u))) by ring.
    apply Rmult_le_compat; lra. }
  assert (DS : d * s = 148 * (1 + u)) by (unfold d; field; lra).
  assert (XX : x * x <= s * (1 + 2 * u)).
  { apply Rmult_le_reg_r with (1 - u); [lra|]. eapply Rle_trans; [exact X|].
    replace (s * (1 + 2 * u) * (1 - u)) with (s * (1 + u * (1 - 2 * u))) by ring. 
    assert (0 <= u * (1 - 2 * u)) by (apply Rmult_le_pos; lra). nra. }
  apply Rabs_pos_eq in Y0. rewrite <- Y0, <- Rabs_mult.
  rewrite <- (Rabs_pos_eq 13) by lra. apply Rsqr_le_abs_0. unfold Rsqr.
  replace (x * y * (x * y)) with (x * x * (y * y)) by ring.
  apply Rle_trans with (s * (1 + 2 * u) * (d * ((1 + u) * (1 + u)))).
  - apply Rmult_le_compat; try assumption; nra.
  - replace (s * (1 + 2 * u) * (d * ((1 + u) * (1 + u)))) with (d * s * ((1 + 2 * u) * ((1 + u) * (1 + u)))) by ring.
    rewrite DS. clear - U. assert ((1 + u) * (1 + u) <= 1 + 3 * u) by nra. assert ((1 + 2 * u) * ((1 + u) * (1 + u)) <= 1 + 6 * u) by nra. nra.
Qed.

Lemma number_done : number done. Proof. split; reflexivity. Qed.
Lemma some_inj {A} (a b : A) : Some a = Some b -> b = a. Proof. congruence. Qed.
Lemma try_bound log x y p : fair_log log -> output x -> output y ->
  norm_try (dnorm log) (unit_draw x) (unit_draw y) = Some p ->
  (number (fst p) /\ Rabs (real (fst p)) <= 13) /\ (number (snd p) /\ Rabs (real (snd p)) <= 13).
Proof.
  intros FL X Y H. destruct (spread_spec log x X) as ([Vu Fu] & Bu & Lu). destruct (spread_spec log y Y) as ([Vv Fv] & Bv & Lv).
  assert (I148 := rnd_int 148 ltac:(lia)). assert (I13 := rnd_int 13 ltac:(lia)). assert (J13 := rnd_int (-13) ltac:(lia)). assert (K8 : (-1074 <= 8 < 1024)%Z) by lia. assert (K114 : (-1074 <= 114 < 1024)%Z) by lia. assert (K4 : (-1074 <= 4 < 1024)%Z) by lia.
  unfold norm_try in H. set (du := spread (dnorm log) (unit_draw x)) in *. set (dv := spread (dnorm log) (unit_draw y)) in *.
  clearbody du dv. cbn [dnorm nadd nmul ndiv nsqrt nlog nneg2 nzero none neq ngt] in H.
  pose proof (Rabs_pos (real du)) as PU. pose proof (Rabs_pos (real dv)) as PV.
  assert (SQ : forall t, Rabs t <= 1 -> 0 <= t * t <= 1).
  { intros t T. split; [nra|]. rewrite <- (Rabs_pos_eq (t * t)) by nra. rewrite Rabs_mult. pose proof (Rabs_pos t). nra. }
  pose proof (SQ _ Bu) as SU. pose proof (SQ _ Bv) as SV.
  destruct (dmul_ok du du 0 Vu Vu Fu Fu ltac:(lia)) as (V1 & F1 & R1). { change (bpow radix2 0) with 1. rewrite Rabs_pos_eq; lra. }
  destruct (dmul_ok dv dv 0 Vv Vv Fv Fv ltac:(lia)) as (V2 & F2 & R2). { change (bpow radix2 0) with 1. rewrite Rabs_pos_eq; lra. }
  assert (B1 : 0 <= rnd (real du * real du) <= 1). { split; [apply rnd_nonneg; lra|rewrite <- rnd_1; apply rnd_le; lra]. }
  assert (B2 : 0 <= rnd (real dv * real dv) <= 1). { split; [apply rnd_nonneg; lra|rewrite <- rnd_1; apply rnd_le; lra]. }
  set (d1 := dmul du du) in *. set (d2 := dmul dv dv) in *.
  destruct (dadd_ok d1 d2 1 V1 V2 F1 F2 ltac:(lia)) as (Vs & Fs & Rs). { change (bpow radix2 1) with 2. rewrite R1, R2, Rabs_pos_eq; lra. }
  set (s := dadd d1 d2) in *. rewrite (deqb_zero s Vs Fs), (dltb_spec done s) in H by (assumption || reflexivity). rewrite real_one in H.
  destruct (Req_bool_spec (real s) 0) as [|NZ]; cbn [orb] in H; [discriminate|].
  destruct (Rlt_bool_spec 1 (real s)) as [|LE]; [discriminate|]. apply some_inj in H. subst p. cbn [fst snd].
  assert (G1 : real d1 <= real s). { rewrite Rs, <- (rnd_real d1) at 1 by assumption. apply rnd_le. rewrite R2. lra. }
  assert (G2 : real d2 <= real s). { rewrite Rs, <- (rnd_real d2) at 1 by assumption. apply rnd_le. rewrite R1. lra. }
  assert (LOW : bpow radix2 (-106) <= real s).
  { assert (Z : forall t d, real d = rnd (t * t) -> real d <= real s -> bpow radix2 (-53) <= Rabs t -> bpow radix2 (-106) <= real s).
    { intros t d E G T. eapply Rle_trans; [|exact G]. rewrite E. rewrite <- (rnd_pow (-106)) by lia. apply rnd_le.
      rewrite <- (Rabs_pos_eq (t * t)) by nra. rewrite Rabs_mult. change (-106)%Z with (-53 + -53)%Z. rewrite bpow_plus.
      pose proof (bpow_gt_0 radix2 (-53)). apply Rmult_le_compat; lra. }
    destruct Lu as [Zu|Lu]; [|exact (Z _ _ R1 G1 Lu)]. destruct Lv as [Zv|Lv]; [|exact (Z _ _ R2 G2 Lv)].
    exfalso. apply NZ. rewrite Rs, R1, R2, Zu, Zv, Rmult_0_l, rnd_0, Rplus_0_r. apply rnd_0. }
  assert (P0 : 0 < real s) by (pose proof (bpow_gt_0 radix2 (-106)); lra).
  destruct (FL s (conj Vs Fs) (conj LOW LE)) as ([Vl Fl] & Bl). set (l := log s) in *. clearbody l.
  destruct real_m2 as (RM & VM & FM). set (m2 := dof (-2)) in *. clearbody m2.
  destruct (dmul_ok m2 l 8 VM Vl FM Fl K8) as (Vm & Fm & Rm). { rewrite RM. change (bpow radix2 8) with 256. rewrite Rabs_pos_eq; lra. }
  assert (Bm : 0 <= rnd (real m2 * real l) <= 148).
  { rewrite RM. split; [apply rnd_nonneg; lra|]. rewrite <- I148. apply rnd_le. lra. }
  set (mm := dmul m2 l) in *.
  assert (IS : / real s <= bpow radix2 106). { rewrite <- (Rinv_inv (bpow radix2 106)), <- bpow_opp. apply Rinv_le; [apply bpow_gt_0|exact LOW]. }
  assert (IP : 0 < / real s) by now apply Rinv_0_lt_compat.
  assert (Bq : 0 <= real mm / real s <= 148 / real s).
  { unfold Rdiv. split; [apply Rmult_le_pos; lra|]. apply Rmult_le_compat_r; lra. }
  destruct (ddiv_ok mm s 114 Vm Vs Fm (Rgt_not_eq _ _ P0) K114) as (Vq & Fq & Rq).
  { rewrite Rabs_pos_eq by lra. eapply Rle_trans; [apply (proj2 Bq)|]. change 114%Z with (8 + 106)%Z. rewrite bpow_plus. change (bpow radix2 8) with 256. unfold Rdiv. nra. }
  set (q := ddiv mm s) in *. assert (Q0 : 0 <= real q) by (rewrite Rq; apply rnd_nonneg; lra).
  destruct (dsqrt_spec q Vq Fq Q0) as (Vr & Fr & Rr). set (r := dsqrt q) in *.
  assert (R0 : 0 <= real r) by (rewrite Rr; apply rnd_nonneg, sqrt_pos).
  assert (R9 : real r <= rnd (sqrt (rnd (148 / real s)))).
  { rewrite Rr, Rq. apply rnd_le, sqrt_le_1_alt, rnd_le. lra. }
  assert (FIN : forall d, dvalid d = true -> dfinite d = true -> real d * real d * (1 - u) <= real s -> number (dmul d r) /\ Rabs (real (dmul d r)) <= 13).
  { intros d Vd Fd S. pose proof (round_size (real d) (real r) 0 (real s) S ltac:(lra) ltac:(lra) R0 R9) as SZ.
    assert (AB : Rabs (real d * real r) <= 13) by (rewrite Rabs_mult, (Rabs_pos_eq (real r)) by assumption; exact SZ).
    destruct (dmul_ok d r 4 Vd Vr Fd Fr K4) as (Vx & Fx & Rx). { change (bpow radix2 4) with 16. lra. }
    split; [now split|]. rewrite Rx. apply Rabs_le_inv in AB. apply Rabs_le. split.
    - apply Rle_trans with (rnd (-13)); [rewrite J13; lra|apply rnd_le; lra].
    - apply Rle_trans with (rnd 13); [apply rnd_le; lra|rewrite I13; lra]. }
  split; apply FIN; try assumption.
  - eapply Rle_trans; [apply square_low; exact Lu|]. rewrite <- R1. exact G1.
  - eapply Rle_trans; [apply square_low; exact Lv|]. rewrite <- R2. exact G2.
Qed.

(** the code of normal_next in terms of rounds *)
Lemma range_pm x : nextDouble_range x (dof (-1)) done = Ok (spread (dnorm (fun d => d)) (unit_draw x)).
Proof. reflexivity. Qed.
Lemma next_code {G} (E : engine G) log f mean stddev sp g :
  normal_next E log (S f) mean stddev (false, sp) g =
  match outputs E 2 g with
  | [x; y] => match norm_try (dnorm log) (unit_draw x) (unit_draw y) with
      | Some (z1, z2) => Ok (dadd (dmul z1 stddev) mean, (true, z2), after E 2 g)
      | None => normal_next E log f mean stddev (false, sp) (after E 2 g)
      end
  | _ => UB
  end.
Proof.
  unfold normal_next. cbn [fst snd polar outputs after]. destruct (gen E g) as [x g1]. cbn [fst snd]. destruct (gen E g1) as [y g2]. cbn [fst snd].
  rewrite !range_pm. cbn [bind]. unfold norm_try. cbn [dnorm nadd nmul ndiv nsqrt nlog nneg2 nzero none neq ngt].
  change (spread (dnorm (fun d => d))) with (spread (dnorm log)).
  destruct (deqb _ dzero || dltb done _)%bool; reflexivity.
Qed.
Lemma scaled z stddev mean : number z -> Rabs (real z) <= 13 -> number stddev -> number mean -> 0 <= real stddev <= bpow radix2 1000 -> Rabs (real mean) <= bpow radix2 1000 ->
  number (dadd (dmul z stddev) mean) /\
  Rabs (real (dadd (dmul z stddev) mean) - real mean) <= 14 * real stddev + bpow radix2 (-53) * Rabs (real mean) + bpow radix2 (-1073).
Proof.
  intros [Vz Fz] Bz [Vs Fs] [Vm Fm] Bs Bm. assert (U : 0 < u <= / 1024) by apply DistAccProofs.u_small.
  assert (P1000 : 0 < bpow radix2 1000) by apply bpow_gt_0.
  assert (A1 : Rabs (real z * real stddev) <= 13 * real stddev) by (rewrite Rabs_mult, (Rabs_pos_eq (real stddev)) by lra; apply Rmult_le_compat_r; lra).
  destruct (dmul_ok z stddev 1004 Vz Vs Fz Fs ltac:(lia)) as (V1 & F1 & R1).
  { change 1004%Z with (4 + 1000)%Z. rewrite bpow_plus. change (bpow radix2 4) with 16. lra. }
  pose proof (rnd_err (real z * real stddev)) as E1. pose proof (bpow_gt_0 radix2 (-1075)) as P75. assert (T75 : bpow radix2 (-1075) <= 1) by (change 1 with (bpow radix2 0); apply bpow_le; lia).
  assert (T73 : bpow radix2 (-1073) = 4 * bpow radix2 (-1075)) by (change (-1073)%Z with (2 + -1075)%Z; rewrite bpow_plus; reflexivity).
  set (e := bpow radix2 (-1075)) in *. set (w := real (dmul z stddev)) in *. rewrite <- R1 in E1.
  assert (W : Rabs w <= 13 * (1 + u) * real stddev + e).
  { replace w with ((w - real z * real stddev) + real z * real stddev) by ring. eapply Rle_trans; [apply Rabs_triang|].
    assert (u * Rabs (real z * real stddev) <= u * (13 * real stddev)) by (apply Rmult_le_compat_l; lra). lra. }
  assert (P1 : 1 <= bpow radix2 1000) by (change 1 with (bpow radix2 0); apply bpow_le; lia).
  assert (US : u * real stddev <= real stddev * / 1024) by (rewrite Rmult_comm; apply Rmult_le_compat_l; lra).
  destruct (dadd_ok (dmul z stddev) mean 1004 V1 Vm F1 Fm ltac:(lia)) as (V2 & F2 & R2).
  { fold w. eapply Rle_trans; [apply Rabs_triang|]. change 1004%Z with (4 + 1000)%Z. rewrite bpow_plus. change (bpow radix2 4) with 16. lra. }
  split; [now split|]. fold w in R2. rewrite R2. pose proof (rnd_err (w + real mean)) as E2. fold e in E2.
  replace (rnd (w + real mean) - real mean) with ((rnd (w + real mean) - (w + real mean)) + w) by ring. eapply Rle_trans; [apply Rabs_triang|].
  change (bpow radix2 (-53)) with u. assert (u * Rabs (w + real mean) <= u * (Rabs w + Rabs (real mean))) by (apply Rmult_le_compat_l; [lra|apply Rabs_triang]).
  assert (u * Rabs w <= / 1024 * Rabs w) by (apply Rmult_le_compat_r; [apply Rabs_pos|lra]).
  rewrite T73. lra.
Qed.
Lemma next_bound {G} (E : engine G) log mean stddev : fair_log log -> (forall g, output (fst (gen E g))) ->
  number stddev -> number mean -> 0 <= real stddev <= bpow radix2 1000 -> Rabs (real mean) <= bpow radix2 1000 ->
  forall fuel st g z st' g', good st -> normal_next E log fuel mean stddev st g = Ok (z, st', g') ->
  good st' /\ number z /\ Rabs (real z - real mean) <= 14 * real stddev + bpow radix2 (-53) * Rabs (real mean) + bpow radix2 (-1073).
Proof.
  intros FL OUT NS NM BS BM fuel. destruct fuel as [|fuel]; intros [[] sp] g z st' g' GS H.
  - unfold normal_next in H. cbn in H. injection H as <- <- <-. destruct (GS eq_refl) as [N B]. split; [intros Q; discriminate|]. now apply scaled.
  - discriminate.
  - unfold normal_next in H. cbn in H. injection H as <- <- <-. destruct (GS eq_refl) as [N B]. split; [intros Q; discriminate|]. now apply scaled.
  - clear GS. revert g H. induction fuel as [|fuel IH]; intros g H; rewrite next_code in H; cbn [outputs] in H.
    + destruct (norm_try _ _ _) as [[z1 z2]|] eqn:T; [|discriminate]. injection H as <- <- <-. apply try_bound in T; [|assumption|apply OUT|apply OUT].
      destruct T as [[N1 B1] N2]. split; [intros _; exact N2|]. now apply scaled.
    + destruct (norm_try _ _ _) as [[z1 z2]|] eqn:T; [|exact (IH _ H)]. injection H as <- <- <-. apply try_bound in T; [|assumption|apply OUT|apply OUT].
      destruct T as [[N1 B1] N2]. split; [intros _; exact N2|]. now apply scaled.
Qed.

(** the whole loop *)
Lemma next_loop {G} (E : engine G) log mean stddev sp : forall f g,
  normal_next E log f mean stddev (false, sp) g =
  match norm_loop (dnorm log) (map unit_draw (outputs E (2 * f) g)) with
  | Some (z1, z2, k) => Ok (dadd (dmul z1 stddev) mean, (true, z2), after E k g)
  | None => Fuel
  end.
Proof.
  induction f as [|f IH]; intros g; [reflexivity|]. rewrite next_code. replace (2 * S f)%nat with (S (S (2 * f))) by lia.
  cbn [outputs map norm_loop after]. destruct (norm_try _ _ _) as [[z1 z2]|]; [reflexivity|]. rewrite IH. cbn [after].
  destruct (norm_loop _ _) as [[[z1 z2] k]|]; reflexivity.
Qed.
