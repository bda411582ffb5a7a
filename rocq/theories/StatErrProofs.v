From Coq Require Import Reals Lra Psatz Floats.SpecFloat.
From Flocq Require Import Core IEEE754.BinarySingleNaN Relative Plus_error.
From Verif Require Import Base Float FloatProofs NumModel NumSpec NumBinProofs StatModel StatSpec StatProofs StatMainProofs.
Local Open Scope R_scope.

Definition eta : R := bpow radix2 (-1075).
Lemma eta_pos : 0 < eta. Proof. apply bpow_gt_0. Qed.
Lemma format_real x : dvalid x = true -> generic_format radix2 (FLT_exp (-1074) 53) (real x).
Proof. intros V. destruct (to_bf x V) as [b ->]. rewrite real_bf. apply (generic_format_B2R 53 1024 b). Qed.
(** additions have a relative error only *)
Lemma plus_rel a b : generic_format radix2 (FLT_exp (-1074) 53) a -> generic_format radix2 (FLT_exp (-1074) 53) b ->
  exists e, Rabs e <= u /\ rnd (a + b) = (a + b) * (1 + e).
Proof.
  intros A B. destruct (FLT_plus_error_N_ex radix2 (-1074) 53 (fun x => negb (Z.even x)) a b A B) as (e & E & Q). exists e. split; [|exact Q].
  eapply Rle_trans; [exact E|]. unfold u_ro. rewrite half_u. pose proof u_small as [U _]. apply (Rmult_le_reg_r (1 + u)); [lra|].
  unfold Rdiv. rewrite Rmult_assoc, Rinv_l by lra. nra.
Qed.
Lemma err_form a : exists e t, Rabs e <= u /\ Rabs t <= eta /\ rnd a = a * (1 + e) + t.
Proof.
  destruct (error_N_FLT radix2 (-1074) 53 ltac:(lia) (fun x => negb (Z.even x)) a) as (e & t & A & B & _ & E). exists e, t. split; [|split; [|exact E]].
  - rewrite half_u in A. exact A.
  - eapply Rle_trans; [exact B|]. apply Req_le. unfold eta. change (-1074)%Z with (-1075 + 1)%Z. rewrite bpow_plus. change (bpow radix2 1) with 2. field.
Qed.
Lemma u1 : 0 < u <= / 1000. Proof. pose proof u_small as [A B]. split; [exact A|]. apply Rlt_le. eapply Rlt_le_trans; [exact B|]. vm_compute Z.pow. lra. Qed.

(** powers of 1 + u and 1 - u *)
Lemma pow_up_ge k : 1 <= (1 + u) ^ k.
Proof. pose proof u1. induction k as [|k IH]; cbn [pow]; nra. Qed.
Lemma pow_dn_range k : 0 <= (1 - u) ^ k <= 1.
Proof. pose proof u1. induction k as [|k IH]; cbn [pow]; nra. Qed.
Lemma pow_dn k : 1 - INR k * u <= (1 - u) ^ k.
Proof. pose proof u1. induction k as [|k IH]; [simpl; lra|]. rewrite S_INR. cbn [pow]. pose proof (pow_dn_range k). pose proof (pos_INR k). nra. Qed.
Lemma pow_up k : INR k * u <= / 2 -> (1 + u) ^ k <= 1 + 2 * (INR k * u).
Proof.
  pose proof u1. induction k as [|k IH]; [simpl; lra|]. rewrite S_INR. cbn [pow]. intros B. pose proof (pos_INR k). assert (INR k * u <= / 2) by nra. specialize (IH H1). nra.
Qed.
Lemma pow_up_mono j k : (j <= k)%nat -> (1 + u) ^ j <= (1 + u) ^ k.
Proof. intros L. apply Rle_pow; [|exact L]. pose proof u1. lra. Qed.
Lemma pow_dn_mono j k : (j <= k)%nat -> (1 - u) ^ k <= (1 - u) ^ j.
Proof.
  intros L. replace k with (j + (k - j))%nat by lia. rewrite pow_add. pose proof (pow_dn_range j). pose proof (pow_dn_range (k - j)). nra.
Qed.

(** one squared difference *)
Definition ordinary (x : double) : Prop := dvalid x = true /\ dfinite x = true /\ Rabs (real x) <= bpow radix2 490.
Lemma square_err x m : ordinary x -> ordinary m ->
  let t := (real x - real m) * (real x - real m) in let p := dmul (dsub x m) (dsub x m) in
  dvalid p = true /\ dfinite p = true /\ Rabs (real p) <= bpow radix2 982 /\ 0 <= real p /\ (1 - u) ^ 3 * t - eta <= real p <= (1 + u) ^ 3 * t + eta.
Proof.
  intros (Vx & Fx & Bx) (V2 & F2 & B2) t p.
  assert (G : Rabs (real x - real m) <= bpow radix2 491).
  { unfold Rminus. eapply Rle_trans; [apply Rabs_triang|]. rewrite Rabs_Ropp. change 491%Z with (490 + 1)%Z. rewrite bpow_plus. change (bpow radix2 1) with 2. lra. }
  destruct (dsub_ok x m 491 Vx V2 Fx F2) as (V4 & F4 & R4); [lia|exact G|].
  apply (rnd_bound _ 491) in G; [|lia]. rewrite <- R4 in G.
  assert (G2 : Rabs (real (dsub x m) * real (dsub x m)) <= bpow radix2 982).
  { rewrite Rabs_mult. change 982%Z with (491 + 491)%Z. rewrite bpow_plus. apply Rmult_le_compat; try apply Rabs_pos; assumption. }
  destruct (dmul_ok _ _ 982 V4 V4 F4 F4) as (V5 & F5 & R5); [lia|exact G2|]. split; [exact V5|]. split; [exact F5|].
  subst p. rewrite R5. split; [apply rnd_bound; [lia|exact G2]|]. split; [apply rnd_pos, Rle_0_sqr|].
  destruct (plus_rel (real x) (- real m) (format_real x Vx) (generic_format_opp _ _ _ (format_real m V2))) as (e & E & Q).
  destruct (err_form (real (dsub x m) * real (dsub x m))) as (e2 & t2 & E2 & T2 & Q2). rewrite Q2, R4. unfold Rminus in *. rewrite Q.
  apply Rabs_le_inv in E. apply Rabs_le_inv in E2. apply Rabs_le_inv in T2. pose proof u1 as U.
  replace ((real x + - real m) * (1 + e) * ((real x + - real m) * (1 + e)) * (1 + e2) + t2) with (t * ((1 + e) * (1 + e) * (1 + e2)) + t2) by (unfold t; ring).
  assert (T : 0 <= t) by (unfold t; apply Rle_0_sqr).
  assert (L1 : (1 - u) * (1 - u) <= (1 + e) * (1 + e)) by nra.
  assert (L2 : (1 + e) * (1 + e) <= (1 + u) * (1 + u)) by nra.
  assert (0 <= (1 - u) * (1 - u)) by nra.
  assert (L3 : (1 - u) ^ 3 <= (1 + e) * (1 + e) * (1 + e2)) by (cbn [pow]; replace ((1 - u) * ((1 - u) * ((1 - u) * 1))) with ((1 - u) * (1 - u) * (1 - u)) by ring; apply Rmult_le_compat; lra).
  assert (L4 : (1 + e) * (1 + e) * (1 + e2) <= (1 + u) ^ 3) by (cbn [pow]; replace ((1 + u) * ((1 + u) * ((1 + u) * 1))) with ((1 + u) * (1 + u) * (1 + u)) by ring; apply Rmult_le_compat; nra).
  split; nra.
Qed.

(** the accumulated squares *)
Definition sqdev (m : R) (l : list double) : R := rsum (map (fun x => (real x - m) * (real x - m)) l).
Lemma sqdev_nonneg m l : 0 <= sqdev m l.
Proof. induction l as [|x l IH]; [unfold sqdev; simpl; lra|]. unfold sqdev in *. cbn [map rsum]. pose proof (Rle_0_sqr (real x - m)) as Q. unfold Rsqr in Q. lra. Qed.
Lemma add_squares_err m l : ordinary m -> (forall x, In x l -> ordinary x) -> forall k acc S,
  dvalid acc = true -> dfinite acc = true -> (Z.of_nat k + Z.of_nat (length l) <= 2 ^ 31)%Z ->
  Rabs (real acc) <= IZR (Z.of_nat k) * bpow radix2 982 -> 0 <= S -> 0 <= real acc ->
  (1 - u) ^ (k + 3) * S - INR k * eta <= real acc <= (1 + u) ^ (k + 3) * (S + INR k * eta) ->
  let r := fold_left (fun acc x => let d := dsub x m in dadd acc (dmul d d)) l acc in
  let n := (k + length l)%nat in
  dvalid r = true /\ dfinite r = true /\ Rabs (real r) <= IZR (Z.of_nat n) * bpow radix2 982 /\ 0 <= real r /\
  (1 - u) ^ (n + 3) * (S + sqdev (real m) l) - INR n * eta <= real r <= (1 + u) ^ (n + 3) * (S + sqdev (real m) l + INR n * eta).
Proof.
  intros OM. induction l as [|x l IH]; intros H k acc S V F KL BA S0 A0 B r n.
  - subst r n. cbn [fold_left length]. rewrite Nat.add_0_r. unfold sqdev. cbn [map rsum]. rewrite Rplus_0_r. auto.
  - destruct (square_err x m (H x (or_introl eq_refl)) OM) as (Vp & Fp & Bp & Pp & Ep). cbv zeta in *. set (p := dmul (dsub x m) (dsub x m)) in *. set (t := (real x - real m) * (real x - real m)) in *.
    assert (T0 : 0 <= t) by (unfold t; apply Rle_0_sqr). cbn [length] in KL.
    destruct (add_fold_bound (fun y => y) 982 [p] ltac:(lia) (Z.of_nat k) acc) as (V2 & F2 & B2); try assumption; [intros y [<-|[]]; auto|lia|cbn [length]; lia|].
    cbn [fold_left length] in V2, F2, B2.
    assert (R2 : real (dadd acc p) = rnd (real acc + real p)).
    { assert (G : Rabs (real acc + real p) <= bpow radix2 (31 + 982)).
      { eapply Rle_trans; [apply Rabs_triang|]. rewrite bpow_plus. change (bpow radix2 31) with (IZR (2 ^ 31)).
        apply (Rle_trans _ (IZR (Z.of_nat k + 1) * bpow radix2 982)); [rewrite plus_IZR; lra|]. apply Rmult_le_compat_r; [apply bpow_ge_0|]. apply IZR_le. lia. }
      destruct (dadd_ok acc p (31 + 982) V Vp F Fp) as (_ & _ & Q); [lia|exact G|exact Q]. }
    destruct (plus_rel _ _ (format_real acc V) (format_real p Vp)) as (e & E & Q). rewrite Q in R2.
    apply Rabs_le_inv in E. pose proof u1 as U. pose proof eta_pos as ET. pose proof (pos_INR k) as KP.
    assert (N : (n = Datatypes.S k + length l)%nat) by (unfold n; cbn [length]; lia).
    assert (SQ : S + sqdev (real m) (x :: l) = (S + t) + sqdev (real m) l) by (unfold sqdev, t; cbn [map rsum]; ring).
    rewrite SQ. clearbody n. subst n. subst r. cbn [fold_left]. cbv zeta. fold p. apply IH; try assumption; try lia; try lra; clear SQ IH.
    + intros y Y. apply H. now right.
    + now replace (Z.of_nat (Datatypes.S k)) with (Z.of_nat k + Z.of_nat 1)%Z by lia.
    + rewrite R2. apply Rmult_le_pos; lra.
    + rewrite R2, S_INR. change (Datatypes.S k + 3)%nat with (Datatypes.S (k + 3)). rewrite <- !tech_pow_Rmult.
      pose proof (pow_up_mono 3 (k + 3) ltac:(lia)) as M1. pose proof (pow_dn_mono 3 (k + 3) ltac:(lia)) as M2. pose proof (pow_up_ge (k + 3)) as G1. pose proof (pow_dn_range (k + 3)) as G2.
      set (a := (1 - u) ^ (k + 3)) in *. set (b := (1 + u) ^ (k + 3)) in *. set (a3 := (1 - u) ^ 3) in *. set (b3 := (1 + u) ^ 3) in *. set (q := real acc + real p). assert (Q0 : 0 <= q) by (unfold q; lra).
      assert (Lo : a * (S + t) - (INR k + 1) * eta <= q) by (unfold q; nra).
      assert (Hi : q <= b * (S + t + (INR k + 1) * eta)).
      { unfold q. assert (b3 * t <= b * t) by (apply Rmult_le_compat_r; lra). assert (1 * eta <= b * eta) by (apply Rmult_le_compat_r; lra). nra. }
      clearbody a b a3 b3 q. clear -E U Lo Hi G1 G2 ET KP S0 T0 Q0.
      assert (W : 0 <= (INR k + 1) * eta) by (apply Rmult_le_pos; lra). set (w := (INR k + 1) * eta) in *. clearbody w.
      assert (A1 : 0 <= a * (S + t)) by (apply Rmult_le_pos; lra). assert (B0 : 0 <= b * (S + t + w)) by (apply Rmult_le_pos; lra).
      rewrite !Rmult_assoc. set (A := a * (S + t)) in *. set (B := b * (S + t + w)) in *. clearbody A B. split; [|nra].
      apply (Rle_trans _ ((1 - u) * q)); nra.
Qed.

(** the sum of squares around another centre *)
Lemma sqdev_shift m l : sqdev m l = rsum (map (fun x => (x - rmean (map real l)) * (x - rmean (map real l))) (map real l)) + INR (length l) * ((m - rmean (map real l)) * (m - rmean (map real l))).
Proof.
  destruct l as [|y l]; [unfold sqdev; simpl; ring|]. set (L := y :: l) in *.
  assert (G : forall c, sqdev c L = rsum (map (fun x => x * x) (map real L)) - 2 * c * rsum (map real L) + INR (length L) * (c * c)).
  { intros c. unfold sqdev. clearbody L. induction L as [|x L IH]; [simpl; ring|]. cbn [map rsum length]. rewrite IH, S_INR. ring. }
  assert (G2 : forall c, rsum (map (fun x => (x - c) * (x - c)) (map real L)) = sqdev c L) by (intros c; unfold sqdev; now rewrite map_map).
  rewrite G2, !G. assert (N : INR (length L) <> 0) by (apply not_0_INR; discriminate).
  assert (S1 : rsum (map real L) = rmean (map real L) * INR (length L)) by (unfold rmean; rewrite map_length; field; exact N). rewrite S1. ring.
Qed.
Lemma INR_small n : (Z.of_nat n <= 2 ^ 31)%Z -> INR n * u <= / 4194304.
Proof. intros H. rewrite INR_IZR_INZ, u_val. apply IZR_le in H. vm_compute Z.pow in *. lra. Qed.
Definition centre (l : list double) : R := rmean (map real l).
Definition devs (l : list double) : R := rsum (map (fun x => (x - rmean (map real l)) * (x - rmean (map real l))) (map real l)).
Lemma devs_sqdev l : devs l = sqdev (centre l) l. Proof. unfold devs, sqdev, centre. now rewrite map_map. Qed.
Lemma eight_eta : bpow radix2 (-1072) = 8 * eta.
Proof. unfold eta. change (-1072)%Z with (-1075 + 3)%Z. rewrite bpow_plus. change (bpow radix2 3) with 8. ring. Qed.
Lemma spread_div_err l m d e : ordinary m -> (forall x, In x l -> ordinary x) -> (Z.of_nat (length l) < 2 ^ 31)%Z ->
  (1 <= d < 2 ^ 31)%Z -> (Z.of_nat (length l) <= 2 * d)%Z -> Rabs (real m - centre l) <= e ->
  let v := ddiv (add_squares m l) (dof d) in
  dvalid v = true /\ dfinite v = true /\ 0 <= real v /\
  Rabs (real v - devs l / IZR d) <= dev_bound (length l) (devs l / IZR d) e.
Proof.
  intros OM H L D ND E v. set (G0 := dev_bound (length l) (devs l / IZR d) e). unfold dev_bound in G0. change (/ IZR (2 ^ 1072)) with (bpow radix2 (-1072)) in G0. subst G0.
  destruct (add_squares_err m l OM H 0 dzero 0) as (V & F & B & P & Er); try reflexivity; try lia; try (simpl; lra).
  { change (Rabs 0 <= 0 * bpow radix2 982). rewrite Rabs_R0. lra. }
  cbv zeta in *. rewrite Nat.add_0_l in *. change (fold_left _ l dzero) with (add_squares m l) in *. rewrite Rplus_0_l in Er.
  set (r := add_squares m l) in *. set (n := length l) in *.
  assert (DR : 1 <= IZR d) by (apply IZR_le; lia). assert (NR : INR n <= 2 * IZR d) by (rewrite INR_IZR_INZ, <- mult_IZR; apply IZR_le; lia). pose proof (pos_INR n) as NP.
  destruct (dof_exact d) as (V2 & F2 & R2); [lia|].
  assert (G : Rabs (real r / real (dof d)) <= bpow radix2 1013).
  { rewrite R2. unfold Rdiv. rewrite Rabs_mult, Rabs_inv, (Rabs_pos_eq (IZR d)) by lra. apply (Rle_trans _ (Rabs (real r) * 1)).
    - apply Rmult_le_compat_l; [apply Rabs_pos|]. rewrite <- Rinv_1. apply Rinv_le; lra.
    - rewrite Rmult_1_r. eapply Rle_trans; [exact B|]. change 1013%Z with (31 + 982)%Z. rewrite bpow_plus. apply Rmult_le_compat_r; [apply bpow_ge_0|].
      change (bpow radix2 31) with (IZR (2 ^ 31)). apply IZR_le. lia. }
  destruct (ddiv_ok r (dof d) 1013 V V2 F) as (V3 & F3 & R3); [rewrite R2; lra|lia|exact G|]. split; [exact V3|]. split; [exact F3|].
  subst v. rewrite R3, R2. assert (ID : 0 < / IZR d) by (apply Rinv_0_lt_compat; lra).
  assert (ID2 : INR n * / IZR d <= 2) by (apply (Rmult_le_reg_r (IZR d)); [lra|]; rewrite Rmult_assoc, Rinv_l by lra; lra).
  split; [apply rnd_pos, Rmult_le_pos; lra|].
  destruct (err_form (real r / IZR d)) as (f & t & Ef & Et & ->). apply Rabs_le_inv in Ef. apply Rabs_le_inv in Et. pose proof u1 as U. pose proof eta_pos as ET.
  pose proof (sqdev_shift (real m) l) as SH. fold (devs l) in SH. fold (centre l) in SH. rewrite SH in Er. clear SH. fold n in Er.
  pose proof (sqdev_nonneg (centre l) l) as D0. rewrite <- devs_sqdev in D0. set (s := devs l) in *. set (c := real m - centre l) in *.
  assert (C2 : 0 <= c * c <= e * e) by (apply Rabs_le_inv in E; split; nra). rewrite eight_eta.
  pose proof (pow_dn (n + 4)) as PD. pose proof (pow_up (n + 4)) as PU. pose proof (INR_small (n + 1) ltac:(lia)) as SM.
  rewrite plus_INR in SM, PD, PU. change (INR 4) with (1 + 1 + 1 + 1) in PD, PU. change (INR 1) with 1 in SM.
  assert (NU : (INR n + (1 + 1 + 1 + 1)) * u <= / 100) by nra. specialize (PU ltac:(lra)).
  replace (n + 4)%nat with (S (n + 3)) in PD, PU by lia. cbn [pow] in PD, PU.
  pose proof (pow_up_ge (n + 3)) as G1. pose proof (pow_dn_range (n + 3)) as G2.
  set (a := (1 - u) ^ (n + 3)) in *. set (b := (1 + u) ^ (n + 3)) in *.
  set (w := (INR n + (1 + 1 + 1 + 1)) * u) in *.
  assert (HW : (INR n + 4) * / IZR (2 ^ 52) = 2 * w) by (unfold w; rewrite u_val; change (IZR (2 ^ 53)) with (2 * IZR (2 ^ 52)); field; vm_compute Z.pow; lra).
  rewrite HW. set (i := / IZR d) in *. unfold Rdiv. fold i.
  set (z := s * i). assert (Z0 : 0 <= z) by (apply Rmult_le_pos; lra).
  assert (Lo : a * z - 2 * eta <= real r * i).
  { assert (A1 : a * s - INR n * eta <= real r).
    { assert (0 <= a * (INR n * (c * c))) by (apply Rmult_le_pos; [lra|apply Rmult_le_pos; lra]). lra. }
    apply (Rmult_le_compat_r i) in A1; [|lra]. unfold z. assert (INR n * i * eta <= 2 * eta) by (apply Rmult_le_compat_r; lra). lra. }
  assert (Hi : real r * i <= b * (z + 2 * (c * c) + 2 * eta)).
  { assert (A2 : real r * i <= b * (s + INR n * (c * c) + INR n * eta) * i) by (apply Rmult_le_compat_r; lra).
    eapply Rle_trans; [exact A2|]. rewrite Rmult_assoc. apply Rmult_le_compat_l; [lra|]. unfold z.
    assert (INR n * i * (c * c) <= 2 * (c * c)) by (apply Rmult_le_compat_r; lra). assert (INR n * i * eta <= 2 * eta) by (apply Rmult_le_compat_r; lra). lra. }
  assert (RI : 0 <= real r * i) by (apply Rmult_le_pos; lra). set (q := real r * i) in *.
  assert (Q1 : (1 - u) * q <= q * (1 + f)) by nra. assert (Q2 : q * (1 + f) <= (1 + u) * q) by nra.
  assert (Q3 : (1 - u) * a * z - 2 * eta <= (1 - u) * q) by nra.
  assert (Q4 : (1 + u) * q <= (1 + u) * b * (z + 2 * (c * c) + 2 * eta)) by nra.
  assert (Q5 : (1 - w) * z <= (1 - u) * a * z) by (apply Rmult_le_compat_r; lra).
  assert (Q6 : (1 + u) * b * (z + 2 * (c * c) + 2 * eta) <= (1 + 2 * w) * (z + 2 * (c * c) + 2 * eta)) by (apply Rmult_le_compat_r; lra).
  assert (W0 : 0 <= w) by (unfold w; apply Rmult_le_pos; lra). clear HW. clearbody w q z a b.
  assert (Q7 : 2 * w * (2 * (c * c) + 2 * eta) <= 1 * (2 * (c * c) + 2 * eta)) by (apply Rmult_le_compat_r; lra).
  apply Rabs_le. split; nra.
Qed.

(** sums and means of doubles *)
Lemma sum_err l : (forall x, In x l -> ordinary x) -> forall k acc S A,
  dvalid acc = true -> dfinite acc = true -> (Z.of_nat k + Z.of_nat (length l) <= 2 ^ 31)%Z ->
  Rabs (real acc) <= IZR (Z.of_nat k) * bpow radix2 490 -> Rabs S <= A -> Rabs (real acc - S) <= ((1 + u) ^ k - 1) * A ->
  let r := fold_left dadd l acc in
  dvalid r = true /\ dfinite r = true /\ Rabs (real r) <= IZR (Z.of_nat (k + length l)) * bpow radix2 490 /\
  Rabs (real r - (S + rsum (map real l))) <= ((1 + u) ^ (k + length l) - 1) * (A + rsum (map Rabs (map real l))).
Proof.
  induction l as [|x l IH]; intros H k acc S A V F KL BA SA B r.
  - subst r. cbn [fold_left length map rsum]. rewrite Nat.add_0_r, !Rplus_0_r. auto.
  - subst r. cbn [fold_left length map rsum] in *. destruct (H x (or_introl eq_refl)) as (Vx & Fx & Bx).
    assert (G : Rabs (real acc + real x) <= IZR (Z.of_nat k + 1) * bpow radix2 490).
    { eapply Rle_trans; [apply Rabs_triang|]. rewrite plus_IZR. lra. }
    destruct (add_fold_bound (fun y => y) 490 [x] ltac:(lia) (Z.of_nat k) acc) as (V2 & F2 & B2); try assumption; [intros y [<-|[]]; auto|lia|cbn [length]; lia|].
    cbn [fold_left length] in V2, F2, B2.
    assert (R2 : real (dadd acc x) = rnd (real acc + real x)).
    { destruct (dadd_ok acc x (31 + 490) V Vx F Fx) as (_ & _ & Q); [lia| |exact Q]. eapply Rle_trans; [exact G|]. rewrite bpow_plus.
      apply Rmult_le_compat_r; [apply bpow_ge_0|]. change (bpow radix2 31) with (IZR (2 ^ 31)). apply IZR_le. lia. }
    destruct (plus_rel _ _ (format_real acc V) (format_real x Vx)) as (e & E & Q). rewrite Q in R2. pose proof u1 as U.
    replace (S + (real x + rsum (map real l))) with (S + real x + rsum (map real l)) by ring.
    replace (A + (Rabs (real x) + rsum (map Rabs (map real l)))) with (A + Rabs (real x) + rsum (map Rabs (map real l))) by ring.
    replace (k + Datatypes.S (length l))%nat with (Datatypes.S k + length l)%nat by lia. apply IH; try assumption; try lia.
    + intros y Y. apply H. now right.
    + now replace (Z.of_nat (Datatypes.S k)) with (Z.of_nat k + Z.of_nat 1)%Z by lia.
    + eapply Rle_trans; [apply Rabs_triang|]. lra.
    + rewrite R2. replace ((real acc + real x) * (1 + e) - (S + real x)) with ((real acc - S) * (1 + e) + e * (S + real x)) by ring.
      eapply Rle_trans; [apply Rabs_triang|]. rewrite !Rabs_mult.
      assert (E1 : Rabs (1 + e) <= 1 + u) by (eapply Rle_trans; [apply Rabs_triang|]; rewrite Rabs_R1; lra).
      pose proof (Rabs_triang S (real x)) as T. cbn [pow]. pose proof (pow_up_ge k) as PK. set (b := (1 + u) ^ k) in *.
      pose proof (Rabs_pos (real acc - S)). pose proof (Rabs_pos (1 + e)). pose proof (Rabs_pos e). pose proof (Rabs_pos (S + real x)). pose proof (Rabs_pos (real x)). pose proof (Rabs_pos S).
      assert (X1 : Rabs (real acc - S) * Rabs (1 + e) <= (b - 1) * A * (1 + u)) by (apply Rmult_le_compat; assumption).
      assert (X2 : Rabs e * Rabs (S + real x) <= u * (A + Rabs (real x))) by (apply Rmult_le_compat; lra).
      assert (X3 : 0 <= (b - 1) * (1 + u) * Rabs (real x)) by (apply Rmult_le_pos; [apply Rmult_le_pos; lra|lra]). lra.
Qed.
Definition mean_abs (l : list double) : R := rmean (map Rabs (map real l)).
Lemma mean_of_double_err l rest : l <> [] -> (Z.of_nat (length l) <= int32_max)%Z -> (forall x, In x l -> ordinary x) ->
  exists m, mean_of_double (l ++ rest) (Z.of_nat (length l)) = Ok m /\ ordinary m /\
    Rabs (real m - centre l) <= (INR (length l) + 1) * / IZR (2 ^ 52) * mean_abs l + bpow radix2 (-1075).
Proof.
  intros NE L H. unfold mean_of_double, sum_double. rewrite elements_prefix. cbn [bind]. eexists. split; [reflexivity|].
  assert (N : (1 <= Z.of_nat (length l) < 2 ^ 31)%Z) by (unfold int32_max in L; destruct l; [congruence|cbn [length] in *; lia]).
  destruct (sum_err l H 0 dzero 0 0) as (V & F & B & E); try reflexivity; try lia; try (change (real dzero) with 0).
  { rewrite Rabs_R0. simpl. lra. } { rewrite Rabs_R0. lra. } { rewrite Rminus_0_r, Rabs_R0. simpl. lra. }
  cbv zeta in *. rewrite Nat.add_0_l, !Rplus_0_l in *. set (r := fold_left dadd l dzero) in *. set (n := length l) in *.
  destruct (div_count r (Z.of_nat n) 490 V F ltac:(lia) ltac:(lia) B) as (V2 & F2 & B2). split; [split; [exact V2|split; [exact F2|exact B2]]|].
  destruct (dof_exact (Z.of_nat n)) as (V3 & F3 & R3); [lia|]. assert (NR : 1 <= IZR (Z.of_nat n)) by (apply IZR_le; lia).
  destruct (ddiv_ok r (dof (Z.of_nat n)) 521 V V3 F) as (_ & _ & R4); [lra|lia| |].
  { rewrite R3. unfold Rdiv. rewrite Rabs_mult, Rabs_inv, (Rabs_pos_eq (IZR (Z.of_nat n))) by lra. apply (Rle_trans _ (Rabs (real r) * 1)).
    - apply Rmult_le_compat_l; [apply Rabs_pos|]. rewrite <- Rinv_1. apply Rinv_le; lra.
    - rewrite Rmult_1_r. eapply Rle_trans; [exact B|]. change 521%Z with (31 + 490)%Z. rewrite bpow_plus. apply Rmult_le_compat_r; [apply bpow_ge_0|].
      change (bpow radix2 31) with (IZR (2 ^ 31)). apply IZR_le. lia. }
  rewrite R4, R3. fold eta. rewrite <- INR_IZR_INZ in *. destruct (err_form (real r / INR n)) as (f & t & Ef & Et & ->).
  unfold centre, mean_abs, rmean. rewrite !map_length. fold n. set (s := rsum (map real l)) in *. set (A := rsum (map Rabs (map real l))) in *.
  assert (SA : Rabs s <= A).
  { unfold s, A. clear. induction l as [|x l IH]; [simpl; rewrite Rabs_R0; lra|]. cbn [map rsum]. eapply Rle_trans; [apply Rabs_triang|]. lra. }
  pose proof u1 as U. pose proof (pow_up (n + 1)) as PU. pose proof (INR_small (n + 1) ltac:(lia)) as SM. specialize (PU ltac:(lra)). rewrite plus_INR in *. change (INR 1) with 1 in *.
  replace (n + 1)%nat with (S n) in PU by lia. cbn [pow] in PU. pose proof (pow_up_ge n) as G1. set (b := (1 + u) ^ n) in *.
  set (i := / INR n). assert (ID : 0 < i) by (apply Rinv_0_lt_compat; lra). unfold Rdiv. fold i.
  replace (real r * i * (1 + f) + t - s * i) with ((real r - s) * i * (1 + f) + f * (s * i) + t) by ring.
  assert (HW : (INR n + 1) * / IZR (2 ^ 52) = 2 * ((INR n + 1) * u)) by (rewrite u_val; change (IZR (2 ^ 53)) with (2 * IZR (2 ^ 52)); field; vm_compute Z.pow; lra). rewrite HW.
  eapply Rle_trans; [apply Rabs_triang|]. apply Rplus_le_compat; [|exact Et]. eapply Rle_trans; [apply Rabs_triang|]. rewrite !Rabs_mult, (Rabs_pos_eq i) by lra.
  assert (E1 : Rabs (1 + f) <= 1 + u) by (eapply Rle_trans; [apply Rabs_triang|]; rewrite Rabs_R1; lra).
  pose proof (Rabs_pos s). pose proof (Rabs_pos f). pose proof (Rabs_pos (1 + f)). pose proof (Rabs_pos (real r - s)).
  assert (X0 : 0 <= (b - 1) * A) by (apply Rmult_le_pos; lra).
  assert (X1 : Rabs (real r - s) * Rabs (1 + f) <= (b - 1) * A * (1 + u)) by (apply Rmult_le_compat; assumption).
  assert (X2 : Rabs f * Rabs s <= u * A) by (apply Rmult_le_compat; lra).
  replace (Rabs (real r - s) * i * Rabs (1 + f) + Rabs f * (Rabs s * i)) with ((Rabs (real r - s) * Rabs (1 + f) + Rabs f * Rabs s) * i) by ring.
  replace (2 * ((INR n + 1) * u) * (A * i)) with (2 * ((INR n + 1) * u) * A * i) by ring. apply Rmult_le_compat_r; [lra|].
  apply (Rle_trans _ (((1 + u) * b - 1) * A)); [lra|]. apply Rmult_le_compat_r; lra.
Qed.

(** the functions for doubles *)
Definition centre_err (l : list double) : R := (INR (length l) + 1) * / IZR (2 ^ 52) * mean_abs l + bpow radix2 (-1075).
Lemma variance_of_double_err l rest : l <> [] -> (Z.of_nat (length l) <= int32_max)%Z -> (forall x, In x l -> ordinary x) ->
  exists v, variance_of_double (l ++ rest) (Z.of_nat (length l)) = Ok v /\ dvalid v = true /\ dfinite v = true /\ 0 <= real v /\
    Rabs (real v - devs l / INR (length l)) <= dev_bound (length l) (devs l / INR (length l)) (centre_err l).
Proof.
  intros NE L H. destruct (mean_of_double_err l rest NE L H) as (m & E & OM & B). unfold variance_of_double. rewrite E, elements_prefix. cbn [bind]. eexists. split; [reflexivity|].
  assert (N : (1 <= Z.of_nat (length l) < 2 ^ 31)%Z) by (unfold int32_max in L; destruct l; [congruence|cbn [length] in *; lia]).
  pose proof (spread_div_err l m (Z.of_nat (length l)) (centre_err l) OM H ltac:(lia) ltac:(lia) ltac:(lia) B) as R. cbv zeta in R. rewrite <- INR_IZR_INZ in R. exact R.
Qed.
Lemma sample_variance_of_double_err l rest : (2 <= length l)%nat -> (Z.of_nat (length l) <= int32_max)%Z -> (forall x, In x l -> ordinary x) ->
  exists v, sample_variance_of_double (l ++ rest) (Z.of_nat (length l)) = Ok v /\ dvalid v = true /\ dfinite v = true /\ 0 <= real v /\
    Rabs (real v - devs l / (INR (length l) - 1)) <= dev_bound (length l) (devs l / (INR (length l) - 1)) (centre_err l).
Proof.
  intros N2 L H. assert (NE : l <> []) by (intros ->; simpl in N2; lia). destruct (mean_of_double_err l rest NE L H) as (m & E & OM & B).
  unfold sample_variance_of_double. rewrite E, elements_prefix. cbn [bind]. unfold int32_max in L. unfold chk32.
  replace (in_int32 (Z.of_nat (length l) - 1)) with true by (unfold in_int32, int32_max, int32_min; lia). cbn [bind]. eexists. split; [reflexivity|].
  pose proof (spread_div_err l m (Z.of_nat (length l) - 1) (centre_err l) OM H ltac:(lia) ltac:(lia) ltac:(lia) B) as R. cbv zeta in R. rewrite minus_IZR, <- INR_IZR_INZ in R. exact R.
Qed.

(** ints *)
Lemma in32_dof x : in_int32 x = true -> ordinary (dof x) /\ real (dof x) = IZR x.
Proof.
  intros H. unfold in_int32, int32_max, int32_min in H. destruct (dof_exact x) as (V & F & R); [lia|]. split; [|exact R]. split; [exact V|]. split; [exact F|].
  rewrite R, <- abs_IZR. apply (Rle_trans _ (bpow radix2 31)); [|apply bpow_le; lia]. change (bpow radix2 31) with (IZR (2 ^ 31)). apply IZR_le. lia.
Qed.
Lemma real_dofs l : (forall x, In x l -> in_int32 x = true) -> map real (map dof l) = map IZR l.
Proof. intros H. rewrite map_map. apply map_ext_in. intros x X. now apply in32_dof, H. Qed.
Lemma ord_dofs l : (forall x, In x l -> in_int32 x = true) -> forall y, In y (map dof l) -> ordinary y.
Proof. intros H y Y. apply in_map_iff in Y. destruct Y as (x & <- & X). now apply in32_dof, H. Qed.
Lemma int_mean_err l : fits l -> (forall p q, l = p ++ q -> in_int32 (zsum p) = true) -> (forall x, In x l -> in_int32 x = true) ->
  exists m, (forall rest, mean_of_int (l ++ rest) (len l) = Ok m) /\ ordinary m /\ Rabs (real m - centre (map dof l)) <= u * Rabs (rmean (map IZR l)).
Proof.
  intros FL P H. destruct (mean_of_int_ok l [] FL P) as (m & E & V & F & R & B). exists m. split.
  - intros rest. rewrite <- E. unfold mean_of_int, len. rewrite !elements_prefix. reflexivity.
  - split; [split; [exact V|split; [exact F|]]|].
    + eapply Rle_trans; [exact B|]. apply bpow_le. lia.
    + unfold centre. rewrite real_dofs, rmean_IZR, R by exact H. destruct (s_big l FL) as [Z|Z].
      * rewrite <- Z, rnd_0, Rminus_0_r, Rabs_R0, Rmult_0_r. lra.
      * apply rnd_rel. eapply Rle_trans; [|exact Z]. apply bpow_le. lia.
Qed.
Lemma variance_container_err l : fits l -> (forall x, In x l -> in_int32 x = true) -> (forall p q, l = p ++ q -> in_int32 (zsum p) = true) ->
  exists v, variance_of_int_container l = Ok v /\
    Rabs (real v - mean_sq_dev (map IZR l)) <= dev_bound (length l) (mean_sq_dev (map IZR l)) (u * Rabs (rmean (map IZR l))).
Proof.
  intros FL H P. destruct (int_mean_err l FL P H) as (m & E & OM & B). specialize (E []). unfold variance_of_int_container. rewrite sum_int_ok by exact P. cbn [bind]. cbv zeta. eexists. split; [reflexivity|].
  unfold mean_of_int in E. unfold len at 1 in E. rewrite elements_prefix in E. cbn [bind] in E. rewrite sum_int_ok in E by exact P. cbn [bind] in E. fold (len l). injection E as ->.
  pose proof (fits_len l FL) as N. assert (LL : Z.of_nat (length (map dof l)) = len l) by (unfold len; now rewrite map_length).
  destruct (spread_div_err (map dof l) m (len l) _ OM (ord_dofs l H) ltac:(lia) ltac:(lia) ltac:(lia) B) as (_ & _ & _ & R).
  unfold devs in R. rewrite real_dofs, map_length in R by exact H. replace (rsum _ / IZR (len l)) with (mean_sq_dev (map IZR l)) in R; [exact R|].
  unfold mean_sq_dev at 1. unfold rmean at 1. rewrite !map_length, INR_IZR_INZ. reflexivity.
Qed.
Lemma sample_variance_of_int_err l rest : (2 <= length l)%nat -> (len l <= int32_max)%Z -> (forall x, In x l -> in_int32 x = true) -> (forall p q, l = p ++ q -> in_int32 (zsum p) = true) ->
  exists v, sample_variance_of_int (l ++ rest) (len l) = Ok v /\ dvalid v = true /\ dfinite v = true /\ 0 <= real v /\
    Rabs (real v - sample_var (map IZR l)) <= dev_bound (length l) (sample_var (map IZR l)) (u * Rabs (rmean (map IZR l))).
Proof.
  intros N2 L H P. assert (FL : fits l) by (split; [intros ->; simpl in N2; lia|exact L]). destruct (int_mean_err l FL P H) as (m & E & OM & B).
  unfold sample_variance_of_int. rewrite E. cbn [bind]. unfold len at 1. rewrite elements_prefix. cbn [bind]. pose proof (fits_len l FL) as N. assert (N3 : (2 <= len l)%Z) by (unfold len; lia). unfold chk32.
  replace (in_int32 (len l - 1)) with true by (unfold in_int32, int32_max, int32_min; lia). cbn [bind]. eexists. split; [reflexivity|].
  assert (LL : Z.of_nat (length (map dof l)) = len l) by (unfold len; now rewrite map_length).
  destruct (spread_div_err (map dof l) m (len l - 1) _ OM (ord_dofs l H) ltac:(lia) ltac:(lia) ltac:(lia) B) as (V & F & Q & R). split; [exact V|]. split; [exact F|]. split; [exact Q|].
  unfold devs in R. rewrite real_dofs, map_length in R by exact H. unfold sample_var. rewrite map_length. rewrite minus_IZR in R. replace (IZR (len l)) with (INR (length l)) in R by (unfold len; apply INR_IZR_INZ). exact R.
Qed.

(** a single element *)
Lemma real_zero x : dvalid x = true -> dfinite x = true -> real x = 0 -> exists s, x = S754_zero s.
Proof.
  intros V F R. destruct x as [s|s| |s m e]; try discriminate; [now exists s|]. exfalso. unfold real in R.
  destruct s; [pose proof (F2R_lt_0 radix2 (Float radix2 (Z.neg m) e) eq_refl)|pose proof (F2R_gt_0 radix2 (Float radix2 (Z.pos m) e) eq_refl)]; simpl in *; lra.
Qed.
Lemma one_square x m : ordinary x -> ordinary m -> real m = real x -> ddiv (add_squares m [x]) (dof 0) = dnan.
Proof.
  intros (Vx & Fx & Bx) (Vm & Fm & Bm) E. unfold add_squares. cbn [fold_left].
  destruct (dsub_ok x m 0 Vx Vm Fx Fm) as (V & F & R); [lia|rewrite E, Rminus_diag_eq, Rabs_R0 by reflexivity; apply bpow_ge_0|].
  rewrite E, Rminus_diag_eq, rnd_0 in R by reflexivity. destruct (real_zero _ V F R) as [s ->]. cbv zeta. destruct s; reflexivity.
Qed.
Lemma ordinary_rnd x : dvalid x = true -> rnd (real x) = real x.
Proof. intros V. unfold rnd. apply round_generic; [typeclasses eauto|]. exact (format_real x V). Qed.
Lemma sample_one_double x rest : ordinary x -> sample_variance_of_double (x :: rest) 1 = Ok dnan.
Proof.
  intros OX. pose proof OX as (V & F & B). unfold sample_variance_of_double, mean_of_double, sum_double. change (x :: rest) with ([x] ++ rest). change 1%Z with (Z.of_nat (length [x])). rewrite !elements_prefix. cbn [bind].
  change (chk32 _) with (Ok 0%Z). cbn [bind]. f_equal. cbn [fold_left].
  destruct (dadd_ok dzero x 490 eq_refl V eq_refl F) as (V1 & F1 & R1); [lia|change (real dzero) with 0; now rewrite Rplus_0_l|]. change (real dzero) with 0 in R1. rewrite Rplus_0_l, ordinary_rnd in R1 by exact V.
  destruct (dof_exact 1) as (V2 & F2 & R2); [lia|].
  destruct (ddiv_ok (dadd dzero x) (dof 1) 490 V1 V2 F1) as (V3 & F3 & R3); [lra|lia|rewrite R1, R2; replace (real x / 1) with (real x) by field; exact B|].
  rewrite R1, R2 in R3. replace (real x / 1) with (real x) in R3 by field. rewrite ordinary_rnd in R3 by exact V.
  apply one_square; [exact OX|split; [exact V3|split; [exact F3|]]|exact R3]. cbn [length Z.of_nat]. change (Z.pos (Pos.of_succ_nat 0)) with 1%Z. rewrite R3. exact B.
Qed.
Lemma sample_one_int x rest : in_int32 x = true -> sample_variance_of_int (x :: rest) 1 = Ok dnan.
Proof.
  intros I. destruct (in32_dof x I) as (OX & RX). unfold sample_variance_of_int. change (x :: rest) with ([x] ++ rest). change 1%Z with (len [x]).
  assert (FL : fits [x]) by (split; [discriminate|unfold len; simpl; unfold int32_max; lia]).
  assert (P : forall p q, [x] = p ++ q -> in_int32 (zsum p) = true).
  { intros [|a [|b p]] q E; [reflexivity| |discriminate]. injection E as <- _. unfold zsum. simpl. now rewrite Z.add_0_r. }
  assert (H : forall y, In y [x] -> in_int32 y = true) by (intros y [<-|[]]; exact I).
  destruct (mean_of_int_ok [x] rest FL P) as (m & E & V & F & R & B). rewrite E. cbn [bind]. unfold len at 1. rewrite elements_prefix. cbn [bind].
  change (chk32 _) with (Ok 0%Z). cbn [bind map]. f_equal. apply one_square; [exact OX|split; [exact V|split; [exact F|]]|].
  - eapply Rle_trans; [exact B|]. apply bpow_le. lia.
  - rewrite R, RX. rewrite StatProofs.zsum_cons. change (zsum []) with 0%Z. rewrite Z.add_0_r. change (IZR (len [x])) with 1. replace (IZR x / 1) with (IZR x) by field.
    apply rnd_int. unfold in_int32, int32_max, int32_min in I. lia.
Qed.
