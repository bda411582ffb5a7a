From Coq Require Import Reals Lra Psatz Floats.SpecFloat.
From Flocq Require Import Core IEEE754.BinarySingleNaN Relative Plus_error.
From Verif Require Import Base Float FloatProofs NumModel NumSpec NumBinProofs StatModel StatSpec.
Local Open Scope R_scope.

(** rounding *)
Definition u : R := bpow radix2 (-53).
Lemma u_val : u = / IZR (2 ^ 53). Proof. reflexivity. Qed.
Lemma rnd_int z : (Z.abs z <= 2 ^ 53)%Z -> rnd (IZR z) = IZR z.
Proof.
  intros H. unfold rnd. apply round_generic; [typeclasses eauto|].
  destruct (Z.eq_dec (Z.abs z) (2 ^ 53)) as [E|E].
  - assert (P : generic_format radix2 fx (IZR (2 ^ 53))).
    { change (IZR (2 ^ 53)) with (bpow radix2 53). apply generic_format_bpow. unfold SpecFloat.fexp, SpecFloat.emin. lia. }
    destruct (Z.abs_spec z) as [[? A]|[? A]]; rewrite A in E; [now rewrite E|].
    replace z with (- (2 ^ 53))%Z by lia. rewrite opp_IZR. now apply generic_format_opp.
  - change fx with (FLT_exp (-1074) 53). apply generic_format_FLT.
    exists (Float radix2 z 0); [unfold F2R; simpl; ring| |]; simpl; lia.
Qed.
Lemma half_u : / 2 * bpow radix2 (- (53) + 1) = u.
Proof. unfold u. change (- (53))%Z with (-53)%Z. rewrite bpow_plus. change (bpow radix2 1) with 2. field. Qed.
Lemma rnd_rel x : bpow radix2 (-1022) <= Rabs x -> Rabs (rnd x - x) <= u * Rabs x.
Proof.
  intros H. unfold rnd. change fx with (FLT_exp (-1074) 53).
  pose proof (relative_error_N_FLT radix2 (-1074) 53 ltac:(lia) (fun x => negb (Z.even x)) x) as L.
  eapply Rle_trans; [apply L; exact H|]. apply Req_le. f_equal. apply half_u.
Qed.
Lemma rnd_err x : Rabs (rnd x - x) <= u * Rabs x + bpow radix2 (-1075).
Proof.
  unfold rnd. change fx with (FLT_exp (-1074) 53).
  destruct (error_N_FLT radix2 (-1074) 53 ltac:(lia) (fun x => negb (Z.even x)) x) as (eps & eta & A & B & _ & E).
  rewrite E. replace (x * (1 + eps) + eta - x) with (eps * x + eta) by ring.
  eapply Rle_trans; [apply Rabs_triang|]. rewrite Rabs_mult. apply Rplus_le_compat.
  - apply Rmult_le_compat_r; [apply Rabs_pos|]. eapply Rle_trans; [exact A|]. apply Req_le. apply half_u.
  - eapply Rle_trans; [exact B|]. apply Req_le. change (-1074)%Z with (-1075 + 1)%Z. rewrite bpow_plus. change (bpow radix2 1) with 2. field.
Qed.
Lemma rnd_pos a : 0 <= a -> 0 <= rnd a. Proof. intros H. rewrite <- rnd_0. now apply rnd_le. Qed.
Lemma rnd_sub_neq x y : dvalid x = true -> dvalid y = true -> real x <> real y -> rnd (real x - real y) <> 0.
Proof.
  intros X Y N E. destruct (to_bf x X) as [a ->], (to_bf y Y) as [b ->]. rewrite !real_bf in *. unfold rnd, Rminus in E.
  apply round_plus_eq_0 in E; try typeclasses eauto; [lra|apply generic_format_B2R|]. apply generic_format_opp, generic_format_B2R.
Qed.
Lemma finite_lt r : Rabs r < big -> Rlt_bool (Rabs r) big = true. Proof. apply Rlt_bool_true. Qed.
Lemma pow_big k : (k < 1024)%Z -> bpow radix2 k < big. Proof. intros H. now apply bpow_lt. Qed.
Lemma rnd_bound a k : (-1074 <= k)%Z -> Rabs a <= bpow radix2 k -> Rabs (rnd a) <= bpow radix2 k.
Proof.
  intros K H. apply Rabs_le. apply Rabs_le_inv in H. split.
  - replace (- bpow radix2 k) with (rnd (- bpow radix2 k)); [apply rnd_le; tauto|].
    unfold rnd. rewrite round_NE_opp. f_equal. now apply rnd_pow.
  - rewrite <- (rnd_pow k K). now apply rnd_le.
Qed.

Lemma dof_exact z : (Z.abs z <= 2 ^ 53)%Z -> dvalid (dof z) = true /\ dfinite (dof z) = true /\ real (dof z) = IZR z.
Proof.
  intros H. destruct (dmake_spec z 0) as [V S]. change (bpow radix2 0) with 1 in S. rewrite Rmult_1_r, rnd_int in S by assumption.
  rewrite Rlt_bool_true in S; [destruct S; auto|]. eapply Rle_lt_trans; [|exact (pow_big 53 eq_refl)].
  rewrite <- abs_IZR. change (bpow radix2 53) with (IZR (2 ^ 53)). now apply IZR_le.
Qed.

(** the operations within a safe range *)
Lemma dadd_ok x y k : dvalid x = true -> dvalid y = true -> dfinite x = true -> dfinite y = true ->
  (-1074 <= k < 1024)%Z -> Rabs (real x + real y) <= bpow radix2 k ->
  dvalid (dadd x y) = true /\ dfinite (dadd x y) = true /\ real (dadd x y) = rnd (real x + real y).
Proof.
  intros Vx Vy Fx Fy K B. destruct (dadd_spec x y Vx Vy Fx Fy) as [V S]. rewrite Rlt_bool_true in S; [tauto|].
  eapply Rle_lt_trans; [apply (rnd_bound _ k); [lia|exact B]|apply pow_big; lia].
Qed.
Lemma dsub_ok x y k : dvalid x = true -> dvalid y = true -> dfinite x = true -> dfinite y = true ->
  (-1074 <= k < 1024)%Z -> Rabs (real x - real y) <= bpow radix2 k ->
  dvalid (dsub x y) = true /\ dfinite (dsub x y) = true /\ real (dsub x y) = rnd (real x - real y).
Proof.
  intros Vx Vy Fx Fy K B. destruct (dsub_spec x y Vx Vy Fx Fy) as [V S]. rewrite Rlt_bool_true in S; [tauto|].
  eapply Rle_lt_trans; [apply (rnd_bound _ k); [lia|exact B]|apply pow_big; lia].
Qed.
Lemma dmul_ok x y k : dvalid x = true -> dvalid y = true -> dfinite x = true -> dfinite y = true ->
  (-1074 <= k < 1024)%Z -> Rabs (real x * real y) <= bpow radix2 k ->
  dvalid (dmul x y) = true /\ dfinite (dmul x y) = true /\ real (dmul x y) = rnd (real x * real y).
Proof.
  intros Vx Vy Fx Fy K B. destruct (dmul_spec x y Vx Vy Fx Fy) as [V S]. rewrite Rlt_bool_true in S; [tauto|].
  eapply Rle_lt_trans; [apply (rnd_bound _ k); [lia|exact B]|apply pow_big; lia].
Qed.
Lemma ddiv_ok x y k : dvalid x = true -> dvalid y = true -> dfinite x = true -> real y <> 0 ->
  (-1074 <= k < 1024)%Z -> Rabs (real x / real y) <= bpow radix2 k ->
  dvalid (ddiv x y) = true /\ dfinite (ddiv x y) = true /\ real (ddiv x y) = rnd (real x / real y).
Proof.
  intros Vx Vy Fx Fy K B. destruct (ddiv_spec x y Vx Vy Fx Fy) as [V S]. rewrite Rlt_bool_true in S; [tauto|].
  eapply Rle_lt_trans; [apply (rnd_bound _ k); [lia|exact B]|apply pow_big; lia].
Qed.
Lemma sqrt_equiv (x : binary_float 53 1024) : dsqrt (B2SF x) = B2SF (Bsqrt mode_NE x).
Proof.
  destruct x as [s|s| |s m e H]; try reflexivity; [now destruct s|]. destruct s; [reflexivity|].
  simpl. rewrite B2SF_SF2B. unfold dsqrt, SFsqrt. destruct (SFsqrt_core_binary 53 1024 (Z.pos m) e) as [[mz ez] lz]. apply round_aux_equiv.
Qed.
Lemma dsqrt_spec x : dvalid x = true -> dfinite x = true -> 0 <= real x ->
  dvalid (dsqrt x) = true /\ dfinite (dsqrt x) = true /\ real (dsqrt x) = rnd (sqrt (real x)).
Proof.
  intros V. destruct (to_bf x V) as [b ->]. rewrite finite_bf, real_bf. intros F P. rewrite sqrt_equiv.
  destruct (Bsqrt_correct 53 1024 Hprec Hmax mode_NE b) as (A & B & _). rewrite finite_bf, real_bf. split; [apply valid_bf|]. split; [|exact A].
  rewrite B. destruct b as [s|s| |s m e H]; try reflexivity; try discriminate. destruct s; [|reflexivity]. exfalso.
  simpl in P. pose proof (F2R_lt_0 radix2 (Float radix2 (Z.neg m) e) eq_refl). simpl in *. lra.
Qed.

(** integers: sums and squares *)
Local Open Scope Z_scope.
Definition sumsq (l : list Z) : Z := zsum (map (fun x => x * x) l).
Definition len (l : list Z) : Z := Z.of_nat (length l).
Lemma sumsq_cons x l : sumsq (x :: l) = x * x + sumsq l. Proof. reflexivity. Qed.
Lemma sumsq_nonneg l : 0 <= sumsq l. Proof. induction l as [|x l IH]; [reflexivity|]. rewrite sumsq_cons. nia. Qed.
Definition diffs (x : Z) (l : list Z) : Z := zsum (map (fun y => (x - y) * (x - y)) l).
Lemma diffs_cons x y l : diffs x (y :: l) = (x - y) * (x - y) + diffs x l. Proof. reflexivity. Qed.
Lemma zsum_cons x l : zsum (x :: l) = x + zsum l. Proof. reflexivity. Qed.
Lemma len_cons x l : len (x :: l) = len l + 1. Proof. unfold len. cbn [length]. lia. Qed.
Lemma diffs_eq x l : diffs x l = sumsq l + len l * (x * x) - 2 * x * zsum l.
Proof. induction l as [|y l IH]; [unfold diffs, sumsq, len; simpl; ring|]. rewrite diffs_cons, IH, sumsq_cons, zsum_cons, len_cons. ring. Qed.
Lemma diffs_nonneg x l : 0 <= diffs x l.
Proof. induction l as [|y l IH]; [reflexivity|]. rewrite diffs_cons. pose proof (Z.square_nonneg (x - y)). lia. Qed.
Lemma diffs_one x l y : In y l -> x <> y -> 1 <= diffs x l.
Proof.
  induction l as [|z l IH]; [intros []|]. rewrite diffs_cons. pose proof (diffs_nonneg x l) as D.
  intros [->|H] N; [nia|]. specialize (IH H N). pose proof (Z.square_nonneg (x - z)). lia.
Qed.
Lemma diffs_all x c l : (forall y, In y l -> y = c) -> x <> c -> len l <= diffs x l.
Proof.
  intros H N. induction l as [|z l IH]; [reflexivity|]. rewrite diffs_cons, len_cons.
  rewrite (H z) by now left. specialize (IH (fun y Y => H y (or_intror Y))).
  assert (0 < (x - c) * (x - c)) by (destruct (Z.lt_total (x - c) 0) as [?|[?|?]]; nia). lia.
Qed.
Definition spread (l : list Z) : Z := len l * sumsq l - zsum l * zsum l.
Lemma spread_cons x l : spread (x :: l) = spread l + diffs x l.
Proof. unfold spread. rewrite diffs_eq, sumsq_cons, zsum_cons, len_cons. ring. Qed.
Lemma spread_nonneg l : 0 <= spread l.
Proof. induction l as [|x l IH]; [reflexivity|]. rewrite spread_cons. pose proof (diffs_nonneg x l). lia. Qed.
Lemma all_equal_dec (l : list Z) : all_equal l \/ exists x y, In x l /\ In y l /\ x <> y.
Proof.
  induction l as [|a l IH]; [left; intros x y []|]. destruct IH as [E|(x & y & X & Y & N)]; [|right; exists x, y; simpl; auto].
  destruct l as [|b l]; [left; intros x y [<-|[]] [<-|[]]; reflexivity|]. destruct (Z.eq_dec a b) as [->|N].
  - left. intros x y X Y. assert (W : forall z, In z (b :: b :: l) -> z = b) by (intros z [<-|Z]; [reflexivity|apply E; [exact Z|now left]]). now rewrite (W x X), (W y Y).
  - right. exists a, b. simpl. auto.
Qed.
Lemma spread_gap l x y : In x l -> In y l -> x <> y -> len l - 1 <= spread l.
Proof.
  revert x y. induction l as [|a l IH]; intros x y; [intros []|]. intros X Y N. rewrite spread_cons.
  rewrite len_cons, Z.add_simpl_r.
  destruct (all_equal_dec l) as [E|(x' & y' & X' & Y' & N')].
  - pose proof (spread_nonneg l). assert (exists c, In c l /\ a <> c) as (c & C & NC).
    { destruct X as [<-|X], Y as [<-|Y]; [congruence|eauto|exists x; split; [assumption|congruence]|]. elim N. now apply E. }
    pose proof (diffs_all a c l (fun y Y => E y c Y C) NC). lia.
  - specialize (IH x' y' X' Y' N'). assert (1 <= diffs a l); [|lia]. destruct (Z.eq_dec a x') as [->|]; [now apply (diffs_one x' l y')|now apply (diffs_one a l x')].
Qed.
Lemma all_equal_sums l c : (forall y, In y l -> y = c) -> zsum l = len l * c /\ sumsq l = len l * (c * c).
Proof.
  intros H. induction l as [|z l IH]; [split; reflexivity|]. rewrite sumsq_cons, zsum_cons, len_cons.
  destruct IH as [-> ->]; [intros y Y; apply H; now right|]. rewrite (H z) by now left. split; ring.
Qed.

(** consequences of the absence of int overflow *)
Lemma square_range x : in_int32 (x * x) = true -> -46340 <= x <= 46340.
Proof. unfold in_int32, int32_max, int32_min. intros H. nia. Qed.
Lemma sum_range l : no_int_overflow l -> - 2 ^ 31 <= zsum l <= 2 ^ 31 /\ - 46340 * len l <= zsum l <= 46340 * len l.
Proof.
  intros [A B]. split; [specialize (B l [] (eq_sym (app_nil_r l))); unfold in_int32, int32_max, int32_min in B; lia|].
  clear B. induction l as [|x l IH]; [unfold len; simpl; lia|]. rewrite zsum_cons, len_cons.
  specialize (IH (fun y Y => A y (or_intror Y))). pose proof (square_range x (A x (or_introl eq_refl))). lia.
Qed.
Local Open Scope R_scope.
(** the accumulated squares *)
Lemma add_squares_spec l : forall acc E k,
  (forall x, In x l -> in_int32 (x * x) = true) ->
  dvalid acc = true -> dfinite acc = true -> (0 <= E)%Z -> (0 <= k)%Z -> (k + len l <= 2 ^ 31)%Z ->
  (E <= 2 ^ 53 -> real acc = IZR E)%Z -> IZR (Z.min E (2 ^ 53)) <= real acc <= IZR (k * 2 ^ 31) ->
  exists r, add_int_squares l acc = Ok r /\ dvalid r = true /\ dfinite r = true /\
    (E + sumsq l <= 2 ^ 53 -> real r = IZR (E + sumsq l))%Z /\
    IZR (Z.min (E + sumsq l) (2 ^ 53)) <= real r <= IZR ((k + len l) * 2 ^ 31).
Proof.
  induction l as [|x l IH]; intros acc E k H V F E0 K0 K EX B.
  - exists acc. change (sumsq []) with 0%Z. change (len []) with 0%Z. rewrite !Z.add_0_r. repeat split; tauto.
  - cbn [add_int_squares]. pose proof (H x (or_introl eq_refl)) as X. unfold chk32. rewrite X. cbn [bind].
    assert (P : (0 <= x * x < 2 ^ 31)%Z) by (unfold in_int32, int32_max, int32_min in X; nia).
    rewrite len_cons in K.
    assert (L0 : (0 <= len l)%Z) by (unfold len; lia).
    destruct (dof_exact (x * x)) as (V2 & F2 & R2); [lia|].
    assert (M0 : 0 <= IZR (Z.min E (2 ^ 53))) by (apply IZR_le; lia).
    assert (PR : 0 <= IZR (x * x) <= IZR (2 ^ 31)) by (split; apply IZR_le; lia).
    assert (U : real acc + real (dof (x * x)) <= IZR ((k + 1) * 2 ^ 31)) 
      by (rewrite R2, Z.mul_add_distr_r, Z.mul_1_l, plus_IZR; apply Rplus_le_compat; [exact (proj2 B)|exact (proj2 PR)]).
    assert (KB : ((k + 1) * 2 ^ 31 <= 2 ^ 62)%Z) by lia.
    destruct (dadd_ok acc (dof (x * x)) 62 V V2 F F2) as (V3 & F3 & R3); [lia| |].
    { rewrite R2 in *. rewrite Rabs_pos_eq by lra. change (bpow radix2 62) with (IZR (2 ^ 62)). eapply Rle_trans; [exact U|now apply IZR_le]. }
    destruct (IH (dadd acc (dof (x * x))) (E + x * x)%Z (k + 1)%Z) as (r & R & Vr & Fr & Er & Br); try assumption; try lia.
    + intros y Y. apply H. now right.
    + intros L. rewrite R3, R2, EX by lia. rewrite <- plus_IZR. apply rnd_int. lia.
    + rewrite R3. split.
      * assert (G : IZR (Z.min (E + x * x) (2 ^ 53)) <= real acc + real (dof (x * x))).
        { rewrite R2. eapply Rle_trans; [|apply Rplus_le_compat_r, B]. rewrite <- plus_IZR. apply IZR_le. lia. }
        rewrite <- (rnd_int (Z.min (E + x * x) (2 ^ 53))) by lia. now apply rnd_le.
      * (* an integer multiple of 2^31 below 2^62 is representable *)
        assert (G : rnd (IZR ((k + 1) * 2 ^ 31)) = IZR ((k + 1) * 2 ^ 31)).
        { rewrite mult_IZR. unfold rnd. apply round_generic; [typeclasses eauto|]. change fx with (FLT_exp (-1074) 53). apply generic_format_FLT.
          exists (Float radix2 (k + 1) 31); [reflexivity| |]; simpl; lia. }
        rewrite <- G. now apply rnd_le.
    + exists r. rewrite sumsq_cons, !Z.add_assoc. split; [assumption|]. split; [assumption|]. split; [assumption|]. split; [assumption|].
      replace (k + len (x :: l))%Z with (k + 1 + len l)%Z; [assumption|]. rewrite len_cons. lia.
Qed.

Lemma elements_prefix {A} (l rest : list A) : elements (l ++ rest) (Z.of_nat (length l)) = Ok l.
Proof.
  unfold elements. rewrite app_length. destruct (Z.ltb_spec (Z.of_nat (length l + length rest)) (Z.of_nat (length l))); [lia|].
  rewrite Nat2Z.id, firstn_app, Nat.sub_diag, firstn_all, firstn_O, app_nil_r. reflexivity.
Qed.
Lemma sum_int_ok l : (forall p q, l = p ++ q -> in_int32 (zsum p) = true) -> sum_int l = Ok (zsum l).
Proof. intros H. destruct (sum_int_loop_iff l 0 eq_refl) as ((S1 & _) & _). unfold sum_int. rewrite S1; [reflexivity|exact H]. Qed.
Lemma sum_int_bad l : ~ (forall p q, l = p ++ q -> in_int32 (zsum p) = true) -> sum_int l = UB.
Proof.
  intros H. destruct (sum_int_loop_iff l 0 eq_refl) as ((_ & S2) & [(v & Ev)|E0] & S3); [|exact E0].
  elim H. pose proof (S3 v Ev) as ->. exact (S2 Ev).
Qed.
Definition fits (l : list Z) : Prop := l <> [] /\ (len l <= int32_max)%Z.
Lemma fits_len l : fits l -> (1 <= len l < 2 ^ 31)%Z.
Proof. intros [N L]. unfold len, int32_max in *. destruct l; [congruence|]. cbn [length] in *. lia. Qed.
Lemma len_R l : fits l -> 1 <= IZR (len l) <= IZR (2 ^ 31).
Proof. intros H. apply fits_len in H. split; apply IZR_le; lia. Qed.

(** the mean of ints: the correctly rounded quotient *)
Lemma mean_of_int_ok l rest : fits l -> (forall p q, l = p ++ q -> in_int32 (zsum p) = true) ->
  exists m, mean_of_int (l ++ rest) (len l) = Ok m /\ dvalid m = true /\ dfinite m = true /\ real m = rnd (IZR (zsum l) / IZR (len l)) /\
    Rabs (real m) <= bpow radix2 31.
Proof.
  intros FL H. unfold mean_of_int. unfold len at 1. rewrite elements_prefix. cbn [bind]. rewrite sum_int_ok by assumption. cbn [bind].
  pose proof (fits_len l FL) as N. pose proof (len_R l FL) as NR.
  assert (S : (Z.abs (zsum l) <= 2 ^ 31)%Z) by (specialize (H l [] (eq_sym (app_nil_r l))); unfold in_int32, int32_max, int32_min in H; lia).
  destruct (dof_exact (zsum l)) as (V1 & F1 & R1); [lia|]. destruct (dof_exact (len l)) as (V2 & F2 & R2); [lia|].
  assert (B : Rabs (real (dof (zsum l)) / real (dof (len l))) <= bpow radix2 31).
  { rewrite R1, R2. unfold Rdiv. rewrite Rabs_mult, Rabs_inv, <- !abs_IZR. rewrite (Z.abs_eq (len l)) by lia.
    assert (IZR (Z.abs (zsum l)) <= IZR (2 ^ 31)) by now apply IZR_le.
    apply (Rle_trans _ (IZR (Z.abs (zsum l)) * 1)); [|rewrite Rmult_1_r; assumption].
    apply Rmult_le_compat_l; [apply IZR_le; lia|]. rewrite <- Rinv_1. apply Rinv_le; lra. }
  destruct (ddiv_ok (dof (zsum l)) (dof (len l)) 31 V1 V2 F1) as (V3 & F3 & R3); [lra|lia|exact B|].
  exists (ddiv (dof (zsum l)) (dof (len l))). split; [reflexivity|]. split; [assumption|]. split; [assumption|].
  rewrite R3. split; [now rewrite R1, R2|]. apply rnd_bound; [lia|exact B].
Qed.

Lemma u_small : 0 < u < / IZR (2 ^ 52). Proof. rewrite u_val. split; [|apply Rinv_lt_contravar]; vm_compute Z.pow; lra. Qed.
Lemma tiny : bpow radix2 (-1075) <= bpow radix2 (-200). Proof. apply bpow_le. lia. Qed.
Lemma mid k : (-200 <= k)%Z -> bpow radix2 (-1022) <= bpow radix2 k. Proof. intros. apply bpow_le. lia. Qed.
(** relative error of one rounding, for arguments of ordinary size *)
Lemma rnd_rel_pos a : 0 = a \/ bpow radix2 (-200) <= a -> a * (1 - u) <= rnd a <= a * (1 + u).
Proof.
  intros [<-|H]; [rewrite rnd_0; lra|]. pose proof (mid (-200) ltac:(lia)). pose proof (bpow_gt_0 radix2 (-200)).
  pose proof (rnd_rel a ltac:(rewrite Rabs_pos_eq; lra)) as L. rewrite (Rabs_pos_eq a) in L by lra. apply Rabs_le_inv in L. lra.
Qed.
(** the square of the rounded quotient s, rounded *)
Lemma rnd_square s : 0 = s \/ bpow radix2 (-31) <= Rabs s ->
  s * s * (1 - 4 * u) <= rnd (rnd s * rnd s) <= s * s * (1 + 4 * u).
Proof.
  pose proof u_small as [U0 U1].
  assert (U2 : u < / 4503599627370496) by exact U1.
  intros [<-|H]; [rewrite rnd_0, !Rmult_0_l, rnd_0; lra|].
  assert (W : forall t, bpow radix2 (-31) <= t -> t * t * (1 - 4 * u) <= rnd (rnd t * rnd t) <= t * t * (1 + 4 * u)).
  { intros t T. pose proof (bpow_gt_0 radix2 (-31)) as P31.
    assert (T0 : bpow radix2 (-200) <= t) by (eapply Rle_trans; [|exact T]; apply bpow_le; lia).
    destruct (rnd_rel_pos t (or_intror T0)) as [L1 L2].
    assert (LP : 0 <= t * (1 - u)) by (apply Rmult_le_pos; lra).
    assert (TT : bpow radix2 (-62) <= t * t).
    { change (-62)%Z with (-31 + -31)%Z. rewrite bpow_plus. apply Rmult_le_compat; lra. }
    assert (T2 : forall c, / 2 <= c -> bpow radix2 (-200) <= t * t * c).
    { intros c C. apply (Rle_trans _ (bpow radix2 (-62) * / 2)); [|apply Rmult_le_compat; try lra; apply bpow_ge_0].
      change (/ 2) with (bpow radix2 (-1)). rewrite <- bpow_plus. apply bpow_le. lia. }
    assert (T3 : 0 < t * t) by (eapply Rlt_le_trans; [apply bpow_gt_0|exact TT]).
    split.
    - apply (Rle_trans _ (rnd (t * t * ((1 - u) * (1 - u))))).
      + destruct (rnd_rel_pos (t * t * ((1 - u) * (1 - u)))) as [L _]; [right; apply T2; nra|]. eapply Rle_trans; [|exact L].
        rewrite (Rmult_assoc (t * t)). apply Rmult_le_compat_l; [lra|]. nra.
      + apply rnd_le. replace (t * t * ((1 - u) * (1 - u))) with (t * (1 - u) * (t * (1 - u))) by ring. apply Rmult_le_compat; lra.
    - apply (Rle_trans _ (rnd (t * t * ((1 + u) * (1 + u))))).
      + apply rnd_le. replace (t * t * ((1 + u) * (1 + u))) with (t * (1 + u) * (t * (1 + u))) by ring. apply Rmult_le_compat; lra.
      + destruct (rnd_rel_pos (t * t * ((1 + u) * (1 + u)))) as [_ L]; [right; apply T2; nra|]. eapply Rle_trans; [exact L|].
        rewrite (Rmult_assoc (t * t)). apply Rmult_le_compat_l; [lra|]. nra. }
  destruct (Rle_or_lt 0 s) as [P|P].
  - rewrite Rabs_pos_eq in H by assumption. now apply W.
  - rewrite Rabs_left in H by assumption. specialize (W (- s) H). unfold rnd in W. rewrite round_NE_opp in W. fold (rnd s) in W.
    replace (- s * - s) with (s * s) in W by ring. replace (- rnd s * - rnd s) with (rnd s * rnd s) in W by ring. exact W.
Qed.
