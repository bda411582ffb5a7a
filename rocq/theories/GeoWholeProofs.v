From Coq Require Import Reals Lra Floats.SpecFloat.
From Flocq Require Import Core IEEE754.BinarySingleNaN.
From Verif Require Import Base Float FloatProofs DistNumSpec StatProofs DistAccProofs GeoModel GeoSpec GeoProofs GeoFloatSpec.
Local Open Scope R_scope.

Lemma exp_ok k : ((-1074 <=? k) && (k <? 1024))%Z = true -> (-1074 <= k < 1024)%Z. Proof. lia. Qed.
Ltac zle := let H := fresh in intro H; vm_compute in H; discriminate H.
(** integers held in doubles *)
Definition holds (z : Z) (x : double) : Prop := number x /\ real x = IZR z.
Lemma int_bound z : (Z.abs z <= 2 ^ 53)%Z -> Rabs (IZR z) <= bpow radix2 53.
Proof. intros H. rewrite <- abs_IZR. change (bpow radix2 53) with (IZR (2 ^ 53)). now apply IZR_le. Qed.
Lemma add_holds a b x y : holds a x -> holds b y -> (Z.abs (a + b) <= 2 ^ 53)%Z -> holds (a + b) (dadd x y).
Proof.
  intros [[Vx Fx] Ex] [[Vy Fy] Ey] H. destruct (dadd_ok x y 53 Vx Vy Fx Fy (exp_ok 53 eq_refl)) as (V & F & E).
  - rewrite Ex, Ey, <- plus_IZR. now apply int_bound.
  - split; [now split|]. rewrite E, Ex, Ey, <- plus_IZR. now apply rnd_int.
Qed.
Lemma sub_holds a b x y : holds a x -> holds b y -> (Z.abs (a - b) <= 2 ^ 53)%Z -> holds (a - b) (dsub x y).
Proof.
  intros [[Vx Fx] Ex] [[Vy Fy] Ey] H. destruct (dsub_ok x y 53 Vx Vy Fx Fy (exp_ok 53 eq_refl)) as (V & F & E).
  - rewrite Ex, Ey, <- minus_IZR. now apply int_bound.
  - split; [now split|]. rewrite E, Ex, Ey, <- minus_IZR. now apply rnd_int.
Qed.
Lemma mul_holds a b x y : holds a x -> holds b y -> (Z.abs (a * b) <= 2 ^ 53)%Z -> holds (a * b) (dmul x y).
Proof.
  intros [[Vx Fx] Ex] [[Vy Fy] Ey] H. destruct (dmul_ok x y 53 Vx Vy Fx Fy (exp_ok 53 eq_refl)) as (V & F & E).
  - rewrite Ex, Ey, <- mult_IZR. now apply int_bound.
  - split; [now split|]. rewrite E, Ex, Ey, <- mult_IZR. now apply rnd_int.
Qed.
Lemma zero_holds : holds 0 dzero. Proof. repeat split. Qed.
Lemma abs_number x : number x -> number (dabs x) /\ real (dabs x) = Rabs (real x).
Proof.
  intros [V F]. destruct x as [s|s| |s m e]; try discriminate.
  - split; [now split|]. unfold real. cbn. now rewrite Rabs_R0.
  - split; [now split|]. unfold real, dabs. cbn [SFabs SF2R]. rewrite <- F2R_Zabs. now destruct s.
Qed.

(** cross and dot products of vectors with integer coordinates *)
Definition holds2 (z : Z * Z) (p : double * double) : Prop := holds (fst z) (fst p) /\ holds (snd z) (snd p).
Definition zcross (v w : Z * Z) : Z := (fst v * snd w - snd v * fst w)%Z.
Definition zdot2 (v w : Z * Z) : Z := (fst v * fst w + snd v * snd w)%Z.
Definition zsub2 (v w : Z * Z) : Z * Z := (fst v - fst w, snd v - snd w)%Z.
Definition bound2 (b : Z) (v : Z * Z) : Prop := (Z.abs (fst v) <= b /\ Z.abs (snd v) <= b)%Z.
Lemma prod_bound a b m n : (Z.abs a <= m -> Z.abs b <= n -> Z.abs (a * b) <= m * n)%Z.
Proof. intros A B. rewrite Z.abs_mul. apply Z.mul_le_mono_nonneg; lia. Qed.
Lemma cross_holds v w p q m n : holds2 v p -> holds2 w q -> bound2 m v -> bound2 n w -> (2 * (m * n) <= 2 ^ 53)%Z -> holds (zcross v w) (cross ieee p q).
Proof.
  intros [P1 P2] [Q1 Q2] [M1 M2] [N1 N2] H. unfold cross, zcross. cbn [nsub nmul ieee].
  pose proof (prod_bound _ _ _ _ M1 N2). pose proof (prod_bound _ _ _ _ M2 N1).
  apply sub_holds; [apply mul_holds; try assumption; lia|apply mul_holds; try assumption; lia|lia].
Qed.
Lemma dot_holds v w p q m n : holds2 v p -> holds2 w q -> bound2 m v -> bound2 n w -> (2 * (m * n) <= 2 ^ 53)%Z -> holds (zdot2 v w) (pdot ieee p q).
Proof.
  intros [P1 P2] [Q1 Q2] [M1 M2] [N1 N2] H. unfold pdot, dot, zdot2. cbn [dot_from nadd nmul nzero ieee].
  pose proof (prod_bound _ _ _ _ M1 N1). pose proof (prod_bound _ _ _ _ M2 N2).
  replace (fst v * fst w)%Z with (0 + fst v * fst w)%Z by ring.
  apply add_holds; [apply add_holds; [exact zero_holds|apply mul_holds; try assumption; lia|lia]|apply mul_holds; try assumption; lia|lia].
Qed.
Lemma sub2_holds v w p q m n : holds2 v p -> holds2 w q -> bound2 m v -> bound2 n w -> (m + n <= 2 ^ 53)%Z ->
  holds2 (zsub2 v w) (psub ieee p q) /\ bound2 (m + n) (zsub2 v w).
Proof.
  intros [P1 P2] [Q1 Q2] [M1 M2] [N1 N2] H. unfold psub, zsub2, bound2. cbn [nsub ieee fst snd].
  split; [split; cbn [fst snd]; apply sub_holds; try assumption; lia|lia].
Qed.

(** the length of a vector with integer coordinates *)
Lemma root_bounds z : (0 <= z <= 2 ^ 53)%Z -> (z = 0 \/ 1 <= z)%Z -> sqrt (IZR z) <= bpow radix2 53 /\ (z <> 0%Z -> 1 <= sqrt (IZR z)).
Proof.
  intros H C. split.
  - apply Rle_trans with (sqrt (bpow radix2 53 * bpow radix2 53)).
    + apply sqrt_le_1_alt. apply Rle_trans with (bpow radix2 53); [change (bpow radix2 53) with (IZR (2 ^ 53)); apply IZR_le; lia|].
      rewrite <- (Rmult_1_r (bpow radix2 53)) at 1. apply Rmult_le_compat_l; [apply bpow_ge_0|]. change 1 with (bpow radix2 0). apply bpow_le. zle.
    + rewrite sqrt_square; [lra|apply bpow_ge_0].
  - intros N. rewrite <- sqrt_1. apply sqrt_le_1_alt. apply IZR_le. lia.
Qed.
Lemma sqrt_near z x : holds z x -> (0 <= z <= 2 ^ 53)%Z ->
  number (dsqrt x) /\ exists e, Rabs e <= u /\ real (dsqrt x) = sqrt (IZR z) * (1 + e).
Proof.
  intros [[V F] E] H. destruct (dsqrt_spec x V F) as (V1 & F1 & E1); [rewrite E; apply IZR_le; lia|]. split; [now split|].
  rewrite E in E1. destruct (Z.eq_dec z 0) as [->|N].
  - exists 0. rewrite Rabs_R0. pose proof u_small. split; [lra|]. rewrite E1, sqrt_0, rnd_0. ring.
  - destruct (root_bounds z H ltac:(lia)) as [_ L]. specialize (L N). rewrite E1. apply rnd_factor.
    rewrite Rabs_pos_eq by lra. apply Rle_trans with 1; [|exact L]. change 1 with (bpow radix2 0). apply bpow_le. zle.
Qed.
Lemma near_close s e : 0 <= s -> Rabs e <= u -> close 1 s (s * (1 + e)) s.
Proof. intros S E. unfold close. fold u. replace (s * (1 + e) - s) with (e * s) by ring. rewrite Rabs_mult, (Rabs_pos_eq s) by assumption. rewrite Rmult_1_l. now apply Rmult_le_compat_r. Qed.

(** |c / sqrt n| in binary64 for integers c and n *)
Lemma quotient_close c n x d : holds c x -> (Z.abs c <= 2 ^ 53)%Z -> (1 <= n <= 2 ^ 53)%Z -> number d ->
  (exists e, Rabs e <= u /\ real d = sqrt (IZR n) * (1 + e)) ->
  number (dabs (ddiv x d)) /\ close 3 (Rabs (IZR c / sqrt (IZR n))) (real (dabs (ddiv x d))) (Rabs (IZR c / sqrt (IZR n))).
Proof.
  intros [[V F] E] C N [Vd Fd] (e & B & D). pose proof u_small as U. destruct (root_bounds n ltac:(lia) ltac:(lia)) as [H L]. specialize (L ltac:(lia)).
  set (s := sqrt (IZR n)) in *. clearbody s. apply Rabs_le_inv in B.
  assert (De : real d <> 0) by (rewrite D; apply Rgt_not_eq, Rmult_lt_0_compat; lra).
  assert (Dp : 0 < / (1 + e)) by (apply Rinv_0_lt_compat; lra).
  assert (Q : real x / real d = IZR c / s * / (1 + e)) by (rewrite E, D; field; split; lra).
  assert (K : / (1 + e) <= 2). { apply (Rmult_le_reg_r (1 + e)); [lra|]. rewrite Rinv_l by lra. lra. }
  assert (S1 : 0 < / s <= 1). { split; [apply Rinv_0_lt_compat; lra|]. rewrite <- Rinv_1. apply Rinv_le; lra. }
  assert (Q2 : Rabs (IZR c / s) <= bpow radix2 53).
  { unfold Rdiv. rewrite Rabs_mult, (Rabs_pos_eq (/ s)) by lra. rewrite <- (Rmult_1_r (bpow radix2 53)). apply Rmult_le_compat; [apply Rabs_pos|lra|now apply int_bound|lra]. }
  destruct (ddiv_ok x d 60 V Vd F De (exp_ok 60 eq_refl)) as (V1 & F1 & E1).
  { rewrite Q, Rabs_mult, (Rabs_pos_eq (/ (1 + e))) by lra. apply Rle_trans with (bpow radix2 53 * 2); [apply Rmult_le_compat; try lra; apply Rabs_pos|].
    change 2 with (bpow radix2 1). rewrite <- bpow_plus. apply bpow_le. zle. }
  destruct (abs_number _ (conj V1 F1)) as [N1 A1]. split; [exact N1|]. rewrite A1, E1, Q. unfold close. fold u.
  eapply Rle_trans; [apply Rabs_triang_inv2|]. rewrite Rmult_assoc.
  destruct (Z.eq_dec c 0) as [->|Nc].
  - unfold Rdiv. rewrite !Rmult_0_l, rnd_0, Rminus_0_r, !Rabs_R0. lra.
  - assert (Lq : bpow radix2 (-60) <= Rabs (IZR c / s * / (1 + e))).
    { unfold Rdiv. rewrite !Rabs_mult, (Rabs_pos_eq (/ s)), (Rabs_pos_eq (/ (1 + e))) by lra.
      assert (1 <= Rabs (IZR c)) by (rewrite <- abs_IZR; apply IZR_le; lia).
      assert (bpow radix2 (-53) <= / s) by (change (-53)%Z with (- (53))%Z; rewrite bpow_opp; apply Rinv_le; lra).
      assert (/ 2 <= / (1 + e)) by (apply Rinv_le; lra).
      apply Rle_trans with (1 * bpow radix2 (-53) * / 2).
      - rewrite Rmult_1_l. change (/ 2) with (bpow radix2 (-1)). rewrite <- bpow_plus. apply bpow_le. zle.
      - pose proof (bpow_ge_0 radix2 (-53)). apply Rmult_le_compat; try lra. apply Rmult_le_compat; lra. }
    destruct (rnd_factor (IZR c / s * / (1 + e))) as (f & Bf & Ef); [eapply Rle_trans; [|exact Lq]; apply bpow_le; zle|].
    rewrite Ef. set (q := IZR c / s) in *. apply Rabs_le_inv in Bf.
    replace (q * / (1 + e) * (1 + f) - q) with (q * ((f - e) * / (1 + e))) by (field; lra). rewrite Rabs_mult, (Rmult_comm 3), Rmult_comm, Rmult_assoc, (Rmult_comm (Rabs q)), <- Rmult_assoc.
    apply Rmult_le_compat_r; [apply Rabs_pos|]. apply Rabs_le. split; apply (Rmult_le_reg_r (1 + e)); try lra; rewrite Rmult_assoc, Rinv_l by lra; nra.
Qed.

Lemma close_weaken k k' m x y : k <= k' -> 0 <= m -> close k m x y -> close k' m x y.
Proof. intros K M C. unfold close in *. eapply Rle_trans; [exact C|]. apply Rmult_le_compat_r; [exact M|]. apply Rmult_le_compat_r; [apply bpow_ge_0|exact K]. Qed.
Definition zr (v : Z * Z) : R * R := (IZR (fst v), IZR (snd v)).
Lemma holds_real z p : holds2 z p -> rpair p = zr z.
Proof. intros [[_ A] [_ B]]. unfold rpair, zr. now rewrite A, B. Qed.
Lemma whole_holds b p : whole_point b p -> exists z, holds2 z p /\ bound2 b z.
Proof. intros [(N1 & z1 & E1 & B1) (N2 & z2 & E2 & B2)]. exists (z1, z2). repeat split; cbn [fst snd]; try apply N1; try apply N2; assumption. Qed.
Definition rline (l : line) : line := Line (rpair (origin l)) (rpair (dir l)).
Lemma self_dot_bounds v m : bound2 m v -> (0 <= m -> 2 * (m * m) <= 2 ^ 53 -> 0 <= zdot2 v v <= 2 ^ 53)%Z.
Proof.
  intros [A B] M H. unfold zdot2. pose proof (prod_bound _ _ _ _ A A) as PA. pose proof (prod_bound _ _ _ _ B B) as PB.
  pose proof (Z.square_nonneg (fst v)). pose proof (Z.square_nonneg (snd v)). lia.
Qed.
Lemma self_dot_pos v : v <> (0, 0)%Z -> (1 <= zdot2 v v)%Z.
Proof.
  destruct v as [a b]. unfold zdot2. cbn [fst snd]. intros N. destruct (Z.eq_dec a 0) as [->|A].
  - assert (b <> 0)%Z by (intros ->; now apply N). nia.
  - nia.
Qed.
(** distance to a line *)
Lemma line_whole p l zp zo zd b : holds2 zp p -> holds2 zo (origin l) -> holds2 zd (dir l) -> bound2 b zp -> bound2 b zo -> bound2 b zd ->
  (0 <= b <= 2 ^ 24)%Z -> zd <> (0, 0)%Z ->
  let c := zcross zd (zsub2 zp zo) in
  number (disToLine ieee p l) /\ disToLine exactR (rpair p) (rline l) = Rabs (IZR c / sqrt (IZR (zdot2 zd zd))) /\
  close 3 (disToLine exactR (rpair p) (rline l)) (real (disToLine ieee p l)) (disToLine exactR (rpair p) (rline l)).
Proof.
  intros P O D BP BO BD B N c.
  destruct (sub2_holds zp zo p (origin l) b b P O BP BO ltac:(lia)) as [S BS].
  pose proof (cross_holds zd (zsub2 zp zo) (dir l) _ b (b + b) D S BD BS ltac:(nia)) as C. fold c in C.
  pose proof (dot_holds zd zd (dir l) (dir l) b b D D BD BD ltac:(nia)) as Q.
  assert (QB : (0 <= zdot2 zd zd <= 2 ^ 53)%Z) by (apply (self_dot_bounds zd b); try assumption; nia).
  pose proof (self_dot_pos zd N) as QP.
  assert (CB : (Z.abs c <= 2 ^ 53)%Z).
  { unfold c, zcross. destruct BD as [D1 D2], BS as [S1 S2]. pose proof (prod_bound _ _ _ _ D1 S2). pose proof (prod_bound _ _ _ _ D2 S1). nia. }
  destruct (sqrt_near _ _ Q QB) as [NS RS].
  assert (X : disToLine exactR (rpair p) (rline l) = Rabs (IZR c / sqrt (IZR (zdot2 zd zd)))).
  { unfold disToLine, rline. cbn [dir origin]. cbv zeta. cbn [nabs ndiv exactR]. rewrite len_exact, cross_exact. unfold psub. cbn [nsub exactR fst snd].
    rewrite (holds_real _ _ P), (holds_real _ _ O), (holds_real _ _ D). unfold zr, c, zcross, zdot2, zsub2. cbn [fst snd].
    rewrite plus_IZR, minus_IZR, !mult_IZR, !minus_IZR. reflexivity. }
  rewrite X. destruct (quotient_close c (zdot2 zd zd) _ _ C CB ltac:(lia) NS RS) as [N1 C1]. split; [exact N1|]. split; [reflexivity|exact C1].
Qed.

(** the comparison of a dot product with the tolerance 1e-6 *)
Lemma eps_value : number (neps ieee) /\ 0 < real (neps ieee) < 1.
Proof.
  cbn [neps ieee]. destruct (dof_exact 1 ltac:(lia)) as (V1 & F1 & E1). destruct (dof_exact 1000000 ltac:(lia)) as (V2 & F2 & E2).
  assert (Q : bpow radix2 (-20) <= 1 / 1000000 <= bpow radix2 (-1)).
  { change (bpow radix2 (-20)) with (/ 1048576). change (bpow radix2 (-1)) with (/ 2). lra. }
  destruct (ddiv_ok (dof 1) (dof 1000000) 0 V1 V2 F1) as (V & F & E); [rewrite E2; lra|lia| |].
  - rewrite E1, E2. rewrite Rabs_pos_eq; [|lra]. change (bpow radix2 0) with 1. lra.
  - split; [now split|]. rewrite E, E1, E2. destruct Q as [Q1 Q2]. apply rnd_le in Q1, Q2. rewrite rnd_pow in Q1, Q2 by lia.
    change (bpow radix2 (-20)) with (/ 1048576) in Q1. change (bpow radix2 (-1)) with (/ 2) in Q2. lra.
Qed.
Lemma dcmp_whole z x : holds z x -> dcmp ieee x = Z.sgn z.
Proof.
  intros [[V F] E]. destruct eps_value as [[Ve Fe] Be]. destruct (abs_number x (conj V F)) as [[Va Fa] Ea].
  unfold dcmp. cbn [nlt nabs nzero ieee]. rewrite !dltb_spec by (try assumption; reflexivity). rewrite Ea, E. change (real dzero) with 0.
  destruct (Rlt_bool_spec (Rabs (IZR z)) (real (neps ieee))) as [L|L].
  - assert (z = 0)%Z as ->; [|reflexivity]. rewrite <- abs_IZR in L. assert (IZR (Z.abs z) < 1) by lra. apply lt_IZR in H. lia.
  - destruct (Rlt_bool_spec 0 (IZR z)) as [P|P]; [apply lt_IZR in P|apply le_IZR in P].
    + symmetry. now apply Z.sgn_pos.
    + symmetry. apply Z.sgn_neg. destruct (Z.eq_dec z 0) as [->|]; [|lia]. rewrite Rabs_R0 in L. lra.
Qed.
(** the length of a vector *)
Lemma plen_whole v w b : holds2 v w -> bound2 b v -> (0 <= b -> 2 * (b * b) <= 2 ^ 53)%Z -> (0 <= b)%Z ->
  number (plen ieee w) /\ close 1 (sqrt (IZR (zdot2 v v))) (real (plen ieee w)) (sqrt (IZR (zdot2 v v))).
Proof.
  intros H B M P. specialize (M P). pose proof (dot_holds v v w w b b H H B B M) as D. pose proof (self_dot_bounds v b B P M) as Q.
  destruct (sqrt_near _ _ D Q) as [N (e & Be & E)]. split; [exact N|]. change (plen ieee w) with (dsqrt (pdot ieee w w)). rewrite E. apply near_close; [apply sqrt_pos|exact Be].
Qed.
Lemma distance_int zp zo zd t : distance (zr zp) (at_param (zr zo) (zr zd) (IZR t)) =
  sqrt (IZR (zdot2 (fst zp - fst zo - t * fst zd, snd zp - snd zo - t * snd zd)%Z (fst zp - fst zo - t * fst zd, snd zp - snd zo - t * snd zd)%Z)).
Proof.
  unfold distance, at_param, zr, zdot2. cbn [fst snd]. f_equal. rewrite plus_IZR, !mult_IZR, !minus_IZR, !mult_IZR. ring.
Qed.
Lemma segment_whole p l b : whole_point b p -> whole_point b (origin l) -> whole_point b (dir l) -> (b <= 2 ^ 24)%Z -> rpair (dir l) <> (0, 0) ->
  number (disToSegment ieee p l) /\
  exists d, least_distance (fun t => 0 <= t <= 1) (rpair (origin l)) (rpair (dir l)) (rpair p) d /\ close 3 d (real (disToSegment ieee p l)) d.
Proof.
  intros WP WO WD B N. destruct (whole_holds _ _ WP) as (zp & P & BP). destruct (whole_holds _ _ WO) as (zo & O & BO). destruct (whole_holds _ _ WD) as (zd & D & BD).
  assert (B0 : (0 <= b)%Z) by (destruct BP; lia). pose proof (holds_real _ _ P) as RP. pose proof (holds_real _ _ O) as RO. pose proof (holds_real _ _ D) as RD.
  assert (Nz : zd <> (0, 0)%Z) by (intros ->; apply N; exact RD).
  destruct (sub2_holds zp zo p (origin l) b b P O BP BO ltac:(lia)) as [S2 BS2].
  destruct (sub2_holds _ zd _ (dir l) (b + b) b S2 D BS2 BD ltac:(lia)) as [S3 BS3].
  pose proof (dot_holds zd _ (dir l) _ b (b + b) D S2 BD BS2 ltac:(nia)) as T2.
  pose proof (dot_holds zd _ (dir l) _ b (b + b + b) D S3 BD BS3 ltac:(nia)) as T3.
  assert (A1 : along (rpair (origin l)) (rpair (dir l)) (rpair p) = IZR (zdot2 zd (zsub2 zp zo))).
  { rewrite RP, RO, RD. unfold along, zr, zdot2, zsub2. cbn [fst snd]. rewrite plus_IZR, !mult_IZR, !minus_IZR. reflexivity. }
  assert (A2 : along (rpair (origin l)) (rpair (dir l)) (rpair p) - (fst (rpair (dir l)) * fst (rpair (dir l)) + snd (rpair (dir l)) * snd (rpair (dir l))) = IZR (zdot2 zd (zsub2 (zsub2 zp zo) zd))).
  { rewrite A1, RD. unfold zr, zdot2, zsub2. cbn [fst snd]. rewrite !plus_IZR, !mult_IZR, !minus_IZR. ring. }
  unfold disToSegment. cbv zeta. rewrite (dcmp_whole _ _ T2), (dcmp_whole _ _ T3).
  set (s := zdot2 zd (zsub2 zp zo)) in *. set (s3 := zdot2 zd (zsub2 (zsub2 zp zo) zd)) in *.
  destruct (Z.sgn s <? 0)%Z eqn:C1; [apply Z.ltb_lt, Z.sgn_neg_iff in C1|apply Z.ltb_ge in C1].
  - destruct (plen_whole _ _ (b + b) S2 BS2 ltac:(nia) ltac:(lia)) as [NL CL]. split; [exact NL|].
    exists (distance (rpair p) (at_param (rpair (origin l)) (rpair (dir l)) 0)). split; [split; [exists 0; split; [lra|reflexivity]|]|].
    + intros t T. apply before_start; [|lra]. rewrite A1. apply IZR_le. lia.
    + rewrite RP, RO, RD, (distance_int zp zo zd 0), !Z.mul_0_l, !Z.sub_0_r. apply (close_weaken 1); [lra|apply sqrt_pos|exact CL].
  - assert (s >= 0)%Z by (pose proof (Z.sgn_neg_iff s); destruct (Z.lt_ge_cases s 0) as [G|G]; [apply Z.sgn_neg_iff in G; lia|lia]).
    destruct (0 <? Z.sgn s3)%Z eqn:C2; [apply Z.ltb_lt, Z.sgn_pos_iff in C2|apply Z.ltb_ge in C2].
    + destruct (plen_whole _ _ (b + b + b) S3 BS3 ltac:(nia) ltac:(lia)) as [NL CL]. split; [exact NL|].
      exists (distance (rpair p) (at_param (rpair (origin l)) (rpair (dir l)) 1)). split; [split; [exists 1; split; [lra|reflexivity]|]|].
      * intros t T. apply after_end; [|lra]. rewrite A2. apply IZR_le. lia.
      * rewrite RP, RO, RD, (distance_int zp zo zd 1), !Z.mul_1_l. apply (close_weaken 1); [lra|apply sqrt_pos|exact CL].
    + assert (s3 <= 0)%Z by (destruct (Z.lt_ge_cases 0 s3) as [G|G]; [apply Z.sgn_pos_iff in G; lia|lia]).
      destruct (line_whole p l zp zo zd b P O D BP BO BD ltac:(lia) Nz) as (NL & _ & CL). split; [exact NL|].
      exists (disToLine exactR (rpair p) (rline l)). split; [|exact CL].
      assert (Nd : dir (rline l) <> (0, 0)) by exact N. pose proof (sq_nz _ N) as Q.
      split.
      * exists (along (rpair (origin l)) (rpair (dir l)) (rpair p) / (fst (rpair (dir l)) * fst (rpair (dir l)) + snd (rpair (dir l)) * snd (rpair (dir l)))).
        split; [|symmetry; exact (toLine_eq (rpair p) (rline l) Nd)].
        assert (0 <= along (rpair (origin l)) (rpair (dir l)) (rpair p)) by (rewrite A1; apply IZR_le; lia).
        assert (along (rpair (origin l)) (rpair (dir l)) (rpair p) - (fst (rpair (dir l)) * fst (rpair (dir l)) + snd (rpair (dir l)) * snd (rpair (dir l))) <= 0) by (rewrite A2; apply IZR_le; lia).
        set (n := fst (rpair (dir l)) * fst (rpair (dir l)) + snd (rpair (dir l)) * snd (rpair (dir l))) in *. set (a := along _ _ _) in *.
        assert (0 < / n) by now apply Rinv_0_lt_compat. split; [apply Rmult_le_pos; lra|]. apply (Rmult_le_reg_r n); [exact Q|]. unfold Rdiv. rewrite Rmult_assoc, Rinv_l by lra. lra.
      * intros t _. exact (toLine_le (rpair p) (rline l) t Nd).
Qed.

(** intersection *)
Lemma inter_coord a v n d x w t s : number x -> real x = IZR a -> number w -> real w = IZR v -> (Z.abs a <= 2 ^ 24)%Z -> (Z.abs v <= 2 ^ 24)%Z ->
  holds n s -> holds d t -> (Z.abs n <= 2 ^ 53)%Z -> (1 <= Z.abs d <= 2 ^ 53)%Z ->
  let r := dadd x (dmul w (ddiv s t)) in
  number r /\ close 4 (Rabs (IZR a) + Rabs (IZR v * (IZR n / IZR d))) (real r) (IZR a + IZR v * (IZR n / IZR d)).
Proof.
  intros [Vx Fx] Ex [Vw Fw] Ew A V [[Vs Fs] Es] [[Vt Ft] Et] N D r. pose proof u_small as U.
  assert (Dn : IZR d <> 0) by (apply IZR_neq; lia).
  assert (Dl : 1 <= Rabs (IZR d) <= bpow radix2 53). { split; [rewrite <- abs_IZR; apply IZR_le; lia|apply int_bound; lia]. }
  assert (Di : bpow radix2 (-53) <= Rabs (/ IZR d) <= 1).
  { rewrite Rabs_inv. split; [change (-53)%Z with (- (53))%Z; rewrite bpow_opp|rewrite <- Rinv_1]; apply Rinv_le; lra. }
  pose proof (int_bound n N) as Nb. set (q := IZR n / IZR d) in *.
  assert (Qb : Rabs q <= bpow radix2 53).
  { unfold q, Rdiv. rewrite Rabs_mult, <- (Rmult_1_r (bpow radix2 53)). apply Rmult_le_compat; try apply Rabs_pos; lra. }
  assert (Qc : n = 0%Z \/ bpow radix2 (-53) <= Rabs q).
  { destruct (Z.eq_dec n 0) as [|Nn]; [now left|right]. unfold q, Rdiv. rewrite Rabs_mult, <- (Rmult_1_l (bpow radix2 (-53))).
    pose proof (bpow_ge_0 radix2 (-53)). apply Rmult_le_compat; try lra. rewrite <- abs_IZR. apply IZR_le. lia. }
  destruct (ddiv_ok s t 53 Vs Vt Fs ltac:(rewrite Et; exact Dn) (exp_ok 53 eq_refl)) as (V1 & F1 & E1); [rewrite Es, Et; exact Qb|]. rewrite Es, Et in E1. fold q in E1.
  assert (T : exists e, Rabs e <= u /\ real (ddiv s t) = q * (1 + e)).
  { rewrite E1. destruct Qc as [-> |Qc].
    - exists 0. rewrite Rabs_R0. split; [lra|]. unfold q, Rdiv. rewrite !Rmult_0_l. apply rnd_0.
    - apply rnd_factor. eapply Rle_trans; [|exact Qc]. apply bpow_le. zle. }
  destruct T as (e1 & B1 & T). clear E1.
  assert (B1' := B1). apply Rabs_le_inv in B1'.
  assert (Vb : Rabs (IZR v) <= bpow radix2 24). { rewrite <- abs_IZR. change (bpow radix2 24) with (IZR (2 ^ 24)). now apply IZR_le. }
  assert (Mb : Rabs (IZR v * (q * (1 + e1))) <= bpow radix2 78).
  { rewrite !Rabs_mult. change 78%Z with (24 + (53 + 1))%Z. rewrite !bpow_plus. change (bpow radix2 1) with 2.
    apply Rmult_le_compat; try apply Rabs_pos; [apply Rmult_le_pos; apply Rabs_pos|exact Vb|]. apply Rmult_le_compat; try apply Rabs_pos; [exact Qb|]. apply Rabs_le. lra. }
  destruct (dmul_ok w (ddiv s t) 78 Vw V1 Fw F1 (exp_ok 78 eq_refl)) as (V2 & F2 & E2); [rewrite Ew, T; exact Mb|]. rewrite Ew, T in E2.
  assert (T2 : exists e, Rabs e <= u /\ real (dmul w (ddiv s t)) = IZR v * (q * (1 + e1)) * (1 + e)).
  { rewrite E2. destruct (Z.eq_dec v 0) as [->|Nv].
    - exists 0. rewrite Rabs_R0. split; [lra|]. rewrite !Rmult_0_l. apply rnd_0.
    - destruct Qc as [-> |Qc].
      + exists 0. rewrite Rabs_R0. split; [lra|]. unfold q, Rdiv. rewrite !Rmult_0_l, !Rmult_0_r, Rmult_0_l. apply rnd_0.
      + apply rnd_factor. rewrite !Rabs_mult. assert (1 <= Rabs (IZR v)) by (rewrite <- abs_IZR; apply IZR_le; clear - Nv; lia).
        assert (/ 2 <= Rabs (1 + e1)) by (rewrite Rabs_pos_eq; lra).
        apply Rle_trans with (1 * (bpow radix2 (-53) * / 2)).
        * rewrite Rmult_1_l. change (/ 2) with (bpow radix2 (-1)). rewrite <- bpow_plus. apply bpow_le. zle.
        * pose proof (bpow_ge_0 radix2 (-53)). apply Rmult_le_compat; try lra. apply Rmult_le_compat; lra. }
  destruct T2 as (e2 & B2 & T2). assert (B2' := B2). apply Rabs_le_inv in B2'.
  assert (Ab : Rabs (IZR a) <= bpow radix2 24). { rewrite <- abs_IZR. change (bpow radix2 24) with (IZR (2 ^ 24)). now apply IZR_le. }
  set (g := IZR v * q) in *. assert (G : IZR v * (q * (1 + e1)) * (1 + e2) = g * (1 + (e1 + e2 + e1 * e2))) by (unfold g; ring). rewrite G in T2.
  replace (IZR v * (q * (1 + e1))) with (g * (1 + e1)) in Mb by (unfold g; ring). clear E2 G.
  assert (E12 : Rabs (e1 + e2 + e1 * e2) <= 2 * u + u * u).
  { eapply Rle_trans; [apply Rabs_triang|]. apply Rplus_le_compat; [eapply Rle_trans; [apply Rabs_triang|lra]|]. rewrite Rabs_mult. apply Rmult_le_compat; try apply Rabs_pos; assumption. }
  set (e := e1 + e2 + e1 * e2) in *. clearbody e.
  assert (Gb : Rabs g <= bpow radix2 80).
  { rewrite Rabs_mult in Mb. rewrite (Rabs_pos_eq (1 + e1)) in Mb by lra. change 80%Z with (78 + 2)%Z. rewrite bpow_plus. change (bpow radix2 2) with 4. pose proof (Rabs_pos g). nra. }
  assert (E12' := E12). apply Rabs_le_inv in E12'. assert (UU : u * u <= u) by (rewrite <- (Rmult_1_r u) at 3; apply Rmult_le_compat_l; clear - U; lra).
  assert (E0 : / 2 <= 1 + e <= 2) by (clear - E12' UU U; lra). assert (E0' : 0 <= 1 + e) by (clear - E0; lra).
  destruct (dadd_ok x (dmul w (ddiv s t)) 83 Vx V2 Fx F2 (exp_ok 83 eq_refl)) as (V3 & F3 & E3).
  { rewrite Ex, T2. eapply Rle_trans; [apply Rabs_triang|]. rewrite Rabs_mult, (Rabs_pos_eq (1 + e)) by exact E0'.
    apply Rle_trans with (bpow radix2 80 + bpow radix2 80 * 2).
    - apply Rplus_le_compat; [eapply Rle_trans; [exact Ab|apply bpow_le; zle]|]. pose proof (Rabs_pos g) as Hg. clear - Hg Gb E0. apply Rmult_le_compat; lra.
    - clear. change 83%Z with (80 + 3)%Z. rewrite (bpow_plus radix2 80 3). change (bpow radix2 3) with 8. pose proof (bpow_ge_0 radix2 80). lra. }
  fold r in V3, F3, E3. split; [now split|]. rewrite Ex, T2 in E3. rewrite E3. unfold close. fold u.
  destruct (Z.eq_dec a 0) as [->|Na]; [destruct (Req_dec g 0) as [G0|G0]|].
  - rewrite G0, !Rmult_0_l, Rplus_0_l, rnd_0, Rminus_0_r, Rabs_R0. lra.
  - (* only the product *)
    rewrite Rabs_R0, !Rplus_0_l.
    assert (Gl : bpow radix2 (-53) <= Rabs g).
    { unfold g. destruct Qc as [-> |Qc]; [exfalso; apply G0; unfold g, q, Rdiv; ring|]. rewrite Rabs_mult.
      assert (v <> 0)%Z by (intros ->; apply G0; unfold g; ring). assert (1 <= Rabs (IZR v)) by (rewrite <- abs_IZR; apply IZR_le; clear - H; lia).
      pose proof (bpow_ge_0 radix2 (-53)). nra. }
    destruct (rnd_factor (g * (1 + e))) as (f & Bf & Ef).
    { rewrite Rabs_mult, (Rabs_pos_eq (1 + e)) by exact E0'. apply Rle_trans with (bpow radix2 (-53) * / 2).
      - change (/ 2) with (bpow radix2 (-1)). rewrite <- bpow_plus. apply bpow_le. zle.
      - pose proof (bpow_ge_0 radix2 (-53)) as Hb. clear - Hb Gl E0. apply Rmult_le_compat; lra. }
    rewrite Ef. replace (g * (1 + e) * (1 + f) - g) with (g * (e + f + e * f)) by ring. rewrite Rabs_mult, Rmult_comm. apply Rmult_le_compat_r; [apply Rabs_pos|].
    apply Rabs_le_inv in Bf. clear - Bf E12' UU U. apply Rabs_le. assert (- (2 * (u * u) + u * (u * u)) <= e * f <= 2 * (u * u) + u * (u * u)) by (split; nra). assert (u * (u * u) <= 1 * (u * u)) by (apply Rmult_le_compat_r; nra). assert (u * u <= u * / 1024) by (apply Rmult_le_compat_l; lra). lra.
  - assert (Al : 1 <= Rabs (IZR a)) by (rewrite <- abs_IZR; apply IZR_le; clear - Na; lia).
    pose proof (rnd_err (IZR a + g * (1 + e))) as RE.
    assert (Tiny : bpow radix2 (-1075) <= u * u * Rabs (IZR a)).
    { apply Rle_trans with (bpow radix2 (-106)); [apply bpow_le; zle|]. unfold u. rewrite <- bpow_plus. change (-53 + -53)%Z with (-106)%Z. pose proof (bpow_ge_0 radix2 (-106)). nra. }
    replace (rnd (IZR a + g * (1 + e)) - (IZR a + g)) with ((rnd (IZR a + g * (1 + e)) - (IZR a + g * (1 + e))) + g * e) by ring.
    eapply Rle_trans; [apply Rabs_triang|].
    assert (S : Rabs (IZR a + g * (1 + e)) <= Rabs (IZR a) + Rabs g * (1 + (2 * u + u * u))).
    { eapply Rle_trans; [apply Rabs_triang|]. apply Rplus_le_compat_l. rewrite Rabs_mult. apply Rmult_le_compat_l; [apply Rabs_pos|]. apply Rabs_le. lra. }
    rewrite (Rabs_mult g e). pose proof (Rabs_pos g) as Gp. set (x1 := Rabs (IZR a)) in *. set (x2 := Rabs g) in *.
    assert (H1 : u * Rabs (IZR a + g * (1 + e)) <= u * (x1 + x2 * (1 + (2 * u + u * u)))) by (apply Rmult_le_compat_l; lra).
    assert (H2 : x2 * Rabs e <= x2 * (2 * u + u * u)) by (apply Rmult_le_compat_l; lra).
    assert (K : u * (1 + (2 * u + u * u)) + (2 * u + u * u) <= 4 * u).
    { clear - U. assert (0 <= u * u) by (apply Rmult_le_pos; lra). assert (u * u <= u * / 1024) by (apply Rmult_le_compat_l; lra).
      assert (u * (u * u) <= 1 * (u * u)) by (apply Rmult_le_compat_r; lra). replace (u * (1 + (2 * u + u * u)) + (2 * u + u * u)) with (3 * u + 3 * (u * u) + u * (u * u)) by ring. lra. }
    assert (K1 : u + u * u <= 4 * u) by lra.
    assert (H3 : x2 * (u * (1 + (2 * u + u * u)) + (2 * u + u * u)) <= x2 * (4 * u)) by (apply Rmult_le_compat_l; lra).
    assert (H4 : x1 * (u + u * u) <= x1 * (4 * u)) by (apply Rmult_le_compat_l; lra).
    eapply Rle_trans; [apply Rplus_le_compat; [exact RE|exact H2]|]. eapply Rle_trans; [apply Rplus_le_compat_r, Rplus_le_compat; [exact H1|exact Tiny]|].
    replace (u * (x1 + x2 * (1 + (2 * u + u * u))) + u * u * x1 + x2 * (2 * u + u * u)) with (x1 * (u + u * u) + x2 * (u * (1 + (2 * u + u * u)) + (2 * u + u * u))) by ring. lra.
Qed.
Lemma intersection_whole l1 l2 b : whole_point b (origin l1) -> whole_point b (dir l1) -> whole_point b (origin l2) -> whole_point b (dir l2) -> (b <= 2 ^ 24)%Z ->
  ~ parallel (rpair (dir l1)) (rpair (dir l2)) ->
  let q := getIntersection ieee l1 l2 in
  number (fst q) /\ number (snd q) /\
  exists p, on_line (rpair (origin l1)) (rpair (dir l1)) p /\ on_line (rpair (origin l2)) (rpair (dir l2)) p /\
    close 4 (Rabs (real (fst (origin l1))) + Rabs (fst p - real (fst (origin l1)))) (real (fst q)) (fst p) /\
    close 4 (Rabs (real (snd (origin l1))) + Rabs (snd p - real (snd (origin l1)))) (real (snd q)) (snd p).
Proof.
  intros W1 W2 W3 W4 B NP q. destruct (whole_holds _ _ W1) as (zo1 & O1 & BO1). destruct (whole_holds _ _ W2) as (zd1 & D1 & BD1).
  destruct (whole_holds _ _ W3) as (zo2 & O2 & BO2). destruct (whole_holds _ _ W4) as (zd2 & D2 & BD2). assert (B0 : (0 <= b)%Z) by (destruct BO1; lia).
  destruct (sub2_holds zo1 zo2 _ _ b b O1 O2 BO1 BO2 ltac:(lia)) as [S BS].
  pose proof (cross_holds zd2 _ (dir l2) _ b (b + b) D2 S BD2 BS ltac:(nia)) as C1.
  pose proof (cross_holds zd1 zd2 (dir l1) (dir l2) b b D1 D2 BD1 BD2 ltac:(nia)) as C2.
  assert (CB1 : (Z.abs (zcross zd2 (zsub2 zo1 zo2)) <= 2 ^ 53)%Z).
  { unfold zcross. destruct BD2 as [X1 X2], BS as [Y1 Y2]. pose proof (prod_bound _ _ _ _ X1 Y2). pose proof (prod_bound _ _ _ _ X2 Y1). nia. }
  assert (CB2 : (Z.abs (zcross zd1 zd2) <= 2 ^ 53)%Z).
  { unfold zcross. destruct BD1 as [X1 X2], BD2 as [Y1 Y2]. pose proof (prod_bound _ _ _ _ X1 Y2). pose proof (prod_bound _ _ _ _ X2 Y1). nia. }
  pose proof (holds_real _ _ D1) as R1. pose proof (holds_real _ _ D2) as R2. pose proof (holds_real _ _ O1) as R3. pose proof (holds_real _ _ O2) as R4.
  assert (NZ : (zcross zd1 zd2 <> 0)%Z).
  { intros E. apply NP. rewrite R1, R2. unfold parallel, zr. cbn [fst snd]. rewrite <- !mult_IZR. f_equal. unfold zcross in E. lia. }
  set (t := IZR (zcross zd2 (zsub2 zo1 zo2)) / IZR (zcross zd1 zd2)).
  destruct O1 as [[No1 Eo1] [No2 Eo2]], D1 as [[Nd1 Ed1] [Nd2 Ed2]]. destruct BO1 as [bo1 bo2], BD1 as [bd1 bd2].
  destruct (inter_coord (fst zo1) (fst zd1) _ _ (fst (origin l1)) (fst (dir l1)) _ _ No1 Eo1 Nd1 Ed1 ltac:(lia) ltac:(lia) C1 C2 CB1 ltac:(lia)) as [NX CX].
  destruct (inter_coord (snd zo1) (snd zd1) _ _ (snd (origin l1)) (snd (dir l1)) _ _ No2 Eo2 Nd2 Ed2 ltac:(lia) ltac:(lia) C1 C2 CB1 ltac:(lia)) as [NY CY].
  split; [exact NX|]. split; [exact NY|]. exists (at_param (rpair (origin l1)) (rpair (dir l1)) t).
  assert (I : at_param (rpair (origin l1)) (rpair (dir l1)) t = getIntersection exactR (rline l1) (rline l2)).
  { unfold getIntersection, rline, padd, pscale, psub, at_param. cbn [origin dir nadd nmul ndiv nsub exactR fst snd]. rewrite !cross_exact. cbn [fst snd].
    unfold t. rewrite R1, R2, R3, R4. unfold zcross, zsub2, zr. cbn [fst snd]. rewrite !minus_IZR, !mult_IZR, !minus_IZR. f_equal; ring. }
  destruct (intersection_on (rline l1) (rline l2) NP) as [L1 L2]. rewrite <- I in L1, L2. split; [exact L1|]. split; [exact L2|].
  fold t in CX, CY. unfold at_param. cbn [fst snd]. unfold rpair at 1 2 3 4 5 6 7 8. cbn [fst snd]. unfold rpair. cbn [fst snd]. rewrite Eo1, Eo2, Ed1, Ed2.
  replace (IZR (fst zo1) + t * IZR (fst zd1) - IZR (fst zo1)) with (IZR (fst zd1) * t) by ring.
  replace (IZR (snd zo1) + t * IZR (snd zd1) - IZR (snd zo1)) with (IZR (snd zd1) * t) by ring. rewrite (Rmult_comm t), (Rmult_comm t). split; [exact CX|exact CY].
Qed.
Lemma parallel_whole l1 l2 b : whole_point b (dir l1) -> whole_point b (dir l2) -> (b <= 2 ^ 26)%Z -> parallel (rpair (dir l1)) (rpair (dir l2)) ->
  exists s, cross ieee (dir l1) (dir l2) = S754_zero s.
Proof.
  intros W1 W2 B P. destruct (whole_holds _ _ W1) as (z1 & H1 & B1). destruct (whole_holds _ _ W2) as (z2 & H2 & B2). assert (B0 : (0 <= b)%Z) by (destruct B1; lia).
  destruct (cross_holds z1 z2 _ _ b b H1 H2 B1 B2 ltac:(nia)) as [[V F] E].
  rewrite (holds_real _ _ H1), (holds_real _ _ H2) in P. unfold parallel, zr in P. cbn [fst snd] in P. rewrite <- !mult_IZR in P. apply eq_IZR in P.
  replace (zcross z1 z2) with 0%Z in E by (unfold zcross; lia).
  destruct (cross ieee (dir l1) (dir l2)) as [s|s| |s m e]; try discriminate; [now exists s|]. exfalso. unfold real in E. cbn [SF2R] in E.
  apply eq_0_F2R in E. destruct s; discriminate.
Qed.
Lemma eq_whole b p q : (b <= 2 ^ 52)%Z -> Forall (whole b) p -> Forall (whole b) q -> length p = length q -> point_eq ieee p q = true <-> map real p = map real q.
Proof.
  intros B HP. revert q. induction HP as [|x p (Nx & a & Ea & Ba) HP IH]; intros [|y q] HQ L; try discriminate; [now split|].
  inversion HQ as [|? ? (Ny & c & Ec & Bc) HQ']; subst. cbn [point_eq map]. cbn [nlt nabs nsub ieee]. injection L as L.
  destruct (sub_holds a c x y (conj Nx Ea) (conj Ny Ec) ltac:(lia)) as [Ns Es]. destruct (abs_number _ Ns) as [[Va Fa] Eab]. destruct eps_value as [[Ve Fe] Be].
  rewrite dltb_spec by assumption. rewrite Eab, Es. destruct (Rlt_bool_spec (real (neps ieee)) (Rabs (IZR (a - c)))) as [G|G].
  - split; [discriminate|]. intros E. injection E as E _. rewrite Ea, Ec in E. apply eq_IZR in E. subst. rewrite Z.sub_diag, Rabs_R0 in G. lra.
  - assert (a = c) as ->. { rewrite <- abs_IZR in G. assert (IZR (Z.abs (a - c)) < 1) as H by lra. apply lt_IZR in H. lia. }
    rewrite (IH q HQ' L), Ea, Ec. split; [intros ->; reflexivity|intros E; now injection E].
Qed.
