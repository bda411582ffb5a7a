From Coq Require Import Reals Lra Floats.SpecFloat.
From Flocq Require Import Core IEEE754.BinarySingleNaN.
From Verif Require Import Base Float FloatProofs DistNumSpec StatProofs DistAccProofs GeoModel GeoSpec GeoProofs GeoFloatSpec GeoWholeProofs.
Local Open Scope R_scope.

(** bitwise laws *)
Lemma dmul_comm x y : dmul x y = dmul y x.
Proof. destruct x as [[]|[]| |[] m e], y as [[]|[]| |[] m' e']; try reflexivity; unfold dmul; cbn [SFmul xorb]; now rewrite Pos.mul_comm, Z.add_comm. Qed.
Lemma dadd_comm x y : dadd x y = dadd y x.
Proof.
  destruct x as [[]|[]| |s m e], y as [[]|[]| |s' m' e']; try reflexivity. unfold dadd. cbn [SFadd].
  cbv zeta. rewrite (Z.min_comm e e'). now rewrite Z.add_comm.
Qed.
Lemma dot_comm p : forall q acc, dot_from ieee acc p q = dot_from ieee acc q p.
Proof. induction p as [|a p IH]; intros [|b q] acc; try reflexivity. cbn [dot_from]. rewrite IH. do 2 f_equal. apply dmul_comm. Qed.
Lemma zip_comm (f : double -> double -> double) (C : forall x y, f x y = f y x) p : forall q, zip f p q = zip f q p.
Proof. induction p as [|a p IH]; intros [|b q]; try reflexivity. cbn [zip]. now rewrite IH, C. Qed.
Lemma normalize_neg (m e : Z) : m <> 0%Z -> SpecFloat.binary_normalize 53 1024 (- m)%Z e false = dneg (SpecFloat.binary_normalize 53 1024 m e false).
Proof.
  intros N. destruct m as [|m|m]; [congruence| |]; cbn [Z.opp SpecFloat.binary_normalize]; unfold SpecFloat.binary_round; destruct (SpecFloat.shl_align _ _ _) as [mz ez];
    unfold SpecFloat.binary_round_aux; cbv zeta.
  - destruct (shr_fexp 53 1024 (Z.pos mz) ez loc_Exact) as [mrs' e']. destruct (shr_fexp 53 1024 _ e' loc_Exact) as [mrs'' e''].
    destruct (shr_m mrs''); try reflexivity. now destruct (_ <=? _)%Z.
  - destruct (shr_fexp 53 1024 (Z.pos mz) ez loc_Exact) as [mrs' e']. destruct (shr_fexp 53 1024 _ e' loc_Exact) as [mrs'' e''].
    destruct (shr_m mrs''); try reflexivity. now destruct (_ <=? _)%Z.
Qed.
Definition is_zero (x : double) : Prop := exists s, x = S754_zero s.
Lemma dsub_anti x y : dsub y x = dneg (dsub x y) \/ (is_zero (dsub x y) /\ is_zero (dsub y x)).
Proof.
  destruct x as [[]|[]| |s m e], y as [[]|[]| |s' m' e']; try (left; reflexivity); try (right; split; eexists; reflexivity).
  - left. unfold dsub. cbn. now rewrite Bool.negb_involutive.
  - left. unfold dsub. cbn. now rewrite Bool.negb_involutive.
  - unfold dsub. cbn [SFsub]. cbv zeta. rewrite (Z.min_comm e' e). set (k := Z.min e e').
    set (a := SpecFloat.cond_Zopp s _). set (b := SpecFloat.cond_Zopp s' _).
    destruct (Z.eq_dec (a - b) 0) as [Z0|Z0].
    + right. replace (b - a)%Z with 0%Z by lia. rewrite Z0. split; eexists; reflexivity.
    + left. replace (b - a)%Z with (- (a - b))%Z by ring. now apply normalize_neg.
Qed.
Lemma cross_anti v w : cross ieee w v = dneg (cross ieee v w) \/ (is_zero (cross ieee v w) /\ is_zero (cross ieee w v)).
Proof.
  unfold cross. cbn [nsub nmul ieee]. rewrite (dmul_comm (fst w)), (dmul_comm (snd w)). apply dsub_anti.
Qed.

(** the rounding error of a cross product *)
Lemma dsub_ok' x y k : number x -> number y -> (-1074 <= k < 1024)%Z -> Rabs (real x - real y) <= bpow radix2 k ->
  number (dsub x y) /\ real (dsub x y) = rnd (real x - real y).
Proof. intros [A B] [C D] K H. destruct (dsub_ok x y k A C B D K H) as (X & Y & Z). now repeat split. Qed.
Lemma dmul_ok' x y k : number x -> number y -> (-1074 <= k < 1024)%Z -> Rabs (real x * real y) <= bpow radix2 k ->
  number (dmul x y) /\ real (dmul x y) = rnd (real x * real y).
Proof. intros [A B] [C D] K H. destruct (dmul_ok x y k A C B D K H) as (X & Y & Z). now repeat split. Qed.
Lemma dadd_ok' x y k : number x -> number y -> (-1074 <= k < 1024)%Z -> Rabs (real x + real y) <= bpow radix2 k ->
  number (dadd x y) /\ real (dadd x y) = rnd (real x + real y).
Proof. intros [A B] [C D] K H. destruct (dadd_ok x y k A C B D K H) as (X & Y & Z). now repeat split. Qed.
Definition eta : R := bpow radix2 (-1075).
Lemma eta_small : 0 < eta <= u.
Proof. split; [apply bpow_gt_0|apply bpow_le; zle]. Qed.
Lemma uu_small : 0 <= u * u <= u / 1024.
Proof. pose proof u_small. split; [apply Rmult_le_pos; lra|]. unfold Rdiv. apply Rmult_le_compat_l; lra. Qed.
(** cross a b c d = a * d - b * c, all four factors given *)
Lemma cross_error v w : number (fst v) -> number (snd v) -> number (fst w) -> number (snd w) ->
  Rabs (real (fst v) * real (snd w)) <= bpow radix2 1020 -> Rabs (real (snd v) * real (fst w)) <= bpow radix2 1020 ->
  number (cross ieee v w) /\
  Rabs (real (cross ieee v w) - (real (fst v) * real (snd w) - real (snd v) * real (fst w))) <=
    3 * u * (Rabs (real (fst v) * real (snd w)) + Rabs (real (snd v) * real (fst w))) + 4 * eta.
Proof.
  destruct v as [a b], w as [c d]. cbn [fst snd]. intros Na Nb Nc Nd H1 H2. unfold cross. cbn [fst snd nsub nmul ieee].
  destruct (dmul_ok' a d 1020 Na Nd (exp_ok 1020 eq_refl) H1) as [N1 E1]. destruct (dmul_ok' b c 1020 Nb Nc (exp_ok 1020 eq_refl) H2) as [N2 E2].
  set (x := real a * real d) in *. set (y := real b * real c) in *.
  assert (B1 : Rabs (rnd x) <= bpow radix2 1020) by (apply rnd_bound; [zle|exact H1]).
  assert (B2 : Rabs (rnd y) <= bpow radix2 1020) by (apply rnd_bound; [zle|exact H2]).
  destruct (dsub_ok' _ _ 1021 N1 N2 (exp_ok 1021 eq_refl)) as [N3 E3].
  { rewrite E1, E2. unfold Rminus. eapply Rle_trans; [apply Rabs_triang|]. rewrite Rabs_Ropp. change 1021%Z with (1020 + 1)%Z. rewrite bpow_plus. change (bpow radix2 1) with 2. lra. }
  split; [exact N3|]. rewrite E3, E1, E2. clear - x y. clearbody x y.
  pose proof (rnd_err x) as R1. pose proof (rnd_err y) as R2. pose proof (rnd_err (rnd x - rnd y)) as R3. fold eta in R1, R2, R3.
  pose proof u_small as U. pose proof uu_small as UU. pose proof eta_small as EE.
  pose proof (Rabs_pos x) as P1. pose proof (Rabs_pos y) as P2.
  assert (S1 : Rabs (rnd x) <= Rabs x + (u * Rabs x + eta)). { replace (rnd x) with (x + (rnd x - x)) by ring. eapply Rle_trans; [apply Rabs_triang|]. lra. }
  assert (S2 : Rabs (rnd y) <= Rabs y + (u * Rabs y + eta)). { replace (rnd y) with (y + (rnd y - y)) by ring. eapply Rle_trans; [apply Rabs_triang|]. lra. }
  assert (S3 : Rabs (rnd x - rnd y) <= Rabs (rnd x) + Rabs (rnd y)). { unfold Rminus. eapply Rle_trans; [apply Rabs_triang|]. rewrite Rabs_Ropp. lra. }
  replace (rnd (rnd x - rnd y) - (x - y)) with ((rnd (rnd x - rnd y) - (rnd x - rnd y)) + ((rnd x - x) - (rnd y - y))) by ring.
  eapply Rle_trans; [apply Rabs_triang|].
  assert (S4 : Rabs ((rnd x - x) - (rnd y - y)) <= Rabs (rnd x - x) + Rabs (rnd y - y)). { unfold Rminus at 1. eapply Rle_trans; [apply Rabs_triang|]. rewrite Rabs_Ropp. lra. }
  set (X := Rabs x) in *. set (Y := Rabs y) in *.
  assert (S5 : u * Rabs (rnd x - rnd y) <= u * ((X + (u * X + eta)) + (Y + (u * Y + eta)))) by (apply Rmult_le_compat_l; lra).
  assert (S6 : u * u * (X + Y) <= u / 1024 * (X + Y)) by (apply Rmult_le_compat_r; lra).
  assert (S7 : u * eta <= / 1024 * eta) by (apply Rmult_le_compat_r; lra).
  assert (S8 : 0 <= u * (X + Y)) by (apply Rmult_le_pos; lra).
  replace (u * ((X + (u * X + eta)) + (Y + (u * Y + eta)))) with (u * (X + Y) + u * u * (X + Y) + 2 * (u * eta)) in S5 by ring.
  replace (u / 1024 * (X + Y)) with (/ 1024 * (u * (X + Y))) in S6 by (unfold Rdiv; ring).
  assert (S9 : u * X + u * Y = u * (X + Y)) by ring. replace (3 * u * (X + Y)) with (3 * (u * (X + Y))) by ring. lra.
Qed.

(** relative accuracy: products of factors close to 1 *)
Definition rel (k : nat) (x y : R) : Prop := exists e, x = y * e /\ (1 - u) ^ k <= e <= / (1 - u) ^ k.
Lemma base_pos k : 0 < (1 - u) ^ k <= 1.
Proof. pose proof u_small. split; [apply pow_lt; lra|]. apply Rle_trans with (1 ^ k); [apply pow_incr; lra|rewrite pow1; lra]. Qed.
Lemma base_inv k : 1 <= / (1 - u) ^ k.
Proof. destruct (base_pos k) as [A B]. apply Rle_trans with (/ 1); [lra|]. now apply Rinv_le. Qed.
Lemma rel_refl k x : rel k x x.
Proof. exists 1. pose proof (base_pos k). pose proof (base_inv k). split; [ring|lra]. Qed.
Lemma rel_le j k x y : (j <= k)%nat -> rel j x y -> rel k x y.
Proof.
  intros L (e & E & B). exists e. split; [exact E|]. replace k with (j + (k - j))%nat by lia. rewrite pow_add.
  destruct (base_pos j) as [A1 A2], (base_pos (k - j)) as [B1 B2]. rewrite Rinv_mult. pose proof (base_inv j). pose proof (base_inv (k - j)). split; nra.
Qed.
Lemma rel_trans j k x y z : rel j x y -> rel k y z -> rel (j + k) x z.
Proof.
  intros (e & E & B) (f & F & C). exists (f * e). split; [rewrite E, F; ring|]. rewrite pow_add, Rinv_mult.
  destruct (base_pos j) as [A1 A2], (base_pos k) as [B1 B2]. split; rewrite (Rmult_comm f); apply Rmult_le_compat; lra.
Qed.
Lemma rel_mult j k x y z w : rel j x y -> rel k z w -> rel (j + k) (x * z) (y * w).
Proof.
  intros (e & E & B) (f & F & C). exists (e * f). split; [rewrite E, F; ring|]. rewrite pow_add, Rinv_mult.
  destruct (base_pos j) as [A1 A2], (base_pos k) as [B1 B2]. split; apply Rmult_le_compat; lra.
Qed.
Lemma rel_inv k x y : y <> 0 -> rel k x y -> rel k (/ x) (/ y).
Proof.
  intros N (e & E & B). destruct (base_pos k) as [A1 A2]. exists (/ e). split; [rewrite E; field; split; [lra|exact N]|].
  split; [rewrite <- (Rinv_inv ((1 - u) ^ k))|]; apply Rinv_le; lra.
Qed.
Lemma rel_sqrt k x y : 0 <= y -> rel k x y -> rel k (sqrt x) (sqrt y).
Proof.
  intros P (e & E & B). destruct (base_pos k) as [A1 A2]. pose proof (base_inv k) as A3. exists (sqrt e). split; [rewrite E; now apply sqrt_mult; [|lra]|]. split.
  - apply Rle_trans with (sqrt ((1 - u) ^ k * (1 - u) ^ k)); [rewrite sqrt_square; lra|]. apply sqrt_le_1_alt. nra.
  - apply Rle_trans with (sqrt (/ (1 - u) ^ k * / (1 - u) ^ k)); [|rewrite sqrt_square; lra]. apply sqrt_le_1_alt. nra.
Qed.
Lemma rel_add k x y z w : 0 <= y -> 0 <= w -> rel k x y -> rel k z w -> rel k (x + z) (y + w).
Proof.
  intros P Q (e & E & B) (f & F & C). destruct (Req_dec (y + w) 0) as [Z|Z].
  - assert (y = 0) by lra. assert (w = 0) by lra. subst. exists 1. pose proof (base_pos k). pose proof (base_inv k). split; [ring|lra].
  - assert (0 < y + w) by lra. exists ((y * e + w * f) / (y + w)). split; [rewrite E, F; field; exact Z|].
    split; apply (Rmult_le_reg_r (y + w)); try lra; unfold Rdiv; rewrite Rmult_assoc, Rinv_l, Rmult_1_r by exact Z; nra.
Qed.
Lemma rel_rnd x : x = 0 \/ bpow radix2 (-1022) <= Rabs x -> rel 1 (rnd x) x.
Proof.
  intros [->|H]; [rewrite rnd_0; apply rel_refl|]. destruct (rnd_factor x H) as (e & B & E). exists (1 + e). split; [exact E|].
  apply Rabs_le_inv in B. pose proof u_small as U. rewrite pow_1. split; [lra|]. apply (Rmult_le_reg_r (1 - u)); [lra|]. rewrite Rinv_l by lra. nra.
Qed.
Lemma bernoulli k : 1 - INR k * u <= (1 - u) ^ k.
Proof.
  pose proof u_small as U. induction k as [|k IH]; [simpl; lra|]. rewrite S_INR. cbn [pow]. pose proof (pos_INR k). destruct (base_pos k) as [A B].
  apply Rle_trans with ((1 - u) * (1 - INR k * u)); [|apply Rmult_le_compat_l; lra]. assert (0 <= INR k * (u * u)) by (apply Rmult_le_pos; [lra|nra]). nra.
Qed.
Lemma rel_close k x y : INR k <= bpow radix2 26 -> rel k x y -> close (INR k + 1) (Rabs y) x y.
Proof.
  intros K (e & E & B). unfold close. fold u. rewrite E. replace (y * e - y) with (y * (e - 1)) by ring. rewrite Rabs_mult, Rmult_comm. apply Rmult_le_compat_r; [apply Rabs_pos|].
  pose proof u_small as U. pose proof (bernoulli k) as G. pose proof (pos_INR k) as P. destruct (base_pos k) as [A1 A2].
  assert (V : bpow radix2 26 * (bpow radix2 26 + 1) * u <= 1).
  { apply Rle_trans with (bpow radix2 26 * bpow radix2 27 * u).
    - apply Rmult_le_compat_r; [lra|]. apply Rmult_le_compat_l; [apply bpow_ge_0|]. change 27%Z with (26 + 1)%Z. rewrite bpow_plus. change (bpow radix2 1) with 2.
      assert (1 <= bpow radix2 26) by (change 1 with (bpow radix2 0); apply bpow_le; zle). lra.
    - unfold u. rewrite <- !bpow_plus. change 1 with (bpow radix2 0). apply bpow_le. zle. }
  assert (K2 : INR k * (INR k + 1) * u <= 1).
  { eapply Rle_trans; [|exact V]. apply Rmult_le_compat_r; [lra|]. apply Rmult_le_compat; lra. }
  assert (W : INR k * u <= / 2).
  { apply Rle_trans with (bpow radix2 26 * u); [apply Rmult_le_compat_r; lra|]. unfold u. rewrite <- bpow_plus. change (/ 2) with (bpow radix2 (-1)). apply bpow_le. zle. }
  apply Rabs_le. split; [lra|].
  apply Rle_trans with (/ (1 - INR k * u) - 1); [apply Rplus_le_compat_r; eapply Rle_trans; [apply B|]; apply Rinv_le; lra|].
  apply (Rmult_le_reg_r (1 - INR k * u)); [lra|]. rewrite Rmult_minus_distr_r, Rinv_l by lra.
  assert (INR k * (INR k + 1) * u * u <= 1 * u) by (apply Rmult_le_compat_r; lra). nra.
Qed.

(** the sum of squares and the length of a vector of moderate coordinates *)
Definition moderate_point (p : list double) : Prop := Forall (moderate 500) p.
Definition spot (m : nat) : R := INR m * bpow radix2 1000.
Lemma moderate_square a : moderate 500 a -> number (dmul a a) /\ real (dmul a a) = rnd (real a * real a) /\ 0 <= real a * real a <= bpow radix2 1000 /\
  (real a * real a = 0 \/ bpow radix2 (-1000) <= real a * real a).
Proof.
  intros [N M].
  assert (B : 0 <= real a * real a <= bpow radix2 1000 /\ (real a * real a = 0 \/ bpow radix2 (-1000) <= real a * real a)).
  { destruct M as [M|[L H]]; [rewrite M, Rmult_0_l; split; [split; [lra|apply bpow_ge_0]|now left]|].
    replace (real a * real a) with (Rabs (real a) * Rabs (real a)) by (rewrite <- Rabs_mult; apply Rabs_pos_eq, Rle_0_sqr).
    pose proof (Rabs_pos (real a)) as P. pose proof (bpow_ge_0 radix2 (- (500))) as Z.
    change 1000%Z with (500 + 500)%Z. change (-1000)%Z with (- (500) + - (500))%Z. rewrite !bpow_plus. repeat split; [now apply Rmult_le_pos|now apply Rmult_le_compat|right; now apply Rmult_le_compat]. }
  destruct B as [[P H] L]. destruct (dmul_ok' a a 1000 N N (exp_ok 1000 eq_refl)) as [N1 E1]; [rewrite Rabs_pos_eq; assumption|]. tauto.
Qed.
Lemma bpow_1021 : IZR (2 ^ 20) * bpow radix2 1000 <= bpow radix2 1020.
Proof. change (IZR (2 ^ 20)) with (bpow radix2 20). rewrite <- bpow_plus. apply bpow_le. zle. Qed.
Lemma dot_self p : moderate_point p -> forall m acc A, number acc -> 0 <= A -> rel (S m) (real acc) A -> (A = 0 \/ bpow radix2 (-1000) <= A) -> A <= spot m ->
  INR (m + length p) <= IZR (2 ^ 20) ->
  let r := dot_from ieee acc p p in let T := A + rdot (map real p) (map real p) in
  number r /\ rel (S (m + length p)) (real r) T /\ (T = 0 \/ bpow radix2 (-1000) <= T) /\ 0 <= T <= spot (m + length p).
Proof.
  induction 1 as [|a p Ha Hp IH]; intros m acc A Nacc PA RA LA UA C r T.
  - unfold r, T. cbn [dot_from map rdot length] in *. rewrite Rplus_0_r, Nat.add_0_r. repeat split; try apply Nacc; assumption.
  - destruct (moderate_square a Ha) as (N1 & E1 & [P1 H1] & L1). unfold r, T. cbn [dot_from map rdot nadd nmul ieee].
    replace (m + length (a :: p))%nat with (S m + length p)%nat in * by (cbn [length]; lia).
    assert (Cm : INR (S m) <= IZR (2 ^ 20)) by (eapply Rle_trans; [|exact C]; apply le_INR; lia).
    set (s := real a * real a) in *.
    assert (R1 : rel (S m) (real (dmul a a)) s).
    { rewrite E1. apply (rel_le 1); [lia|]. apply rel_rnd. destruct L1 as [->|L1]; [now left|right]. rewrite Rabs_pos_eq by exact P1. eapply Rle_trans; [|exact L1]. apply bpow_le. zle. }
    assert (RS : rel (S m) (real acc + real (dmul a a)) (A + s)) by now apply rel_add.
    assert (US : A + s <= spot (S m)) by (unfold spot in *; rewrite S_INR; lra).
    assert (LS : A + s = 0 \/ bpow radix2 (-1000) <= A + s) by (destruct LA as [->|LA]; [rewrite Rplus_0_l; exact L1|right; lra]).
    assert (K26 : INR (S m) <= bpow radix2 26) by (eapply Rle_trans; [exact Cm|]; change (IZR (2 ^ 20)) with (bpow radix2 20); apply bpow_le; zle).
    pose proof (rel_close _ _ _ K26 RS) as CL. unfold close in CL. fold u in CL. rewrite (Rabs_pos_eq (A + s)) in CL by lra.
    assert (KU : (INR (S m) + 1) * u <= / 2).
    { apply Rle_trans with (bpow radix2 27 * u); [|unfold u; rewrite <- bpow_plus; change (/ 2) with (bpow radix2 (-1)); apply bpow_le; zle].
      apply Rmult_le_compat_r; [pose proof u_small; lra|]. change 27%Z with (26 + 1)%Z. rewrite bpow_plus. change (bpow radix2 1) with 2. assert (1 <= bpow radix2 26) by (change 1 with (bpow radix2 0); apply bpow_le; zle). lra. }
    assert (HS : (INR (S m) + 1) * u * (A + s) <= / 2 * (A + s)) by (apply Rmult_le_compat_r; lra).
    apply Rabs_le_inv in CL.
    assert (BS : A + s <= bpow radix2 1020).
    { eapply Rle_trans; [exact US|]. eapply Rle_trans; [|exact bpow_1021]. unfold spot. apply Rmult_le_compat_r; [apply bpow_ge_0|exact Cm]. }
    destruct (dadd_ok' acc (dmul a a) 1021 Nacc N1 (exp_ok 1021 eq_refl)) as [N2 E2].
    { rewrite Rabs_pos_eq by lra. change 1021%Z with (1020 + 1)%Z. rewrite bpow_plus. change (bpow radix2 1) with 2. lra. }
    assert (R2 : rel (S (S m)) (real (dadd acc (dmul a a))) (A + s)).
    { rewrite E2. replace (S (S m)) with (1 + S m)%nat by lia. apply (rel_trans _ _ _ (real acc + real (dmul a a))); [|exact RS]. apply rel_rnd.
      destruct LS as [Z|LS]; [left; rewrite Z in *; lra|right]. rewrite Rabs_pos_eq by lra. apply Rle_trans with (bpow radix2 (-1000) * / 2); [|lra].
      change (/ 2) with (bpow radix2 (-1)). rewrite <- bpow_plus. apply bpow_le. zle. }
    destruct (IH (S m) _ (A + s) N2 ltac:(lra) R2 LS US C) as (X1 & X2 & X3 & X4). rewrite <- Rplus_assoc in *. tauto.
Qed.
Lemma rdot_pos p : 0 <= rdot p p.
Proof. induction p as [|a p IH]; cbn [rdot]; [lra|]. pose proof (Rle_0_sqr a). unfold Rsqr in *. lra. Qed.
Lemma len_rel p : moderate_point p -> INR (length p) <= IZR (2 ^ 20) ->
  number (len ieee p) /\ rel (length p + 2) (real (len ieee p)) (norm (map real p)) /\ (norm (map real p) = 0 \/ bpow radix2 (-500) <= norm (map real p)) /\ norm (map real p) <= bpow radix2 510.
Proof.
  intros M C. destruct (dot_self p M 0 dzero 0) as (N & R & L & B); try assumption.
  - split; reflexivity.
  - lra.
  - change (real dzero) with 0. apply rel_refl.
  - now left.
  - unfold spot. simpl INR. lra.
  - change (dot_from ieee dzero p p) with (dot ieee p p) in *. rewrite !Rplus_0_l in *. cbn [Nat.add] in *. set (T := rdot (map real p) (map real p)) in *.
    assert (P : 0 <= real (dot ieee p p)). { destruct R as (e & -> & Be). apply Rmult_le_pos; [lra|]. destruct (base_pos (S (length p))). lra. }
    destruct N as [V F]. destruct (dsqrt_spec _ V F P) as (V1 & F1 & E1). fold (norm (map real p)). unfold norm. fold T.
    assert (RS := rel_sqrt _ _ _ (proj1 B) R).
    assert (LT : sqrt T = 0 \/ bpow radix2 (-500) <= sqrt T).
    { destruct L as [->|L]; [left; apply sqrt_0|right]. rewrite <- (sqrt_square (bpow radix2 (-500))) by apply bpow_ge_0. apply sqrt_le_1_alt. rewrite <- bpow_plus. exact L. }
    assert (UT : sqrt T <= bpow radix2 510).
    { rewrite <- (sqrt_square (bpow radix2 510)) by apply bpow_ge_0. apply sqrt_le_1_alt. rewrite <- bpow_plus. eapply Rle_trans; [apply B|]. eapply Rle_trans; [|exact bpow_1021].
      unfold spot. apply Rmult_le_compat_r; [apply bpow_ge_0|exact C]. }
    split; [now split|]. split; [|now split]. change (len ieee p) with (dsqrt (dot ieee p p)). rewrite E1.
    replace (length p + 2)%nat with (1 + S (length p))%nat by lia. apply (rel_trans _ _ _ (sqrt (real (dot ieee p p)))); [|exact RS]. apply rel_rnd.
    destruct RS as (e & Ee & Be). destruct LT as [Z|LT]; [left; rewrite Ee, Z; ring|right].
    rewrite Rabs_pos_eq by apply sqrt_pos. rewrite Ee.
    assert (Be2 : / 2 <= e).
    { eapply Rle_trans; [|apply Be]. eapply Rle_trans; [|apply bernoulli]. assert (INR (S (length p)) * u <= / 2); [|lra].
      apply Rle_trans with (bpow radix2 21 * u); [|unfold u; rewrite <- bpow_plus; change (/ 2) with (bpow radix2 (-1)); apply bpow_le; zle].
      apply Rmult_le_compat_r; [pose proof u_small; lra|]. rewrite S_INR. change (bpow radix2 21) with (IZR (2 ^ 21)). change (IZR (2 ^ 20)) with 1048576 in C. change (IZR (2 ^ 21)) with 2097152. lra. }
    apply Rle_trans with (bpow radix2 (-500) * / 2); [change (/ 2) with (bpow radix2 (-1)); rewrite <- bpow_plus; apply bpow_le; zle|].
    pose proof (bpow_ge_0 radix2 (-500)). apply Rmult_le_compat; lra.
Qed.
Lemma rel_sqrt2 k x y : 0 <= y -> rel (k + k) x y -> rel k (sqrt x) (sqrt y).
Proof.
  intros P (e & E & B). destruct (base_pos k) as [A1 A2]. destruct (base_pos (k + k)) as [A3 A4]. pose proof (base_inv k) as A5. exists (sqrt e). split; [rewrite E; now apply sqrt_mult; [|lra]|].
  rewrite pow_add, Rinv_mult in B. split.
  - rewrite <- (sqrt_square ((1 - u) ^ k)) by lra. apply sqrt_le_1_alt. apply B.
  - rewrite <- (sqrt_square (/ (1 - u) ^ k)) by lra. apply sqrt_le_1_alt. apply B.
Qed.
Lemma norm_entry p a : In a p -> Rabs a <= norm p.
Proof.
  intros H. unfold norm. rewrite <- sqrt_Rsqr_abs. apply sqrt_le_1_alt. unfold Rsqr. induction p as [|b p IH]; [destruct H|]. cbn [rdot].
  pose proof (rdot_pos p). pose proof (Rle_0_sqr b) as Q. unfold Rsqr in Q. destruct H as [->|H]; [lra|]. specialize (IH H). lra.
Qed.
Lemma norm_zero p : norm p <> 0 <-> exists a, In a p /\ a <> 0.
Proof.
  split.
  - intros H. assert (G : 0 < rdot p p). { pose proof (rdot_pos p) as P. destruct (Req_dec (rdot p p) 0) as [Z|Z]; [|lra]. exfalso. apply H. unfold norm. rewrite Z. apply sqrt_0. }
    clear H. induction p as [|b p IH]; cbn [rdot] in G; [lra|]. destruct (Req_dec b 0) as [->|N]; [|exists b; split; [now left|exact N]].
    rewrite Rmult_0_l, Rplus_0_l in G. destruct (IH G) as (a & I & A). exists a. split; [now right|exact A].
  - intros (a & I & A) Z. pose proof (norm_entry p a I). apply Rabs_pos_lt in A. lra.
Qed.
Lemma normalize_rel p : moderate_point p -> INR (length p) <= IZR (2 ^ 20) -> norm (map real p) <> 0 ->
  forall q, (forall a, In a q -> In a p) -> Forall2 (fun r a => number r /\ rel (length p + 3) (real r) (real a / norm (map real p))) (point_quot ieee q (len ieee p)) q.
Proof.
  intros M C NZ. destruct (len_rel p M C) as ([V F] & R & L & B). set (n := norm (map real p)) in *. destruct L as [L|L]; [contradiction|].
  assert (Pn : 0 < n) by (pose proof (bpow_gt_0 radix2 (-500)); lra).
  assert (RI := rel_inv _ _ _ NZ R).
  assert (Nl : real (len ieee p) <> 0). { destruct R as (e & -> & Be). destruct (base_pos (length p + 2)). apply Rmult_integral_contrapositive_currified; lra. }
  assert (KU : (INR (length p + 2) + 1) * u <= / 2).
  { apply Rle_trans with (bpow radix2 21 * u); [|unfold u; rewrite <- bpow_plus; change (/ 2) with (bpow radix2 (-1)); apply bpow_le; zle].
    apply Rmult_le_compat_r; [pose proof u_small; lra|]. rewrite plus_INR. change (INR 2) with (1 + 1). change (IZR (2 ^ 20)) with 1048576 in C. change (bpow radix2 21) with 2097152. lra. }
  assert (K26 : INR (length p + 2) <= bpow radix2 26).
  { rewrite plus_INR. change (INR 2) with (1 + 1). change (IZR (2 ^ 20)) with 1048576 in C. change (bpow radix2 26) with 67108864. lra. }
  induction q as [|a q IH]; intros S; [constructor|]. cbn [point_quot map]. constructor; [|apply IH; intros b I; apply S; now right].
  assert (Ia : In a p) by (apply S; now left). pose proof (proj1 (Forall_forall _ _) M a Ia) as [[Va Fa] Ma].
  pose proof (norm_entry (map real p) (real a) (in_map real p a Ia)) as Ea. fold n in Ea.
  assert (RQ : rel (0 + (length p + 2)) (real a * / real (len ieee p)) (real a * / n)) by (apply rel_mult; [apply rel_refl|exact RI]). cbn [Nat.add] in RQ.
  pose proof (rel_close _ _ _ K26 RQ) as CL. unfold close in CL. fold u in CL. fold (real a / n) in *.
  assert (Q1 : Rabs (real a / n) <= 1).
  { unfold Rdiv. rewrite Rabs_mult, Rabs_inv, (Rabs_pos_eq n) by lra. apply (Rmult_le_reg_r n); [exact Pn|]. rewrite Rmult_assoc, Rinv_l by lra. lra. }
  assert (HS : (INR (length p + 2) + 1) * u * Rabs (real a / n) <= / 2 * Rabs (real a / n)) by (apply Rmult_le_compat_r; [apply Rabs_pos|exact KU]).
  assert (T1 : Rabs (real a / real (len ieee p)) <= Rabs (real a / n) + / 2 * Rabs (real a / n)).
  { unfold Rdiv at 1. replace (real a * / real (len ieee p)) with (real a / n + (real a * / real (len ieee p) - real a / n)) by ring. eapply Rle_trans; [apply Rabs_triang|]. lra. }
  assert (T2 : / 2 * Rabs (real a / n) <= Rabs (real a / real (len ieee p))).
  { replace (real a / n) with (real a / real (len ieee p) + - (real a * / real (len ieee p) - real a / n)) at 1 by (unfold Rdiv; ring).
    apply Rle_trans with (Rabs (real a / n) - / 2 * Rabs (real a / n)).
    - replace (real a / real (len ieee p) + - (real a * / real (len ieee p) - real a / n)) with (real a / n) by (unfold Rdiv; ring). lra.
    - pose proof (Rabs_triang_inv (real a / n) (real a / n - real a / real (len ieee p))) as TI. replace (real a / n - (real a / n - real a / real (len ieee p))) with (real a / real (len ieee p)) in TI by ring.
      rewrite <- (Rabs_Ropp (real a / n - real a / real (len ieee p))) in TI. replace (- (real a / n - real a / real (len ieee p))) with (real a * / real (len ieee p) - real a / n) in TI by (unfold Rdiv; ring). lra. }
  destruct (ddiv_ok a (len ieee p) 1 Va V Fa Nl (exp_ok 1 eq_refl)) as (V1 & F1 & E1); [change (bpow radix2 1) with 2; lra|].
  split; [now split|]. cbn [ndiv ieee]. rewrite E1. replace (length p + 3)%nat with (1 + (length p + 2))%nat by lia.
  apply (rel_trans _ _ _ (real a / real (len ieee p))); [|exact RQ]. apply rel_rnd.
  destruct Ma as [Z|[La Ha]]; [left; rewrite Z; unfold Rdiv; ring|right].
  eapply Rle_trans; [|exact T2]. unfold Rdiv. rewrite Rabs_mult, Rabs_inv, (Rabs_pos_eq n) by lra.
  assert (In_ : bpow radix2 (-510) <= / n) by (change (-510)%Z with (- (510))%Z; rewrite bpow_opp; apply Rinv_le; lra).
  apply Rle_trans with (/ 2 * (bpow radix2 (- (500)) * bpow radix2 (-510))).
  - change (/ 2) with (bpow radix2 (-1)). rewrite <- !bpow_plus. apply bpow_le. zle.
  - apply Rmult_le_compat_l; [lra|]. apply Rmult_le_compat; try apply bpow_ge_0; assumption.
Qed.
Lemma rel_norm k : forall q y, Forall2 (rel k) q y -> rel (k + k) (rdot q q) (rdot y y).
Proof.
  induction 1 as [|a b q y H HF IH]; [apply rel_refl|]. cbn [rdot]. apply rel_add; [apply Rle_0_sqr|apply rdot_pos|now apply rel_mult|exact IH].
Qed.
Lemma rdot_scaled c p : rdot (map (fun a => a / c) p) (map (fun a => a / c) p) = rdot p p / (c * c) \/ c = 0.
Proof. destruct (Req_dec c 0) as [|N]; [now right|left]. induction p as [|a p IH]; cbn [map rdot]; [field; exact N|]. rewrite IH. field. exact N. Qed.
Lemma unit_norm p : norm p <> 0 -> norm (map (fun a => a / norm p) p) = 1.
Proof.
  intros N. unfold norm at 1. destruct (rdot_scaled (norm p) p) as [-> |Z]; [|contradiction]. unfold norm at 1 2. rewrite sqrt_sqrt by apply rdot_pos.
  assert (R0 : rdot p p <> 0) by (intros Z; apply N; unfold norm; rewrite Z; apply sqrt_0). replace (rdot p p / rdot p p) with 1 by (field; exact R0). apply sqrt_1.
Qed.
Lemma normalize_norm p : moderate_point p -> INR (length p) <= IZR (2 ^ 20) -> norm (map real p) <> 0 ->
  rel (length p + 3) (norm (map real (normalize ieee p))) 1.
Proof.
  intros M C N. pose proof (normalize_rel p M C N p (fun a I => I)) as F. rewrite <- (unit_norm (map real p) N) at 1. unfold norm at 1 2. apply rel_sqrt2; [apply rdot_pos|]. apply rel_norm.
  rewrite map_map. unfold normalize. set (q := point_quot ieee p (len ieee p)) in *. clearbody q. set (n := norm (map real p)) in *. clearbody n. set (k := (length p + 3)%nat) in *. clearbody k. clear - F.
  induction F as [|x y q l [_ H] F IH]; [constructor|]. cbn [map]. constructor; assumption.
Qed.

(** dot products of integer vectors of any dimension *)
Lemma dot_whole b p q : (0 <= b)%Z -> Forall (whole b) p -> Forall (whole b) q -> length p = length q -> forall acc z, holds z acc -> (Z.abs z + Z.of_nat (length p) * (b * b) <= 2 ^ 53)%Z ->
  number (dot_from ieee acc p q) /\ real (dot_from ieee acc p q) = IZR z + rdot (map real p) (map real q).
Proof.
  intros B HP. revert q. induction HP as [|a p Ha HP IH]; intros q HQ L acc z Hz H.
  - destruct q; [|discriminate]. cbn [dot_from map rdot]. rewrite Rplus_0_r. exact Hz.
  - destruct HQ as [|c q Hc HQ]; [discriminate|]. cbn [dot_from map rdot nadd nmul ieee length] in *. injection L as L.
    destruct Ha as (Na & x & Ex & Bx), Hc as (Nc & y & Ey & By). pose proof (prod_bound x y b b Bx By) as PB.
    assert (0 <= Z.of_nat (length p) * (b * b))%Z by (apply Z.mul_nonneg_nonneg; [lia|apply Z.mul_nonneg_nonneg; exact B]).
    assert (Hm : holds (x * y) (dmul a c)) by (apply mul_holds; [now split|now split|lia]).
    assert (Hs : holds (z + x * y) (dadd acc (dmul a c))) by (apply add_holds; [exact Hz|exact Hm|lia]).
    destruct (IH q HQ L _ _ Hs ltac:(lia)) as [N E]. split; [exact N|]. rewrite E, plus_IZR, mult_IZR, Ex, Ey. ring.
Qed.

(** distance to a line, any coordinates of moderate size *)
Lemma sub_error x y : number x -> number y -> Rabs (real x - real y) <= bpow radix2 500 ->
  number (dsub x y) /\ Rabs (real (dsub x y) - (real x - real y)) <= u * Rabs (real x - real y) + eta.
Proof.
  intros Nx Ny H. destruct (dsub_ok' x y 500 Nx Ny (exp_ok 500 eq_refl) H) as [N E]. split; [exact N|]. rewrite E. apply rnd_err.
Qed.
Lemma cauchy a b c d : Rabs (a * d) + Rabs (b * c) <= sqrt (a * a + b * b) * sqrt (c * c + d * d).
Proof.
  assert (P1 : 0 <= a * a + b * b) by nra. assert (P2 : 0 <= c * c + d * d) by nra. rewrite <- sqrt_mult by assumption. rewrite !Rabs_mult.
  set (A := Rabs a). set (B := Rabs b). set (C := Rabs c). set (D := Rabs d).
  replace (a * a) with (A * A) by (unfold A; rewrite <- Rabs_mult; apply Rabs_pos_eq; nra). replace (b * b) with (B * B) by (unfold B; rewrite <- Rabs_mult; apply Rabs_pos_eq; nra).
  replace (c * c) with (C * C) by (unfold C; rewrite <- Rabs_mult; apply Rabs_pos_eq; nra). replace (d * d) with (D * D) by (unfold D; rewrite <- Rabs_mult; apply Rabs_pos_eq; nra).
  assert (0 <= A) by apply Rabs_pos. assert (0 <= B) by apply Rabs_pos. assert (0 <= C) by apply Rabs_pos. assert (0 <= D) by apply Rabs_pos. clearbody A B C D.
  rewrite <- (sqrt_square (A * D + B * C)) by (apply Rplus_le_le_0_compat; apply Rmult_le_pos; assumption). apply sqrt_le_1_alt.
  assert (0 <= (A * C - B * D) * (A * C - B * D)) by apply Rle_0_sqr. nra.
Qed.
Lemma component x y : Rabs x <= sqrt (x * x + y * y) /\ Rabs y <= sqrt (x * x + y * y).
Proof. split; rewrite <- sqrt_Rsqr_abs; apply sqrt_le_1_alt; unfold Rsqr; nra. Qed.
(** the real-number part of the argument: V = |v|, W = |w|, c = v x w, c' the computed cross
    product, L' the computed length, q = c' / L' *)
Lemma quotient_error V W c c' e : 0 <= W -> bpow radix2 (-500) <= V -> Rabs c <= V * W ->
  Rabs (c' - c) <= 5 * u * (V * W) + 9 * eta * V + 5 * eta -> Rabs e <= 5 * u ->
  Rabs (c' / (V * (1 + e)) - c / V) <= 12 * u * W + bpow radix2 (-520).
Proof.
  intros PW PV C D E. pose proof u_small as U. pose proof eta_small as EE. assert (P : 0 < V) by (pose proof (bpow_gt_0 radix2 (-500)); lra).
  assert (E' := E). apply Rabs_le_inv in E'.
  assert (Pe : 0 < 1 + e) by lra.
  assert (I : / (1 + e) <= 1 + 6 * u).
  { apply (Rmult_le_reg_r (1 + e)); [exact Pe|]. rewrite Rinv_l by lra. pose proof uu_small. nra. }
  assert (I0 : 0 < / (1 + e)) by now apply Rinv_0_lt_compat.
  replace (c' / (V * (1 + e)) - c / V) with ((c' - c) / V * / (1 + e) + - (c / V * e * / (1 + e))) by (field; split; lra).
  eapply Rle_trans; [apply Rabs_triang|]. rewrite Rabs_Ropp, !Rabs_mult, (Rabs_pos_eq (/ (1 + e))) by lra.
  unfold Rdiv. rewrite !Rabs_mult, Rabs_inv, (Rabs_pos_eq V) by lra.
  assert (IV : 0 < / V) by now apply Rinv_0_lt_compat.
  assert (IV2 : / V <= bpow radix2 500) by (change 500%Z with (- (-500))%Z; rewrite bpow_opp; apply Rinv_le; [apply bpow_gt_0|exact PV]).
  assert (C1 : Rabs c * / V <= W). { apply (Rmult_le_reg_r V); [exact P|]. rewrite Rmult_assoc, Rinv_l by lra. lra. }
  assert (D1 : Rabs (c' - c) * / V <= 5 * u * W + 9 * eta + 5 * (eta * bpow radix2 500)).
  { apply Rle_trans with ((5 * u * (V * W) + 9 * eta * V + 5 * eta) * / V); [apply Rmult_le_compat_r; lra|].
    replace ((5 * u * (V * W) + 9 * eta * V + 5 * eta) * / V) with (5 * u * W + 9 * eta + 5 * (eta * / V)) by (field; lra).
    assert (eta * / V <= eta * bpow radix2 500) by (apply Rmult_le_compat_l; lra). lra. }
  assert (T : eta * bpow radix2 500 = bpow radix2 (-575)) by (unfold eta; rewrite <- bpow_plus; reflexivity). rewrite T in D1.
  assert (T2 : eta <= bpow radix2 (-575)) by (apply bpow_le; zle).
  assert (T3 : 28 * bpow radix2 (-575) <= bpow radix2 (-520)).
  { change (-520)%Z with (-575 + 55)%Z. rewrite (bpow_plus radix2 (-575) 55). assert (28 <= bpow radix2 55) by (apply Rle_trans with (bpow radix2 5); [change (bpow radix2 5) with 32; lra|apply bpow_le; zle]). pose proof (bpow_ge_0 radix2 (-575)). nra. }
  assert (Z : 0 <= Rabs (c' - c) * / V) by (apply Rmult_le_pos; [apply Rabs_pos|lra]).
  assert (Z2 : 0 <= Rabs c * / V) by (apply Rmult_le_pos; [apply Rabs_pos|lra]).
  assert (X1 : Rabs (c' - c) * / V * / (1 + e) <= (5 * u * W + 14 * bpow radix2 (-575)) * (1 + 6 * u)) by (apply Rmult_le_compat; lra).
  assert (X2 : Rabs c * / V * Rabs e * / (1 + e) <= W * (5 * u) * (1 + 6 * u)).
  { apply Rmult_le_compat; try lra; [apply Rmult_le_pos; [exact Z2|apply Rabs_pos]|]. apply Rmult_le_compat; try lra. apply Rabs_pos. }
  assert (UW : 0 <= u * W) by (apply Rmult_le_pos; lra).
  assert (X3 : (5 * u * W + 14 * bpow radix2 (-575)) * (1 + 6 * u) <= 6 * (u * W) + 28 * bpow radix2 (-575)).
  { pose proof (bpow_ge_0 radix2 (-575)) as Bz. set (t := bpow radix2 (-575)) in *. clearbody t. clear - UW Bz U. set (y := u * W) in *.
    replace ((5 * u * W + 14 * t) * (1 + 6 * u)) with (5 * y + 14 * t + 30 * (u * y) + 84 * (u * t)) by (unfold y; ring). assert (u * y <= / 1024 * y) by (apply Rmult_le_compat_r; lra). assert (u * t <= / 1024 * t) by (apply Rmult_le_compat_r; lra). lra. }
  assert (X4 : W * (5 * u) * (1 + 6 * u) <= 6 * (u * W)).
  { clear - UW U. set (y := u * W) in *. replace (W * (5 * u) * (1 + 6 * u)) with (5 * y + 30 * (u * y)) by (unfold y; ring). assert (u * y <= / 1024 * y) by (apply Rmult_le_compat_r; lra). lra. }
  replace (12 * u * W) with (6 * (u * W) + 6 * (u * W)) by ring. lra.
Qed.
Lemma line_general p l : number (fst p) -> number (snd p) -> number (fst (origin l)) -> number (snd (origin l)) ->
  moderate 500 (fst (dir l)) -> moderate 500 (snd (dir l)) -> rpair (dir l) <> (0, 0) ->
  distance (rpair p) (rpair (origin l)) <= bpow radix2 500 ->
  number (disToLine ieee p l) /\
  Rabs (real (disToLine ieee p l) - disToLine exactR (rpair p) (rline l)) <= bpow radix2 (-49) * distance (rpair p) (rpair (origin l)) + bpow radix2 (-500).
Proof.
  destruct p as [px py], l as [[ox oy] [a b]]. cbn [fst snd origin dir]. intros Nx Ny Nox Noy Ma Mb NZ DW.
  set (wx := real px - real ox). set (wy := real py - real oy).
  assert (EW : distance (rpair (px, py)) (rpair (ox, oy)) = sqrt (wx * wx + wy * wy)) by reflexivity. rewrite EW in *. set (W := sqrt (wx * wx + wy * wy)) in *.
  destruct (component wx wy) as [Wx Wy]. fold W in Wx, Wy. assert (PW : 0 <= W) by apply sqrt_pos.
  destruct (sub_error px ox Nx Nox ltac:(fold wx; lra)) as [Nvx Dx]. destruct (sub_error py oy Ny Noy ltac:(fold wy; lra)) as [Nvy Dy]. fold wx in Dx. fold wy in Dy.
  set (sx := dsub px ox) in *. set (sy := dsub py oy) in *.
  (* the length *)
  destruct (len_rel [a; b]) as (NL & RL & LL & UL); [constructor; [assumption|constructor; [assumption|constructor]]|simpl INR; change (IZR (2 ^ 20)) with 1048576; lra|].
  set (V := norm (map real [a; b])) in *. assert (EV : V = sqrt (real a * real a + real b * real b)) by (unfold V, norm; cbn [map rdot]; f_equal; ring).
  assert (PV : bpow radix2 (-500) <= V).
  { destruct LL as [Z|LL]; [exfalso|exact LL]. destruct (component (real a) (real b)) as [Ka Kb]. rewrite <- EV, Z in Ka, Kb. apply NZ. unfold rpair. cbn [fst snd].
    f_equal; apply Rle_antisym; apply Rabs_le_inv in Ka, Kb; lra. }
  assert (PV0 : 0 < V) by (pose proof (bpow_gt_0 radix2 (-500)); lra).
  assert (K4 : INR (length [a; b] + 2) = 4) by (simpl; ring). assert (K26 : INR (length [a; b] + 2) <= bpow radix2 26) by (rewrite K4; change (bpow radix2 26) with 67108864; lra).
  pose proof (rel_close _ _ _ K26 RL) as CL. unfold close in CL. fold u in CL. rewrite K4 in CL.
  set (Lc := len ieee [a; b]) in *. set (e := real Lc / V - 1). assert (EL : real Lc = V * (1 + e)) by (unfold e; field; lra).
  assert (Be : Rabs e <= 5 * u).
  { rewrite EL in CL. replace (V * (1 + e) - V) with (V * e) in CL by ring. rewrite Rabs_mult, (Rabs_pos_eq V) in CL by lra. apply (Rmult_le_reg_l V); [exact PV0|]. lra. }
  pose proof u_small as U. pose proof uu_small as UU. pose proof eta_small as EE. assert (Be' := Be). apply Rabs_le_inv in Be'.
  (* the cross product *)
  destruct Ma as [Na Ma], Mb as [Nb Mb].
  assert (Ha : Rabs (real a) <= bpow radix2 500) by (destruct Ma as [->|Ma]; [rewrite Rabs_R0; apply bpow_ge_0|apply Ma]).
  assert (Hb : Rabs (real b) <= bpow radix2 500) by (destruct Mb as [->|Mb]; [rewrite Rabs_R0; apply bpow_ge_0|apply Mb]).
  assert (G : forall s w, Rabs (s - w) <= u * Rabs w + eta -> Rabs s <= Rabs w + (u * Rabs w + eta)).
  { intros s w D. replace s with (w + (s - w)) by ring. eapply Rle_trans; [apply Rabs_triang|]. lra. }
  assert (Gx := G _ _ Dx). assert (Gy := G _ _ Dy).
  assert (B1 : 1 <= bpow radix2 500) by (change 1 with (bpow radix2 0); apply bpow_le; zle).
  assert (Bx : Rabs (real sx) <= bpow radix2 502).
  { change 502%Z with (500 + 2)%Z. rewrite (bpow_plus radix2 500 2). change (bpow radix2 2) with 4. assert (u * Rabs wx <= 1 * Rabs wx) by (apply Rmult_le_compat_r; [apply Rabs_pos|lra]). lra. }
  assert (By : Rabs (real sy) <= bpow radix2 502).
  { change 502%Z with (500 + 2)%Z. rewrite (bpow_plus radix2 500 2). change (bpow radix2 2) with 4. assert (u * Rabs wy <= 1 * Rabs wy) by (apply Rmult_le_compat_r; [apply Rabs_pos|lra]). lra. }
  assert (MB : forall x y, Rabs x <= bpow radix2 500 -> Rabs y <= bpow radix2 502 -> Rabs (x * y) <= bpow radix2 1020).
  { intros x y X Y. rewrite Rabs_mult. apply Rle_trans with (bpow radix2 500 * bpow radix2 502); [apply Rmult_le_compat; try apply Rabs_pos; assumption|]. rewrite <- bpow_plus. apply bpow_le. zle. }
  destruct (cross_error (a, b) (sx, sy) Na Nb Nvx Nvy (MB _ _ Ha By) (MB _ _ Hb Bx)) as [NC EC]. cbn [fst snd] in EC.
  set (c' := real (cross ieee (a, b) (sx, sy))) in *. set (c := real a * wy - real b * wx).
  set (S := Rabs (real a * wy) + Rabs (real b * wx)).
  assert (CS : S <= V * W) by (unfold S; rewrite EV; apply cauchy).
  assert (Cc : Rabs c <= V * W). { eapply Rle_trans; [|exact CS]. unfold c, S, Rminus. eapply Rle_trans; [apply Rabs_triang|]. rewrite Rabs_Ropp. lra. }
  assert (AV : Rabs (real a) <= V) by (rewrite EV; apply component). assert (BV : Rabs (real b) <= V) by (rewrite EV; apply component).
  assert (P1 : Rabs (real a * real sy - real a * wy) <= u * Rabs (real a * wy) + V * eta).
  { rewrite <- Rmult_minus_distr_l, !Rabs_mult. apply Rle_trans with (Rabs (real a) * (u * Rabs wy + eta)); [apply Rmult_le_compat_l; [apply Rabs_pos|exact Dy]|].
    rewrite Rmult_plus_distr_l. apply Rplus_le_compat; [right; ring|apply Rmult_le_compat_r; lra]. }
  assert (P2 : Rabs (real b * real sx - real b * wx) <= u * Rabs (real b * wx) + V * eta).
  { rewrite <- Rmult_minus_distr_l, !Rabs_mult. apply Rle_trans with (Rabs (real b) * (u * Rabs wx + eta)); [apply Rmult_le_compat_l; [apply Rabs_pos|exact Dx]|].
    rewrite Rmult_plus_distr_l. apply Rplus_le_compat; [right; ring|apply Rmult_le_compat_r; lra]. }
  assert (Q1 : Rabs (real a * real sy) <= Rabs (real a * wy) + (u * Rabs (real a * wy) + V * eta)).
  { replace (real a * real sy) with (real a * wy + (real a * real sy - real a * wy)) by ring. eapply Rle_trans; [apply Rabs_triang|]. lra. }
  assert (Q2 : Rabs (real b * real sx) <= Rabs (real b * wx) + (u * Rabs (real b * wx) + V * eta)).
  { replace (real b * real sx) with (real b * wx + (real b * real sx - real b * wx)) by ring. eapply Rle_trans; [apply Rabs_triang|]. lra. }
  assert (PS : 0 <= S) by (unfold S; apply Rplus_le_le_0_compat; apply Rabs_pos).
  assert (DC : Rabs (c' - c) <= 5 * u * (V * W) + 9 * eta * V + 5 * eta).
  { replace (c' - c) with ((c' - (real a * real sy - real b * real sx)) + ((real a * real sy - real a * wy) + - (real b * real sx - real b * wx))) by (unfold c; ring).
    eapply Rle_trans; [apply Rabs_triang|]. eapply Rle_trans; [apply Rplus_le_compat; [exact EC|eapply Rle_trans; [apply Rabs_triang|rewrite Rabs_Ropp; apply Rplus_le_compat; [exact P1|exact P2]]]|].
    assert (T1 : 3 * u * (Rabs (real a * real sy) + Rabs (real b * real sx)) <= 3 * u * (S + u * S + 2 * (V * eta))) by (apply Rmult_le_compat_l; unfold S; lra).
    replace (u * Rabs (real a * wy) + V * eta + (u * Rabs (real b * wx) + V * eta)) with (u * S + 2 * (V * eta)) by (unfold S; ring).
    assert (T2 : u * S <= u * (V * W)) by (apply Rmult_le_compat_l; lra). assert (T3 : u * u * S <= u / 1024 * S) by (apply Rmult_le_compat_r; lra).
    assert (T4 : 0 <= V * eta) by (apply Rmult_le_pos; lra). assert (T5 : u * (V * eta) <= / 1024 * (V * eta)) by (apply Rmult_le_compat_r; lra).
    replace (3 * u * (S + u * S + 2 * (V * eta))) with (3 * (u * S) + 3 * (u * u * S) + 6 * (u * (V * eta))) in T1 by ring.
    replace (u / 1024 * S) with (/ 1024 * (u * S)) in T3 by (unfold Rdiv; ring). replace (9 * eta * V) with (9 * (V * eta)) by ring. replace (5 * u * (V * W)) with (5 * (u * (V * W))) by ring.
    assert (T6 : 0 <= u * S) by (apply Rmult_le_pos; lra).
    clear - T1 T2 T3 T4 T5 T6 EE. lra. }
  pose proof (quotient_error V W c c' e PW PV Cc DC Be) as QE. rewrite <- EL in QE.
  (* the division *)
  assert (NZL : real Lc <> 0) by (rewrite EL; apply Rgt_not_eq, Rmult_lt_0_compat; lra).
  assert (CV : Rabs (c / V) <= W).
  { unfold Rdiv. rewrite Rabs_mult, Rabs_inv, (Rabs_pos_eq V) by lra. apply (Rmult_le_reg_r V); [exact PV0|]. rewrite Rmult_assoc, Rinv_l by lra. lra. }
  assert (Small : bpow radix2 (-520) <= bpow radix2 (-501) / 4). { replace (bpow radix2 (-501) / 4) with (bpow radix2 (-503)); [apply bpow_le; zle|]. change (-501)%Z with (-503 + 2)%Z. rewrite (bpow_plus radix2 (-503) 2). change (bpow radix2 2) with 4. field. }
  assert (Small2 : bpow radix2 (-501) <= 1) by (change 1 with (bpow radix2 0); apply bpow_le; zle).
  assert (UW : 0 <= u * W) by (apply Rmult_le_pos; lra). assert (UW1 : u * W <= / 1024 * W) by (apply Rmult_le_compat_r; lra).
  assert (QB : Rabs (c' / real Lc) <= W + (12 * u * W + bpow radix2 (-520))).
  { replace (c' / real Lc) with (c / V + (c' / real Lc - c / V)) by ring. eapply Rle_trans; [apply Rabs_triang|]. lra. }
  destruct NC as [VC FC]. destruct NL as [VL FL].
  destruct (ddiv_ok (cross ieee (a, b) (sx, sy)) Lc 502 VC VL FC NZL (exp_ok 502 eq_refl)) as (V1 & F1 & E1).
  { fold c'. eapply Rle_trans; [exact QB|]. change 502%Z with (500 + 2)%Z. rewrite (bpow_plus radix2 500 2). change (bpow radix2 2) with 4. lra. }
  fold c' in E1. destruct (abs_number _ (conj V1 F1)) as [N2 E2].
  change (disToLine ieee (px, py) (Line (ox, oy) (a, b))) with (dabs (ddiv (cross ieee (a, b) (sx, sy)) Lc)). split; [exact N2|]. rewrite E2, E1.
  assert (EX : disToLine exactR (rpair (px, py)) (rline (Line (ox, oy) (a, b))) = Rabs (c / V)).
  { rewrite EV. unfold disToLine, rline. cbn [dir origin]. cbv zeta. cbn [nabs ndiv exactR]. rewrite len_exact, cross_exact. reflexivity. }
  rewrite EX. eapply Rle_trans; [apply Rabs_triang_inv2|].
  replace (rnd (c' / real Lc) - c / V) with ((rnd (c' / real Lc) - c' / real Lc) + (c' / real Lc - c / V)) by ring. eapply Rle_trans; [apply Rabs_triang|].
  pose proof (rnd_err (c' / real Lc)) as RE. fold eta in RE.
  assert (UQ : u * Rabs (c' / real Lc) <= u * (W + (12 * u * W + bpow radix2 (-520)))) by (apply Rmult_le_compat_l; lra).
  assert (Et : eta <= bpow radix2 (-520)) by (apply bpow_le; zle).
  assert (B49 : bpow radix2 (-49) = 16 * u). { unfold u. change (-49)%Z with (4 + -53)%Z. rewrite bpow_plus. change (bpow radix2 4) with 16. reflexivity. }
  rewrite B49. assert (B500 : bpow radix2 (-501) <= bpow radix2 (-500)) by (apply bpow_le; zle).
  pose proof (bpow_ge_0 radix2 (-520)) as Z520. set (t := bpow radix2 (-520)) in *.
  replace (u * (W + (12 * u * W + t))) with (u * W + 12 * (u * (u * W)) + u * t) in UQ by ring.
  assert (u * (u * W) <= / 1024 * (u * W)) by (apply Rmult_le_compat_r; lra). assert (u * t <= / 1024 * t) by (apply Rmult_le_compat_r; lra).
  replace (12 * u * W) with (12 * (u * W)) in QE by ring. replace (16 * u * W) with (16 * (u * W)) by ring. lra.
Qed.
