(** NegativeBinomialDistribution in binary64. *)
From Coq Require Import Reals Lra Psatz Floats.SpecFloat.
From Flocq Require Import Core.
From Verif Require Import Base Float FloatProofs StatProofs NumModel RandModel RandSpec RandDoubleProofs DistNumSpec DistAccProofs DiscSpec DiscProofs DiscLoopProofs.
Local Open Scope R_scope.

(** the mass function *)
Lemma negbin_step r p k : negbin_mass (S r) p (S k) = negbin_mass (S r) p k * ((1 - p) * INR (S r + k) / INR (S k)).
Proof.
  unfold negbin_mass, choose. replace (S k + S r - 1)%nat with (S (k + r)) by lia. replace (k + S r - 1)%nat with (k + r)%nat by lia.
  replace (S (k + r) - S k)%nat with r by lia. replace (k + r - k)%nat with r by lia. replace (S r + k)%nat with (S (k + r)) by lia.
  change (fact (S (k + r))) with (S (k + r) * fact (k + r))%nat. change (fact (S k)) with (S k * fact k)%nat. rewrite !mult_INR. cbn [Rpow_def.pow].
  pose proof (INR_fact_neq_0 k). pose proof (INR_fact_neq_0 r). assert (INR (S k) <> 0) by (apply not_0_INR; lia).
  set (a := INR (S (k + r))). field. repeat split; assumption.
Qed.
Lemma negbin_zero r p : negbin_mass (S r) p 0 = p ^ S r.
Proof.
  unfold negbin_mass, choose. replace (0 + S r - 1)%nat with r by lia. rewrite Nat.sub_0_r. cbn [fact Rpow_def.pow]. change (INR 1) with 1.
  pose proof (INR_fact_neq_0 r). field. assumption.
Qed.
Lemma negbin_pascal r p k : negbin_mass (S (S r)) p (S k) = p * negbin_mass (S r) p (S k) + (1 - p) * negbin_mass (S (S r)) p k.
Proof.
  unfold negbin_mass. replace (S k + S (S r) - 1)%nat with (S (k + S r)) by lia. replace (S k + S r - 1)%nat with (k + S r)%nat by lia.
  replace (k + S (S r) - 1)%nat with (k + S r)%nat by lia.
  change (choose (S (k + S r)) (S k)) with (C (S (k + S r)) (S k)). rewrite <- pascal by lia.
  change (C (k + S r) k) with (choose (k + S r) k). change (C (k + S r) (S k)) with (choose (k + S r) (S k)). cbn [Rpow_def.pow]. ring.
Qed.
Lemma negbin_sum_rec r p K : upto (negbin_mass (S (S r)) p) (S K) = p * upto (negbin_mass (S r) p) (S K) + (1 - p) * upto (negbin_mass (S (S r)) p) K.
Proof.
  unfold upto. induction K as [|K IH].
  - cbn [sum_f_R0]. rewrite negbin_pascal, !negbin_zero. cbn [Rpow_def.pow]. ring.
  - change (sum_f_R0 (negbin_mass (S (S r)) p) (S (S K))) with (sum_f_R0 (negbin_mass (S (S r)) p) (S K) + negbin_mass (S (S r)) p (S (S K))). rewrite IH at 1. rewrite negbin_pascal.
    cbn [sum_f_R0]. ring.
Qed.
Lemma geometric_sum p K : upto (negbin_mass 1 p) K = 1 - (1 - p) ^ S K.
Proof.
  unfold upto. induction K as [|K IH]; [cbn [sum_f_R0]; rewrite negbin_zero; cbn [Rpow_def.pow]; ring|].
  cbn [sum_f_R0]. rewrite IH. assert (E : negbin_mass 1 p (S K) = p * (1 - p) ^ S K).
  { unfold negbin_mass, choose. replace (S K + 1 - 1)%nat with (S K) by lia. replace (S K - S K)%nat with 0%nat by lia. cbn [fact]. change (INR 1) with 1. 
    pose proof (INR_fact_neq_0 (S K)). cbn [fact] in H. cbn [Rpow_def.pow]. field. exact H. }
  rewrite E. cbn [Rpow_def.pow]. ring.
Qed.
Lemma negbin_sum p : 0 <= p <= 1 -> forall r K, upto (negbin_mass (S r) p) K <= 1.
Proof.
  intros P. induction r as [|r IH]; intros K.
  - rewrite geometric_sum. pose proof (pow_le (1 - p) (S K) ltac:(lra)). lra.
  - induction K as [|K IK].
    + unfold upto. cbn [sum_f_R0]. rewrite negbin_zero. apply pow_incr with (n := S (S r)) in P. rewrite pow1 in P. lra.
    + rewrite negbin_sum_rec. specialize (IH (S K)). nra.
Qed.

(** the power *)
Section Power.
Context (p : double) (r : nat) (NP : number p) (P01 : 0 < real p <= 1) (LOW : bpow radix2 (-950) <= real p ^ r) (RB : INR r <= 1048576).
Definition approx (a : nat) (x : double) : Prop := (1 <= a <= r)%nat /\ number x /\ Rabs (real x - real p ^ a) <= 2 * (INR a - 1) * u * real p ^ a.
Lemma pow_low a : (a <= r)%nat -> bpow radix2 (-950) <= real p ^ a <= 1.
Proof.
  intros A. split.
  - eapply Rle_trans; [exact LOW|]. replace r with (a + (r - a))%nat by lia. rewrite pow_add. pose proof (pow_lt (real p) a ltac:(lra)).
    assert (real p ^ (r - a) <= 1) by (rewrite <- (pow1 (r - a)); apply pow_incr; lra). nra.
  - rewrite <- (pow1 a). apply pow_incr. lra.
Qed.
Lemma approx_mul a b x y : approx a x -> approx b y -> (a + b <= r)%nat -> approx (a + b) (dmul x y).
Proof.
  intros (A & [VX FX] & X) (B & [VY FY] & Y) L. split; [lia|]. destruct u_num as [U0 U1].
  pose proof (pow_low a ltac:(lia)) as PA. pose proof (pow_low b ltac:(lia)) as PB. pose proof (pow_low (a + b) L) as PAB. rewrite pow_add in *.
  assert (IA : INR a <= 1048576) by (assert (INR a <= INR r) by (apply le_INR; lia); lra).
  assert (IB : INR b <= 1048576) by (assert (INR b <= INR r) by (apply le_INR; lia); lra).
  assert (IA1 : 1 <= INR a) by (change 1 with (INR 1); apply le_INR; lia). assert (IB1 : 1 <= INR b) by (change 1 with (INR 1); apply le_INR; lia).
  rewrite plus_INR. set (s := real p ^ a) in *. set (t := real p ^ b) in *. pose proof (bpow_gt_0 radix2 (-950)) as P95.
  set (ea := 2 * (INR a - 1) * u) in *. set (eb := 2 * (INR b - 1) * u) in *.
  assert (EA : 0 <= ea <= / 1048576). { unfold ea. split; [apply Rmult_le_pos; lra|]. apply Rle_trans with (2097152 * u); [apply Rmult_le_compat_r; lra|lra]. }
  assert (EB : 0 <= eb <= / 1048576). { unfold eb. split; [apply Rmult_le_pos; lra|]. apply Rle_trans with (2097152 * u); [apply Rmult_le_compat_r; lra|lra]. }
  set (xr := real x) in *. set (yr := real y) in *. set (w := s * t) in *.
  assert (D : Rabs (xr * yr - w) <= (ea + eb + ea * eb) * w).
  { replace (xr * yr - w) with ((xr - s) * t + s * (yr - t) + (xr - s) * (yr - t)) by (unfold w; ring).
    eapply Rle_trans; [apply Rabs_triang|]. eapply Rle_trans; [apply Rplus_le_compat_r, Rabs_triang|]. rewrite !Rabs_mult, (Rabs_pos_eq s), (Rabs_pos_eq t) by lra.
    assert (Rabs (xr - s) * t <= ea * s * t) by (apply Rmult_le_compat_r; lra).
    assert (s * Rabs (yr - t) <= s * (eb * t)) by (apply Rmult_le_compat_l; lra).
    assert (Rabs (xr - s) * Rabs (yr - t) <= (ea * s) * (eb * t)) by (apply Rmult_le_compat; try apply Rabs_pos; assumption).
    unfold w. lra. }
  assert (EE : ea * eb <= u / 1000).
  { unfold eb. replace (ea * (2 * (INR b - 1) * u)) with (ea * (2 * (INR b - 1)) * u) by ring. unfold Rdiv. rewrite (Rmult_comm u (/ 1000)). apply Rmult_le_compat_r; [lra|].
    unfold ea. apply Rle_trans with (2097152 * u * 2097152); [|lra]. apply Rmult_le_compat; try lra. apply Rmult_le_pos; lra. apply Rmult_le_compat_r; lra. }
  assert (WP : 0 <= w) by lra.
  assert (D2 : Rabs (xr * yr - w) <= / 4 * w). { eapply Rle_trans; [exact D|]. apply Rmult_le_compat_r; lra. }
  assert (BIG : Rabs (xr * yr) <= bpow radix2 1). { change (bpow radix2 1) with 2. apply Rabs_le_inv in D2. apply Rabs_le. lra. }
  destruct (dmul_ok x y 1 VX VY FX FY ltac:(lia) BIG) as (V & F & E). split; [now split|]. rewrite E. fold xr yr.
  destruct (rnd_factor (xr * yr)) as (e & E1 & E2).
  { apply Rle_trans with (/ 2 * w); [|apply Rabs_le_inv in D2; pose proof (Rle_abs (xr * yr)); lra]. 
    apply Rle_trans with (/ 2 * bpow radix2 (-950)); [|lra]. replace (/ 2) with (bpow radix2 (-1)) by reflexivity. rewrite <- bpow_plus. apply bpow_le. lia. }
  rewrite E2. replace (xr * yr * (1 + e) - w) with ((xr * yr - w) * (1 + e) + w * e) by ring. eapply Rle_trans; [apply Rabs_triang|]. rewrite !Rabs_mult, (Rabs_pos_eq w) by lra.
  assert (A1 : Rabs (1 + e) <= 1 + u) by (eapply Rle_trans; [apply Rabs_triang|]; rewrite Rabs_R1; lra).
  assert (T1 : Rabs (xr * yr - w) * Rabs (1 + e) <= (ea + eb + ea * eb) * w * (1 + u)) by (apply Rmult_le_compat; try apply Rabs_pos; assumption).
  assert (T2 : w * Rabs e <= w * u) by (apply Rmult_le_compat_l; lra).
  replace (2 * (INR a + INR b - 1) * u) with (ea + eb + 2 * u) by (unfold ea, eb; ring).
  assert (T3 : (ea + eb + ea * eb) * (1 + u) + u <= ea + eb + 2 * u).
  { assert ((ea + eb + ea * eb) * u <= / 100 * u) by (apply Rmult_le_compat_r; lra). lra. }
  apply (Rmult_le_compat_l w) in T3; [|assumption]. lra.
Qed.
Lemma gpow_S (mulop : double -> double -> double) k base n res : gpow_loop mulop (S k) base n res =
  if (n =? 0)%Z then Ok res else gpow_loop mulop k (mulop base base) (Z.quot n 2) (if (Z.rem n 2 =? 1)%Z then mulop res base else res).
Proof. reflexivity. Qed.
Lemma gpow_approx fuel : forall base n res a b, (0 <= n < 2 ^ Z.of_nat fuel)%Z -> (1 <= b)%nat -> (n <> 0%Z -> approx b base) -> approx a res -> (a + b * Z.to_nat n = r)%nat ->
  exists v, gpow_loop dmul (S fuel) base n res = Ok v /\ approx r v.
Proof.
  induction fuel as [|fuel IH]; intros base n res a b N B1 AB AR E; rewrite gpow_S.
  - change (2 ^ Z.of_nat 0)%Z with 1%Z in N. assert (n = 0%Z) as -> by lia. exists res. split; [reflexivity|]. replace r with a by (cbn in E; lia). exact AR.
  - destruct (Z.eqb_spec n 0) as [->|Z]; [exists res; split; [reflexivity|]; replace r with a by (cbn in E; lia); exact AR|].
    specialize (AB Z). rewrite Z.quot_div_nonneg, Z.rem_mod_nonneg by lia.
    pose proof (Z.div_mod n 2 ltac:(lia)) as DM. pose proof (Z.mod_pos_bound n 2 ltac:(lia)) as MB.
    assert (HD : (0 <= n / 2 < 2 ^ Z.of_nat fuel)%Z). { rewrite Nat2Z.inj_succ, Z.pow_succ_r in N by lia. split; [apply Z.div_pos; lia|apply Z.div_lt_upper_bound; lia]. }
    assert (SQ : (n / 2)%Z <> 0%Z -> approx (b + b) (dmul base base)).
    { intros Q. apply approx_mul; try assumption. assert (b + b <= b * Z.to_nat n)%nat; [|lia]. assert (2 <= Z.to_nat n)%nat by lia. nia. }
    destruct (Z.eqb_spec (n mod 2) 1) as [O|O].
    + apply (IH (dmul base base) (n / 2)%Z (dmul res base) (a + b)%nat (b + b)%nat HD); [lia|exact SQ| |].
      * apply approx_mul; try assumption. assert (1 <= Z.to_nat n)%nat by lia. nia.
      * assert (Z.to_nat n = 2 * Z.to_nat (n / 2) + 1)%nat by lia. nia.
    + apply (IH (dmul base base) (n / 2)%Z res a (b + b)%nat HD); [lia|exact SQ|exact AR|].
      assert (Z.to_nat n = 2 * Z.to_nat (n / 2))%nat by lia. nia.
Qed.
Lemma power_approx : (1 <= r)%nat -> exists v, genericBinaryPow1 dmul done p (Z.of_nat r) = Ok v /\ number v /\ Rabs (real v - real p ^ r) <= 2 * INR r * u * real p ^ r.
Proof.
  intros R1. destruct u_num as [U0 _]. assert (A1 : approx 1 p).
  { split; [lia|]. split; [exact NP|]. change (INR 1) with 1. cbn [Rpow_def.pow]. replace (real p - real p * 1) with 0 by ring. rewrite Rabs_R0. lra. }
  assert (X : exists v, genericBinaryPow1 dmul done p (Z.of_nat r) = Ok v /\ approx r v).
  { unfold genericBinaryPow1. destruct (Z.eqb_spec (Z.of_nat r) 0); [lia|]. destruct (Z.eqb_spec (Z.of_nat r) 1) as [E|E].
    - exists p. split; [reflexivity|]. replace r with 1%nat by lia. exact A1.
    - destruct (Z.ltb_spec (Z.of_nat r) 0); [lia|]. apply (gpow_approx 64 p (Z.of_nat r - 1) p 1 1).
      + assert (Z.of_nat r <= 1048576)%Z by (rewrite INR_IZR_INZ in RB; now apply le_IZR in RB). change (2 ^ Z.of_nat 64)%Z with 18446744073709551616%Z. lia.
      + lia.
      + intros _. exact A1.
      + exact A1.
      + lia. }
  destruct X as (v & E & (_ & N & B)). exists v. split; [exact E|]. split; [exact N|]. eapply Rle_trans; [exact B|].
  pose proof (pow_low r (le_n r)). pose proof (bpow_gt_0 radix2 (-950)). apply Rmult_le_compat_r; [lra|]. apply Rmult_le_compat_r; lra.
Qed.
End Power.

(** 1 - p in binary64 *)
Lemma gap p : number p -> 0 < real p < 1 -> bpow radix2 (-53) <= 1 - real p.
Proof.
  intros [V F] [P0 P1]. assert (G : generic_format radix2 (FLT_exp (-1074) 53) (real p)) by (rewrite <- (rnd_real p) by assumption; apply format_rnd).
  apply FLT_format_generic in G; [|reflexivity]. destruct G as [[n e] E B _]. cbn in B. unfold F2R in E. cbn in E.
  assert (PE : 0 < bpow radix2 e) by apply bpow_gt_0.
  assert (N0 : (0 < n)%Z). { apply lt_IZR. apply Rmult_lt_reg_r with (bpow radix2 e); [assumption|]. rewrite <- E. lra. }
  destruct (Z_le_gt_dec 0 e) as [L|L].
  - exfalso. assert (1 <= bpow radix2 e) by (change 1 with (bpow radix2 0); now apply bpow_le). assert (1 <= IZR n) by (apply IZR_le; lia). nra.
  - destruct (Z_le_gt_dec e (-54)) as [M|M].
    + assert (real p <= / 2).
      { rewrite E. apply Rle_trans with (IZR (2 ^ 53) * bpow radix2 (-54)); [|].
        - apply Rmult_le_compat; [apply IZR_le; lia|lra|apply IZR_le; lia|apply bpow_le; lia].
        - change (IZR (2 ^ 53)) with (bpow radix2 53). rewrite <- bpow_plus. change (bpow radix2 (53 + -54)) with (/ 2). lra. }
      apply Rle_trans with (/ 2); [|lra]. change (/ 2) with (bpow radix2 (-1)). apply bpow_le. lia.
    + assert (Q : 1 = IZR (2 ^ (- e)) * bpow radix2 e). { change (2 ^ (- e))%Z with (Zpower radix2 (- e)). rewrite IZR_Zpower by lia. rewrite <- bpow_plus. replace (- e + e)%Z with 0%Z by lia. reflexivity. }
      assert (D : 1 - real p = IZR (2 ^ (- e) - n) * bpow radix2 e) by (rewrite minus_IZR, Rmult_minus_distr_r, <- Q, <- E; reflexivity).
      assert (0 < 2 ^ (- e) - n)%Z. { apply lt_IZR. apply Rmult_lt_reg_r with (bpow radix2 e); [assumption|]. rewrite <- D. lra. }
      rewrite D. apply Rle_trans with (1 * bpow radix2 e); [rewrite Rmult_1_l; apply bpow_le; lia|]. apply Rmult_le_compat_r; [lra|]. apply IZR_le. lia.
Qed.
Definition pc (p : double) : double := dsub (dof 1) p.
Lemma pc_spec p : number p -> 0 < real p <= 1 -> number (pc p) /\ 0 <= real (pc p) <= 1 /\ (real p = 1 /\ real (pc p) = 0 \/ bpow radix2 (-53) <= 1 - real p /\ exists e, Rabs e <= u /\ real (pc p) = (1 - real p) * (1 + e)).
Proof.
  intros [V F] P. unfold pc. destruct (dof_exact 1 ltac:(lia)) as (V1 & F1 & R1).
  destruct (dsub_ok (dof 1) p 0 V1 V F1 F ltac:(lia)) as (V2 & F2 & R2). { rewrite R1. change (bpow radix2 0) with 1. apply Rabs_le. lra. }
  rewrite R1 in R2. split; [now split|]. rewrite R2. split.
  - split; [apply rnd_nonneg; lra|]. replace 1 with (rnd 1) at 2 by (apply (rnd_pow 0); lia). apply rnd_le. lra.
  - destruct (Req_dec (real p) 1) as [E|E]; [left; rewrite E; split; [reflexivity|]; replace (1 - 1) with 0 by ring; apply rnd_0|right].
    pose proof (gap p (conj V F) ltac:(lra)) as G. split; [exact G|]. destruct (rnd_factor (1 - real p)) as (e & E1 & E2); [|exists e; split; assumption].
    rewrite Rabs_pos_eq by lra. eapply Rle_trans; [|exact G]. apply bpow_le. lia.
Qed.
Lemma three q x y e1 e2 e3 : 0 <= q -> Rabs e1 <= u -> Rabs e2 <= u -> Rabs e3 <= u -> 0 <= x -> 0 <= y ->
  Rabs (q * (1 + e1) * x * (1 + e2) * y * (1 + e3) - q * x * y) <= 4 * u * (q * x * y).
Proof.
  intros Q A B C X Y. pose proof u_small as U. replace (q * (1 + e1) * x * (1 + e2) * y * (1 + e3) - q * x * y) with (q * x * y * ((1 + e1) * (1 + e2) * (1 + e3) - 1)) by ring.
  assert (W : 0 <= q * x * y) by (apply Rmult_le_pos; [apply Rmult_le_pos|]; assumption). rewrite Rabs_mult, (Rabs_pos_eq (q * x * y)) by exact W. rewrite Rmult_comm. apply Rmult_le_compat_r; [exact W|].
  replace ((1 + e1) * (1 + e2) * (1 + e3) - 1) with (e1 + e2 + e3 + (e1 * e2 + e1 * e3 + e2 * e3 + e1 * e2 * e3)) by ring.
  assert (P2 : forall a b, Rabs a <= u -> Rabs b <= u -> Rabs (a * b) <= u * u) by (intros; rewrite Rabs_mult; apply Rmult_le_compat; try apply Rabs_pos; assumption).
  assert (P3 : Rabs (e1 * e2 * e3) <= u * u * u). { rewrite Rabs_mult. apply Rmult_le_compat; try apply Rabs_pos; auto. }
  pose proof (P2 e1 e2 A B) as Q1. pose proof (P2 e1 e3 A C) as Q2. pose proof (P2 e2 e3 B C) as Q3.
  apply Rabs_le_inv in A. apply Rabs_le_inv in B. apply Rabs_le_inv in C. apply Rabs_le_inv in Q1. apply Rabs_le_inv in Q2. apply Rabs_le_inv in Q3. apply Rabs_le_inv in P3.
  assert (UU : u * u <= / 1024 * u) by (apply Rmult_le_compat_r; lra). assert (UUU : u * u * u <= / 1024 * u) by (apply Rmult_le_compat_r; nra).
  apply Rabs_le. lra.
Qed.
Section NegBin.
Context (pow : double -> Z -> double) (r : nat) (p e : double).
Definition nratio (k : nat) : double := ddiv (dmul (pc p) (dof (Z.of_nat (r + k) - 1))) (dof (Z.of_nat k)).
Let P := Pd nratio e. Let T := Td nratio e.
Lemma nloop_S v d a b c : negbin_loop (binary64 pow) (S d) (Z.of_nat r) (pc p) v a b c =
  if dleb c v then result <- chk32 (a + 1) ;; k <- chk32 (Z.of_nat r + result) ;;
    negbin_loop (binary64 pow) d (Z.of_nat r) (pc p) v result (dmul b (ddiv (dmul (pc p) (dof (k - 1))) (dof result))) (dadd c (dmul b (ddiv (dmul (pc p) (dof (k - 1))) (dof result))))
  else Ok a.
Proof. reflexivity. Qed.
Lemma nloop_ok v fuel : forall k z, (Z.of_nat k <= int32_max)%Z -> negbin_loop (binary64 pow) fuel (Z.of_nat r) (pc p) v (Z.of_nat k) (P k) (T k) = Ok z ->
  (forall j, (j < k)%nat -> dleb (T j) v = true) -> exists k', z = Z.of_nat k' /\ first_above T v k'.
Proof.
  induction fuel as [|fuel IH]; intros k z B H A; [discriminate|]. rewrite nloop_S in H.
  destruct (dleb (T k) v) eqn:E.
  - unfold chk32 in H. destruct (in_int32 (Z.of_nat k + 1)) eqn:I; [|discriminate]. cbn [bind] in H.
    destruct (in_int32 (Z.of_nat r + (Z.of_nat k + 1))) eqn:J; [|discriminate]. cbn [bind] in H.
    replace (Z.of_nat k + 1)%Z with (Z.of_nat (S k)) in H by lia. rewrite <- Nat2Z.inj_add in H. apply (IH (S k) z); [unfold in_int32 in I; lia|exact H|].
    intros j Q. destruct (Nat.eq_dec j k) as [->|]; [exact E|apply A; lia].
  - injection H as <-. exists k. split; [reflexivity|]. split; assumption.
Qed.
Lemma nloop_run v d : forall k, (Z.of_nat r + Z.of_nat (k + d) <= int32_max)%Z -> first_above T v (k + d) ->
  negbin_loop (binary64 pow) (S d) (Z.of_nat r) (pc p) v (Z.of_nat k) (P k) (T k) = Ok (Z.of_nat (k + d)).
Proof.
  induction d as [|d IH]; intros k B H; rewrite nloop_S.
  - rewrite Nat.add_0_r in *. destruct H as [H _]. now rewrite H.
  - rewrite (proj2 H k) by lia.
    assert (I : in_int32 (Z.of_nat k + 1) = true) by (clear - B; unfold in_int32, int32_min; unfold int32_max in *; lia).
    assert (J : in_int32 (Z.of_nat r + (Z.of_nat k + 1)) = true) by (clear - B; unfold in_int32, int32_min; unfold int32_max in *; lia).
    unfold chk32. rewrite I. cbn [bind]. rewrite J. cbn [bind].
    replace (Z.of_nat k + 1)%Z with (Z.of_nat (S k)) by lia. rewrite <- Nat2Z.inj_add. replace (k + S d)%nat with (S k + d)%nat in * by lia. exact (IH (S k) B H).
Qed.
End NegBin.
Definition slack_negbin (r k : nat) : R := (2 * INR r + 2 + 8 * INR k) * bpow radix2 (-53).
Lemma slack_negbin_mono r j k : (j <= k)%nat -> slack_negbin r j <= slack_negbin r k.
Proof. intros H. apply le_INR in H. unfold slack_negbin. apply Rmult_le_compat_r; [apply bpow_ge_0|lra]. Qed.
Lemma negbin_core r p e K : (1 <= r)%nat -> INR r <= 1048576 -> number p -> 0 < real p <= 1 -> bpow radix2 (-950) <= real p ^ r ->
  number e -> Rabs (real e - real p ^ r) <= 2 * INR r * u * real p ^ r -> INR K <= 1048576 ->
  forall k, (k <= K)%nat -> number (Td (nratio r p) e k) /\ Rabs (real (Td (nratio r p) e k) - upto (negbin_mass r (real p)) k) <= slack_negbin r k.
Proof.
  intros R1 RB NP P01 LOW NE EE KB k HK. destruct r as [|r']; [lia|]. set (r := S r') in *. set (p0 := real p) in *.
  pose proof (core_sum (negbin_mass r p0) (fun k => (1 - p0) * (INR (r + k) - 1) / INR k) (nratio r p) e (2 * INR r) 4 K) as C.
  replace (slack_negbin r k) with ((2 * INR r + 2 + (4 + 4) * INR k) * u) by (unfold slack_negbin, u; ring).
  assert (IR : 1 <= INR r) by (change 1 with (INR 1); apply le_INR; lia).
  destruct (pc_spec p NP P01) as ([VC FC] & CB & CC). fold p0 in CC.
  apply C; clear C.
  - intros j. unfold r. rewrite negbin_step. f_equal. f_equal. f_equal. replace (S r' + S j)%nat with (S (S r' + j)) by lia. rewrite (S_INR (S r' + j)). ring.
  - unfold r. rewrite negbin_zero. exact LOW.
  - intros j. rewrite plus_INR. pose proof (pos_INR j). pose proof (S_INR j). apply Rmult_le_pos; [apply Rmult_le_pos; lra|]. left. apply Rinv_0_lt_compat, lt_0_INR. lia.
  - intros j. rewrite !plus_INR, !S_INR. pose proof (pos_INR j) as J. unfold Rdiv. rewrite !Rmult_assoc. apply Rmult_le_compat_l; [lra|].
    apply Rmult_le_reg_r with (INR j + 1 + 1); [lra|]. rewrite Rmult_assoc, Rinv_l, Rmult_1_r by lra.
    apply Rmult_le_reg_r with (INR j + 1); [lra|]. 
    replace ((INR r + (INR j + 1) - 1) * / (INR j + 1) * (INR j + 1 + 1) * (INR j + 1)) with ((INR r + INR j) * (INR j + 1 + 1)) by (field; lra). nra.
  - change (INR 1) with 1. rewrite plus_INR. change (INR 1) with 1. unfold Rdiv. rewrite Rinv_1, Rmult_1_r. apply Rle_trans with 1048576.
    + replace (INR r + 1 - 1) with (INR r) by ring. nra.
    + change 1048576 with (bpow radix2 20). apply bpow_le. lia.
  - intros j. apply negbin_sum. lra.
  - intros j J. assert (JB : INR (S j) <= 1048576) by (apply le_INR in J; lra). assert (JP : 1 <= INR (S j)) by (change 1 with (INR 1); apply le_INR; lia).
    destruct (int_double (S j) ltac:(lia) ltac:(lra)) as (V & F & RE). unfold nratio.
    assert (NB : INR (r + S j) - 1 <= 2097152) by (rewrite plus_INR; lra). assert (NP1 : 1 <= INR (r + S j) - 1) by (rewrite plus_INR; lra).
    assert (NJ : INR (r + j) = INR (r + S j) - 1) by (replace (r + S j)%nat with (S (r + j)) by lia; rewrite S_INR; ring).
    destruct (int_double (r + j) ltac:(lia) ltac:(lra)) as (V' & F' & RE'). rewrite NJ in RE'. replace (Z.of_nat (r + S j) - 1)%Z with (Z.of_nat (r + j)) by lia.
    set (N := INR (r + S j) - 1) in *. set (D := INR (S j)) in *. set (dn := dof (Z.of_nat (r + j))) in *. set (dd := dof (Z.of_nat (S j))) in *. set (q := pc p) in *.
    destruct (dmul_ok q dn 21 VC V' FC F' ltac:(lia)) as (V1 & F1 & R1'). { rewrite RE'. rewrite Rabs_pos_eq by (apply Rmult_le_pos; lra). change (bpow radix2 21) with 2097152. nra. }
    rewrite RE' in R1'. assert (ID : 0 < / D <= 1) by (split; [apply Rinv_0_lt_compat; lra|rewrite <- Rinv_1; apply Rinv_le; lra]).
    assert (B1 : 0 <= real (dmul q dn) <= 2097152). { rewrite R1'. split; [apply rnd_nonneg, Rmult_le_pos; lra|]. replace 2097152 with (rnd 2097152) by (apply (rnd_pow 21); lia). apply rnd_le. nra. }
    destruct (ddiv_ok (dmul q dn) dd 21 V1 V F1 ltac:(lra) ltac:(lia)) as (V2 & F2 & R2).
    { rewrite RE. unfold Rdiv. rewrite Rabs_pos_eq by (apply Rmult_le_pos; lra). change (bpow radix2 21) with 2097152. nra. }
    rewrite RE in R2. split; [now split|]. rewrite R2.
    destruct CC as [[C1 C2]|[C1 (e1 & E1 & C2)]].
    + rewrite R1', C2, C1, Rmult_0_l, rnd_0. unfold Rdiv. rewrite Rmult_0_l, rnd_0. replace (1 - 1) with 0 by ring. rewrite !Rmult_0_l, Rmult_0_r. replace (0 - 0) with 0 by ring. rewrite Rabs_R0. lra.
    + assert (QL : bpow radix2 (-54) <= real q). { rewrite C2. pose proof u_small. apply Rabs_le_inv in E1. change (-54)%Z with (-53 + -1)%Z. rewrite bpow_plus. change (bpow radix2 (-1)) with (/ 2). pose proof (bpow_gt_0 radix2 (-53)). nra. }
      pose proof (bpow_gt_0 radix2 (-54)) as P54.
      destruct (rnd_factor (real q * N)) as (e2 & E2 & F2'). { rewrite Rabs_pos_eq by (apply Rmult_le_pos; lra). apply Rle_trans with (bpow radix2 (-54)); [apply bpow_le; lia|nra]. }
      rewrite F2' in R1'. assert (LL : bpow radix2 (-55) <= real (dmul q dn)).
      { rewrite R1'. change (-55)%Z with (-54 + -1)%Z. rewrite bpow_plus. change (bpow radix2 (-1)) with (/ 2). pose proof u_small. apply Rabs_le_inv in E2. assert (bpow radix2 (-54) <= real q * N) by nra. nra. }
      pose proof (bpow_gt_0 radix2 (-55)) as P55.
      destruct (rnd_factor (real (dmul q dn) / D)) as (e3 & E3 & F3').
      { unfold Rdiv. rewrite Rabs_pos_eq by (apply Rmult_le_pos; lra). apply Rle_trans with (bpow radix2 (-55) * bpow radix2 (-20)); [rewrite <- bpow_plus; apply bpow_le; lia|].
        apply Rmult_le_compat; try lra; try apply bpow_ge_0. change (-20)%Z with (- (20))%Z. rewrite bpow_opp. apply Rinv_le; [lra|]. change (bpow radix2 20) with 1048576. lra. }
      rewrite F3', R1', C2. unfold Rdiv. apply three; try assumption; lra.
  - lra.
  - lra.
  - exact NE.
  - unfold r. rewrite negbin_zero. exact EE.
  - exact KB.
  - exact HK.
Qed.
Lemma negbin_start pow r p d : (1 <= r)%nat -> INR r <= 1048576 -> number p -> 0 < real p <= 1 -> bpow radix2 (-950) <= real p ^ r ->
  negbin_init (binary64 pow) (Z.of_nat r) p = Ok d -> exists e, d = (Z.of_nat r, p, e) /\ number e /\ Rabs (real e - real p ^ r) <= 2 * INR r * u * real p ^ r.
Proof.
  intros R1 RB NP P01 LOW H. destruct (power_approx p r NP P01 LOW RB R1) as (v & E & N & B).
  unfold negbin_init in H. cbn [mul of_int binary64] in H. destruct ((Z.of_nat r <=? 0)%Z || _ || _)%bool; [discriminate|].
  change (genericBinaryPow1 dmul (dof 1) p (Z.of_nat r)) with (genericBinaryPow1 dmul done p (Z.of_nat r)) in H. rewrite E in H. cbn [bind] in H. injection H as <-.
  exists v. repeat split; try assumption; apply N.
Qed.
Lemma negbin_near pow r p d v fuel z : (1 <= r)%nat -> (Z.of_nat r <= 2 ^ 20)%Z -> number p -> 0 < real p <= 1 -> bpow radix2 (-950) <= real p ^ r -> number v ->
  negbin_init (binary64 pow) (Z.of_nat r) p = Ok d -> negbin_next (binary64 pow) fuel d v = Ok z -> (z <= 2 ^ 20)%Z ->
  (0 <= z)%Z /\ near_inverse (negbin_mass r (real p)) (slack_negbin r (Z.to_nat z)) (real v) (Z.to_nat z).
Proof.
  intros R1 RB NP P01 LOW NV I H B. assert (RB' : INR r <= 1048576) by (rewrite INR_IZR_INZ; apply IZR_le; lia).
  destruct (negbin_start pow r p d R1 RB' NP P01 LOW I) as (e & -> & NE & EE). unfold negbin_next in H.
  change (sub (binary64 pow) (of_int (binary64 pow) 1) p) with (pc p) in H.
  destruct (nloop_ok pow r p e v fuel 0 z) as (k & -> & F); [unfold int32_max; lia|exact H|lia|].
  split; [lia|]. rewrite Nat2Z.id. apply (near_of_first _ (Td (nratio r p) e)); [exact NV| |exact F].
  intros j J. destruct (negbin_core r p e k R1 RB' NP P01 LOW NE EE) with (k := j) as [N A]; [rewrite INR_IZR_INZ; apply IZR_le; lia|exact J|].
  split; [exact N|]. eapply Rle_trans; [exact A|]. now apply slack_negbin_mono.
Qed.
Lemma negbin_returns pow r p d v K : (1 <= r)%nat -> (Z.of_nat r <= 2 ^ 20)%Z -> number p -> 0 < real p <= 1 -> bpow radix2 (-950) <= real p ^ r -> number v ->
  negbin_init (binary64 pow) (Z.of_nat r) p = Ok d -> (Z.of_nat K <= 2 ^ 20)%Z -> real v < upto (negbin_mass r (real p)) K - slack_negbin r K ->
  exists fuel k, (k <= K)%nat /\ negbin_next (binary64 pow) fuel d v = Ok (Z.of_nat k).
Proof.
  intros R1 RB NP P01 LOW NV I B L. assert (RB' : INR r <= 1048576) by (rewrite INR_IZR_INZ; apply IZR_le; lia).
  destruct (negbin_start pow r p d R1 RB' NP P01 LOW I) as (e & -> & NE & EE).
  destruct (negbin_core r p e K R1 RB' NP P01 LOW NE EE) with (k := K) as [N A]; [rewrite INR_IZR_INZ; apply IZR_le; lia|lia|].
  pose proof (above_of_near _ (Td (nratio r p) e) v K _ NV N A L) as X. destruct (first_exists _ _ _ X) as (k & K1 & K2).
  exists (S k), k. split; [exact K1|]. unfold negbin_next. change (sub (binary64 pow) (of_int (binary64 pow) 1) p) with (pc p).
  apply (nloop_run pow r p e v k 0); [unfold int32_max; cbn [Nat.add]; lia|exact K2].
Qed.
