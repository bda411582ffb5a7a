(** Rounding errors of the discrete samplers. *)
From Coq Require Import Reals Lra Psatz Floats.SpecFloat.
From Flocq Require Import Core.
From Verif Require Import Base Float FloatProofs StatProofs NumModel RandModel RandSpec RandDoubleProofs DistNumSpec DistAccProofs DiscSpec.
Local Open Scope R_scope.

Definition eta : R := bpow radix2 (-1075).
Lemma eta_pos : 0 < eta. Proof. apply bpow_gt_0. Qed.
Lemma rnd_split x : exists e h, Rabs e <= u /\ Rabs h <= eta /\ rnd x = x * (1 + e) + h /\ (bpow radix2 (-1022) <= Rabs x -> h = 0).
Proof.
  destruct (Rle_or_lt (bpow radix2 (-1022)) (Rabs x)) as [L|L].
  - destruct (rnd_factor x L) as (e & E1 & E2). exists e, 0. rewrite Rabs_R0. pose proof eta_pos. split; [assumption|]. split; [lra|]. split; [lra|reflexivity].
  - assert (H : Rabs (rnd x - x) <= u * Rabs x + eta) by apply rnd_err.
    pose proof u_small as [U _]. destruct (Req_dec x 0) as [->|N].
    + exists 0, 0. rewrite rnd_0, Rabs_R0. pose proof eta_pos. repeat split; lra.
    + assert (AX : 0 < Rabs x) by now apply Rabs_pos_lt.
      (* split the error in two parts *)
      set (d := rnd x - x) in *. 
      destruct (Rle_or_lt (Rabs d) (u * Rabs x)) as [D|D].
      * exists (d / x), 0. split; [|split; [rewrite Rabs_R0; apply Rlt_le, eta_pos|split; [unfold d; field; assumption|reflexivity]]].
        unfold Rdiv. rewrite Rabs_mult, Rabs_inv. apply Rmult_le_reg_r with (Rabs x); [assumption|]. rewrite Rmult_assoc, Rinv_l by lra. lra.
      * (* take the largest relative part *)
        destruct (Rle_or_lt 0 d) as [S|S].
        -- exists (u * Rabs x / x), (d - u * Rabs x). split; [|split; [|split; [unfold d; field; assumption|intros; lra]]].
           ++ unfold Rdiv. rewrite !Rabs_mult, Rabs_inv, Rabs_Rabsolu, (Rabs_pos_eq u) by lra. rewrite Rmult_assoc, Rinv_r by lra. lra.
           ++ rewrite (Rabs_pos_eq d) in * by assumption. apply Rabs_le. lra.
        -- exists (- (u * Rabs x) / x), (d + u * Rabs x). split; [|split; [|split; [unfold d; field; assumption|intros; lra]]].
           ++ unfold Rdiv. rewrite Rabs_mult, Rabs_Ropp, Rabs_mult, Rabs_inv, Rabs_Rabsolu, (Rabs_pos_eq u) by lra. rewrite Rmult_assoc, Rinv_r by lra. lra.
           ++ rewrite (Rabs_left d) in * by assumption. apply Rabs_le. lra.
Qed.

(** one step: probability *= ratio *)
Lemma step_prob m rho P Rr alpha beta gamma e h : 0 <= m -> 0 <= rho -> 0 <= beta -> 0 <= alpha <= / 1024 -> 0 <= gamma <= 8 * u -> u <= / 1048576 ->
  Rabs (P - m) <= alpha * m + beta -> Rabs (Rr - rho) <= gamma * rho -> Rabs e <= u ->
  Rabs (P * Rr * (1 + e) + h - m * rho) <= (alpha + gamma + 2 * u) * (m * rho) + beta * rho * (1 + 10 * u) + Rabs h.
Proof.
  intros M0 R0 B0 A G U HP HR HE. pose proof u_small as [U0 _].
  assert (X : Rabs (P * Rr - m * rho) <= (alpha * m + beta) * (rho * (1 + gamma)) + m * (gamma * rho)).
  { replace (P * Rr - m * rho) with ((P - m) * Rr + m * (Rr - rho)) by ring. eapply Rle_trans; [apply Rabs_triang|]. rewrite !Rabs_mult, (Rabs_pos_eq m) by assumption.
    assert (RA : Rabs Rr <= rho * (1 + gamma)). { replace Rr with ((Rr - rho) + rho) by ring. eapply Rle_trans; [apply Rabs_triang|]. rewrite (Rabs_pos_eq rho) by assumption. lra. }
    apply Rplus_le_compat; [|apply Rmult_le_compat_l; assumption]. apply Rmult_le_compat; try apply Rabs_pos; assumption. }
  set (D := P * Rr - m * rho) in *. set (w := m * rho) in *. assert (W : 0 <= w) by (apply Rmult_le_pos; assumption).
  replace (P * Rr * (1 + e) + h - w) with (D + (D + w) * e + h) by (unfold D, w; ring).
  eapply Rle_trans; [apply Rabs_triang|]. apply Rplus_le_compat_r. eapply Rle_trans; [apply Rabs_triang|]. rewrite Rabs_mult.
  assert (Y : Rabs (D + w) <= Rabs D + w). { eapply Rle_trans; [apply Rabs_triang|]. rewrite (Rabs_pos_eq w) by assumption. lra. }
  assert (Z : Rabs (D + w) * Rabs e <= (Rabs D + w) * u) by (apply Rmult_le_compat; try apply Rabs_pos; assumption).
  replace ((alpha * m + beta) * (rho * (1 + gamma)) + m * (gamma * rho)) with (w * (alpha * (1 + gamma) + gamma) + (beta * rho) * (1 + gamma)) in X by (unfold w; ring).
  set (br := beta * rho) in *. assert (BR : 0 <= br) by (apply Rmult_le_pos; assumption). set (ad := Rabs D) in *.
  assert (X2 : ad * (1 + u) <= (w * (alpha * (1 + gamma) + gamma) + br * (1 + gamma)) * (1 + u)) by (apply Rmult_le_compat_r; lra).
  assert (C1 : (alpha * (1 + gamma) + gamma) * (1 + u) + u <= alpha + gamma + 2 * u).
  { assert (alpha * (u + gamma + gamma * u) <= / 1024 * (10 * u)) by (apply Rmult_le_compat; nra). assert (gamma * u <= / 1024 * u) by nra. nra. }
  assert (C2 : (1 + gamma) * (1 + u) <= 1 + 10 * u) by nra.
  apply (Rmult_le_compat_l w) in C1; [|assumption]. apply (Rmult_le_compat_l br) in C2; [|assumption].
  clear - X2 C1 C2 Z Y U0. nra.
Qed.

Lemma u_num : 0 < u /\ u * 9007199254740992 = 1.
Proof. split; [apply bpow_gt_0|]. rewrite u_val. change (2 ^ 53)%Z with 9007199254740992%Z. field. Qed.

Section Core.
Context (mass rho : nat -> R) (Rd : nat -> double) (e0 : double) (c0 c : R) (K : nat).
Context (MS : forall k, mass (S k) = mass k * rho (S k)) (M0 : bpow radix2 (-950) <= mass 0%nat).
Context (RN : forall k, 0 <= rho (S k)) (RD : forall k, rho (S (S k)) <= rho (S k)) (RB : rho 1%nat <= bpow radix2 60).
Context (SUM : forall k, upto mass k <= 1).
Context (RR : forall k, (S k <= K)%nat -> number (Rd (S k)) /\ Rabs (real (Rd (S k)) - rho (S k)) <= c * u * rho (S k)).
Context (CB : 0 <= c <= 8) (C0B : 0 <= c0 <= 4194304) (E0 : number e0) (EE : Rabs (real e0 - mass 0%nat) <= c0 * u * mass 0%nat).
Context (KB : INR K <= 1048576).
Fixpoint Pd (k : nat) : double := match k with O => e0 | S j => dmul (Pd j) (Rd (S j)) end.
Fixpoint Td (k : nat) : double := match k with O => e0 | S j => dadd (Td j) (Pd (S j)) end.
Definition al (k : nat) : R := (c0 + (c + 2) * INR k) * u.
Lemma mass_pos k : 0 <= mass k.
Proof. induction k as [|k IH]; [pose proof (bpow_gt_0 radix2 (-950)); lra|]. rewrite MS. apply Rmult_le_pos; auto. Qed.
Lemma upto_pos k : 0 <= upto mass k.
Proof. unfold upto. induction k as [|k IH]; cbn; [apply mass_pos|pose proof (mass_pos (S k)); lra]. Qed.
Lemma mass_le k : mass k <= upto mass k.
Proof. destruct k as [|k]; unfold upto; cbn; [lra|]. pose proof (upto_pos k). unfold upto in *. lra. Qed.
Lemma mass_low k : k = O \/ 1 < rho k -> mass 0%nat <= mass k.
Proof.
  induction k as [|k IH]; [lra|]. intros [|H]; [discriminate|]. rewrite MS.
  assert (I : mass 0%nat <= mass k). { apply IH. destruct k as [|k]; [now left|right]. pose proof (RD k). lra. }
  pose proof (mass_pos k). nra.
Qed.
Lemma rho_le k : rho (S k) <= bpow radix2 60.
Proof. induction k as [|k IH]; [exact RB|]. pose proof (RD k). lra. Qed.
Lemma al_bound k : (k <= K)%nat -> 0 <= al k <= / 1048576.
Proof.
  intros H. apply le_INR in H. pose proof (pos_INR k) as P. destruct u_num as [U1 U2]. unfold al.
  assert (0 <= (c + 2) * INR k <= 10485760). { split; [apply Rmult_le_pos; lra|]. replace 10485760 with (10 * 1048576) by lra. apply Rmult_le_compat; lra. }
  split; [apply Rmult_le_pos; lra|]. apply Rle_trans with (16777216 * u); [apply Rmult_le_compat_r; lra|]. lra.
Qed.
Lemma dsum_bound k : (k <= K)%nat -> 0 <= 2 * (INR k + 1) * u <= / 1048576.
Proof.
  intros H. apply le_INR in H. pose proof (pos_INR k) as P. destruct u_num as [U1 U2]. split; [apply Rmult_le_pos; lra|].
  apply Rle_trans with (2097154 * u); [apply Rmult_le_compat_r; lra|lra].
Qed.
Lemma core k : (k <= K)%nat -> number (Pd k) /\ number (Td k) /\
  (exists beta, 0 <= beta <= 2 * INR k * eta /\ (k = O \/ 1 < rho k -> beta = 0) /\ Rabs (real (Pd k) - mass k) <= al k * mass k + beta) /\
  Rabs (real (Td k) - upto mass k) <= al k * upto mass k + 2 * (INR k + 1) * u.
Proof.
  destruct u_num as [U0 U1]. pose proof eta_pos as H0. assert (ETA : eta <= u / 1048576 / 1048576).
  { unfold eta, u, Rdiv. replace (/ 1048576) with (bpow radix2 (-20)) by (cbn; lra). rewrite <- !bpow_plus. apply bpow_le. lia. }
  induction k as [|k IH]; intros LE.
  - split; [exact E0|]. split; [exact E0|]. unfold al, upto. cbn [Pd Td sum_f_R0 INR]. rewrite !Rmult_0_r, Rplus_0_r. split.
    + exists 0. split; [lra|]. split; [reflexivity|]. lra.
    + lra.
  - destruct IH as ([VP FP] & [VT FT] & (beta & B1 & B2 & B3) & T1); [lia|].
    destruct (RR k LE) as ([VR FR] & R1). pose proof (al_bound k ltac:(lia)) as A1. pose proof (al_bound (S k) LE) as A2. pose proof (dsum_bound k ltac:(lia)) as D1.
    pose proof (mass_pos k) as MP. pose proof (mass_le k) as ML. pose proof (SUM k) as SK. pose proof (RN k) as RP. pose proof (rho_le k) as RL.
    assert (INR (S k) <= 1048576) as KK by (apply le_INR in LE; lra). pose proof (pos_INR k) as IK. rewrite S_INR in KK.
    assert (BB : 0 <= beta <= u) by (assert (2 * INR k * eta <= 2097152 * (u / 1048576 / 1048576)) by (apply Rmult_le_compat; lra); lra).
    assert (G : 0 <= c * u <= 8 * u) by (split; [apply Rmult_le_pos; lra|apply Rmult_le_compat_r; lra]).
    set (P := real (Pd k)) in *. set (Rr := real (Rd (S k))) in *. set (r := rho (S k)) in *. set (m := mass k) in *.
    assert (AP : Rabs P <= 2). { replace P with ((P - m) + m) by ring. eapply Rle_trans; [apply Rabs_triang|]. rewrite (Rabs_pos_eq m) by assumption.
      assert (al k * m <= / 1048576 * 1) by (apply Rmult_le_compat; lra). lra. }
    assert (AR : Rabs Rr <= bpow radix2 61). { replace Rr with ((Rr - r) + r) by ring. eapply Rle_trans; [apply Rabs_triang|]. rewrite (Rabs_pos_eq r) by assumption.
      change 61%Z with (60 + 1)%Z. rewrite bpow_plus. change (bpow radix2 1) with 2. assert (c * u * r <= 1 * r) by (apply Rmult_le_compat_r; lra). lra. }
    assert (PR : Rabs (P * Rr) <= bpow radix2 62). { rewrite Rabs_mult. change 62%Z with (1 + 61)%Z. rewrite bpow_plus. change (bpow radix2 1) with 2. apply Rmult_le_compat; try apply Rabs_pos; assumption. }
    destruct (dmul_ok (Pd k) (Rd (S k)) 62 VP VR FP FR ltac:(lia) PR) as (VX & FX & RX). fold P Rr in RX.
    destruct (rnd_split (P * Rr)) as (e & h & HE & HH & HX & HN).
    pose proof (step_prob m r P Rr (al k) beta (c * u) e h MP RP (proj1 B1) ltac:(lra) G ltac:(lra) B3 R1 HE) as ST.
    rewrite <- HX, <- RX in ST. unfold m, r in ST. rewrite <- MS in ST. fold m r in ST.
    replace (al k + c * u + 2 * u) with (al (S k)) in ST by (unfold al; rewrite S_INR; ring).
    change (dmul (Pd k) (Rd (S k))) with (Pd (S k)) in *. set (P' := real (Pd (S k))) in *.
    set (beta' := beta * r * (1 + 10 * u) + Rabs h).
    assert (Q1 : S k = O \/ 1 < rho (S k) -> beta' = 0).
    { intros [|Q]; [discriminate|]. fold r in Q. assert (K0 : k = O \/ 1 < rho k) by (destruct k as [|j]; [now left|right; pose proof (RD j); fold r in H; lra]).
      assert (b0 : beta = 0) by now apply B2. assert (h = 0) as ->; [|unfold beta'; rewrite b0, Rabs_R0; ring].
      apply HN. pose proof (mass_low k K0) as LM. fold m in LM. rewrite b0, Rplus_0_r in B3.
      assert (P1 : m / 2 <= Rabs P). { assert (al k * m <= / 2 * m) by (apply Rmult_le_compat_r; lra). apply Rabs_le_inv in B3. pose proof (Rle_abs P). lra. }
      assert (R2 : / 2 <= Rabs Rr). { assert (c * u * r <= / 2 * r) by (apply Rmult_le_compat_r; lra). apply Rabs_le_inv in R1. pose proof (Rle_abs Rr). lra. }
      rewrite Rabs_mult. apply Rle_trans with (bpow radix2 (-950) / 2 * / 2).
      - unfold Rdiv. rewrite Rmult_assoc. replace (/ 2 * / 2) with (bpow radix2 (-2)) by (cbn; lra). rewrite <- bpow_plus. apply bpow_le. lia.
      - pose proof (bpow_gt_0 radix2 (-950)). apply Rmult_le_compat; lra. }
    assert (Q2 : 0 <= beta' <= 2 * INR (S k) * eta).
    { split; [unfold beta'; apply Rplus_le_le_0_compat; [|apply Rabs_pos]; apply Rmult_le_pos; [apply Rmult_le_pos; lra|lra]|].
      destruct (Rle_or_lt r 1) as [L|L]; [|rewrite Q1 by (right; exact L); apply Rmult_le_pos; [rewrite S_INR; lra|lra]].
      unfold beta'. rewrite S_INR. assert (beta * r <= 2 * INR k * eta * 1) by (apply Rmult_le_compat; lra). rewrite Rmult_1_r in *.
      assert (0 <= beta * r) by (apply Rmult_le_pos; lra).
      assert (beta * r * (1 + 10 * u) <= 2 * INR k * eta * (1 + 10 * u)) by (apply Rmult_le_compat_r; lra).
      assert (2 * INR k * eta * (10 * u) <= eta / 2); [|lra].
      replace (2 * INR k * eta * (10 * u)) with (eta * (20 * INR k * u)) by ring. apply Rmult_le_compat_l; [lra|].
      apply Rle_trans with (20971520 * u); [apply Rmult_le_compat_r; lra|lra]. }
    assert (BB' : beta' <= u) by (rewrite S_INR in Q2; assert (2 * (INR k + 1) * eta <= 2097152 * (u / 1048576 / 1048576)) by (apply Rmult_le_compat; lra); lra).
    assert (ST' : Rabs (P' - mass (S k)) <= al (S k) * mass (S k) + beta') by (unfold beta'; lra).
    split; [split; assumption|].
    (* the sum *)
    pose proof (SUM (S k)) as SK'. pose proof (mass_pos (S k)) as MP'. pose proof (upto_pos k) as UP.
    assert (US : upto mass (S k) = upto mass k + mass (S k)) by reflexivity.
    set (T := real (Td k)) in *. set (s := upto mass k) in *. set (m' := mass (S k)) in *.
    assert (AK : al k <= al (S k)) by (unfold al; rewrite S_INR; apply Rmult_le_compat_r; [lra|]; apply Rplus_le_compat_l, Rmult_le_compat_l; lra).
    assert (D : Rabs (T + P' - (s + m')) <= al (S k) * (s + m') + 2 * (INR k + 1) * u + beta').
    { replace (T + P' - (s + m')) with ((T - s) + (P' - m')) by ring. eapply Rle_trans; [apply Rabs_triang|].
      assert (al k * s <= al (S k) * s) by (apply Rmult_le_compat_r; assumption). lra. }
    assert (AT : Rabs (T + P') <= 2).
    { replace (T + P') with ((T + P' - (s + m')) + (s + m')) by ring. eapply Rle_trans; [apply Rabs_triang|]. rewrite (Rabs_pos_eq (s + m')) by lra.
      assert (al (S k) * (s + m') <= / 1048576 * 1) by (apply Rmult_le_compat; lra). lra. }
    destruct (dadd_ok (Td k) (Pd (S k)) 1 VT VX FT FX ltac:(lia) AT) as (VY & FY & RY). fold T P' in RY.
    split; [split; assumption|]. split; [exists beta'; repeat split; tauto|].
    change (dadd (Td k) (Pd (S k))) with (Td (S k)) in RY. rewrite RY, US. fold s m'.
    pose proof (rnd_err (T + P')) as E. fold eta in E.
    replace (rnd (T + P') - (s + m')) with ((rnd (T + P') - (T + P')) + (T + P' - (s + m'))) by ring. eapply Rle_trans; [apply Rabs_triang|].
    assert (AT2 : Rabs (T + P') <= 1 + / 1000).
    { replace (T + P') with ((T + P' - (s + m')) + (s + m')) by ring. eapply Rle_trans; [apply Rabs_triang|]. rewrite (Rabs_pos_eq (s + m')) by lra.
      assert (al (S k) * (s + m') <= / 1048576 * 1) by (apply Rmult_le_compat; lra). lra. }
    assert (u * Rabs (T + P') <= u * (1 + / 1000)) by (apply Rmult_le_compat_l; lra).
    assert (BE : beta' <= u / 4). { rewrite S_INR in Q2. assert (2 * (INR k + 1) * eta <= 2097152 * (u / 1048576 / 1048576)) by (apply Rmult_le_compat; lra). lra. }
    rewrite S_INR. lra.
Qed.
(** the sums approximate the distribution function *)
Lemma core_sum k : (k <= K)%nat -> number (Td k) /\ Rabs (real (Td k) - upto mass k) <= (c0 + 2 + (c + 4) * INR k) * u.
Proof.
  intros L. destruct (core k L) as (_ & N & _ & H). split; [exact N|]. eapply Rle_trans; [exact H|].
  pose proof (SUM k). pose proof (al_bound k L). assert (al k * upto mass k <= al k * 1) by (apply Rmult_le_compat_l; lra).
  unfold al in *. lra.
Qed.
End Core.
