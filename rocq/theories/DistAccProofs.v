(** Accuracy of the computed getter and of the t samples. *)
From Coq Require Import Reals Lra Psatz Floats.SpecFloat.
From Flocq Require Import Core.
From Verif Require Import Base Float FloatProofs StatProofs NumModel RandModel RandSpec RandDoubleProofs RandSamplerProofs DistModel DistNumSpec DistNumProofs.
Local Open Scope R_scope.

Lemma u_small : 0 < u <= / 1024.
Proof. rewrite u_val. split; [apply Rinv_0_lt_compat, IZR_lt; lia|]. apply Rinv_le; [lra|]. apply IZR_le. lia. Qed.
Lemma u4 : bpow radix2 (-51) = 4 * u.
Proof. unfold u. change (-51)%Z with (2 + -53)%Z. rewrite bpow_plus. change (bpow radix2 2) with 4. reflexivity. Qed.
Lemma rnd_factor x : bpow radix2 (-1022) <= Rabs x -> exists e, Rabs e <= u /\ rnd x = x * (1 + e).
Proof.
  intros H. assert (N : x <> 0). { intros ->. rewrite Rabs_R0 in H. pose proof (bpow_gt_0 radix2 (-1022)). lra. }
  exists ((rnd x - x) / x). split; [|field; assumption]. unfold Rdiv. rewrite Rabs_mult, Rabs_inv. apply (Rmult_le_reg_r (Rabs x)); [now apply Rabs_pos_lt|].
  rewrite Rmult_assoc, Rinv_l by (now apply Rabs_no_R0). rewrite Rmult_1_r. now apply rnd_rel.
Qed.
Lemma lambda_accuracy l : number l -> bpow radix2 (-1000) <= real l <= bpow radix2 1000 ->
  number (exponential_lambda (ddiv done l)) /\ Rabs (real (exponential_lambda (ddiv done l)) - real l) <= bpow radix2 (-51) * real l.
Proof.
  intros [V F] [L H]. assert (P : 0 < real l) by (pose proof (bpow_gt_0 radix2 (-1000)); lra). pose proof u_small as US.
  assert (B1 : / real l <= bpow radix2 1000).
  { replace (bpow radix2 1000) with (/ bpow radix2 (-1000)) by (rewrite <- bpow_opp; reflexivity). apply Rinv_le; [apply bpow_gt_0|assumption]. }
  assert (B2 : bpow radix2 (-1000) <= / real l) by (change (-1000)%Z with (- (1000))%Z; rewrite bpow_opp; apply Rinv_le; assumption).
  assert (P' : 0 < / real l) by (now apply Rinv_0_lt_compat).
  assert (E1 : real done / real l = / real l) by (rewrite real_one; unfold Rdiv; ring).
  destruct (ddiv_ok done l 1000 eq_refl V eq_refl ltac:(lra) ltac:(lia)) as (V1 & F1 & R1). { rewrite E1, Rabs_pos_eq by lra. assumption. }
  rewrite E1 in R1. destruct (rnd_factor (/ real l)) as (e1 & A1 & Q1). { rewrite Rabs_pos_eq by lra. apply Rle_trans with (bpow radix2 (-1000)); [apply bpow_le; lia|assumption]. }
  rewrite Q1 in R1. apply Rabs_le_inv in A1. set (th := ddiv done l) in *.
  assert (Pt : 0 < real th) by (rewrite R1; apply Rmult_lt_0_compat; lra).
  assert (E2 : real done / real th = real l * / (1 + e1)). { rewrite real_one, R1. field. split; lra. }
  assert (I1 : / 2 <= / (1 + e1) <= 2).
  { split; [apply Rinv_le; lra|]. replace 2 with (/ / 2) by field. apply Rinv_le; lra. }
  assert (P2 : 0 < real l * / (1 + e1)) by (apply Rmult_lt_0_compat; lra).
  unfold exponential_lambda. destruct (ddiv_ok done th 1001 eq_refl V1 eq_refl ltac:(lra) ltac:(lia)) as (V2 & F2 & R2).
  { rewrite E2, Rabs_pos_eq by lra. change 1001%Z with (1000 + 1)%Z. rewrite bpow_plus. change (bpow radix2 1) with 2. nra. }
  split; [split; assumption|]. rewrite R2, E2. destruct (rnd_factor (real l * / (1 + e1))) as (e2 & A2 & Q2).
  { rewrite Rabs_pos_eq by lra. apply Rle_trans with (bpow radix2 (-1000) * / 2); [|nra]. replace (/ 2) with (bpow radix2 (-1)) by reflexivity. rewrite <- bpow_plus. apply bpow_le. lia. }
  rewrite Q2. apply Rabs_le_inv in A2. rewrite u4.
  replace (real l * / (1 + e1) * (1 + e2) - real l) with (real l * ((e2 - e1) * / (1 + e1))) by (field; lra).
  rewrite Rabs_mult, (Rabs_pos_eq (real l)) by lra. rewrite Rmult_comm. apply Rmult_le_compat_r; [lra|]. rewrite Rabs_mult, (Rabs_pos_eq (/ (1 + e1))) by lra.
  assert (Rabs (e2 - e1) <= 2 * u) by (apply Rabs_le; lra). pose proof (Rabs_pos (e2 - e1)). nra.
Qed.

(** z * sqrt (r / c) in binary64 *)
Lemma student_value z r c : number z -> number r -> number c -> 0 < real r -> 0 < real c ->
  bpow radix2 (-500) <= real r / real c <= bpow radix2 500 -> Rabs (real z) <= bpow radix2 500 ->
  number (dmul z (dsqrt (ddiv r c))) /\
  Rabs (real (dmul z (dsqrt (ddiv r c))) - real z * sqrt (real r / real c)) <= bpow radix2 (-51) * (Rabs (real z) * sqrt (real r / real c)) + bpow radix2 (-1075).
Proof.
  intros [Vz Fz] [Vr Fr] [Vc Fc] Pr Pc [L H] Bz. pose proof u_small as US. set (q := real r / real c) in *.
  assert (Pq : 0 < q) by (pose proof (bpow_gt_0 radix2 (-500)); lra).
  destruct (ddiv_ok r c 500 Vr Vc Fr ltac:(lra) ltac:(lia)) as (V1 & F1 & R1). { fold q. rewrite Rabs_pos_eq by lra. assumption. }
  fold q in R1. destruct (rnd_factor q) as (e1 & A1 & Q1). { rewrite Rabs_pos_eq by lra. apply Rle_trans with (bpow radix2 (-500)); [apply bpow_le; lia|assumption]. }
  rewrite Q1 in R1. apply Rabs_le_inv in A1. set (d := ddiv r c) in *.
  assert (Pd : 0 < real d) by (rewrite R1; apply Rmult_lt_0_compat; lra).
  destruct (dsqrt_spec d V1 F1 ltac:(lra)) as (V2 & F2 & R2). rewrite R1, sqrt_mult in R2 by lra.
  set (s := sqrt q) in *. assert (Ps : 0 < s) by (apply sqrt_lt_R0; lra).
  assert (S1 : 1 - u <= sqrt (1 + e1) <= 1 + u).
  { split; [rewrite <- (sqrt_Rsqr (1 - u)) by lra|rewrite <- (sqrt_Rsqr (1 + u)) by lra]; apply sqrt_le_1_alt; unfold Rsqr; nra. }
  assert (Ls : bpow radix2 (-250) <= s). { unfold s. rewrite <- (sqrt_Rsqr (bpow radix2 (-250))) by apply bpow_ge_0. apply sqrt_le_1_alt. unfold Rsqr. rewrite <- bpow_plus. exact L. }
  assert (Hs : s <= bpow radix2 250). { unfold s. rewrite <- (sqrt_Rsqr (bpow radix2 250)) by apply bpow_ge_0. apply sqrt_le_1_alt. unfold Rsqr. rewrite <- bpow_plus. exact H. }
  assert (Pq1 : 0 < s * sqrt (1 + e1)) by (apply Rmult_lt_0_compat; lra).
  destruct (rnd_factor (s * sqrt (1 + e1))) as (e2 & A2 & Q2).
  { rewrite Rabs_pos_eq by lra. apply Rle_trans with (bpow radix2 (-250) * / 2); [|apply Rmult_le_compat; lra || (pose proof (bpow_gt_0 radix2 (-250)); lra)]. replace (/ 2) with (bpow radix2 (-1)) by reflexivity. rewrite <- bpow_plus. apply bpow_le. lia. }
  rewrite Q2 in R2. apply Rabs_le_inv in A2. set (w := dsqrt d) in *. set (g := sqrt (1 + e1)) in *. clearbody g.
  set (f := g * (1 + e2)). assert (Rw : real w = s * f) by (rewrite R2; unfold f; ring).
  assert (Hf : 1 - 2 * u <= f <= 1 + 2 * u + u * u) by (unfold f; nra).
  assert (Bw : Rabs (real z * real w) <= bpow radix2 752).
  { rewrite Rw, Rabs_mult, (Rabs_pos_eq (s * f)) by nra. change 752%Z with (500 + (250 + 2))%Z. rewrite !bpow_plus. change (bpow radix2 2) with 4. apply Rmult_le_compat; [apply Rabs_pos|nra|assumption|]. apply Rmult_le_compat; nra. }
  destruct (dmul_ok z w 752 Vz V2 Fz F2 ltac:(lia) Bw) as (V3 & F3 & R3). split; [split; assumption|].
  rewrite R3. pose proof (rnd_err (real z * real w)) as E3. set (eta := bpow radix2 (-1075)) in *. rewrite Rw in *.
  replace (rnd (real z * (s * f)) - real z * s) with ((rnd (real z * (s * f)) - real z * (s * f)) + real z * s * (f - 1)) by ring.
  eapply Rle_trans; [apply Rabs_triang|]. rewrite (Rabs_mult (real z) (s * f)), (Rabs_pos_eq (s * f)) in E3 by nra.
  rewrite (Rabs_mult (real z * s)), (Rabs_mult (real z) s), (Rabs_pos_eq s) by lra.
  assert (Rabs (f - 1) <= 2 * u + u * u) by (apply Rabs_le; nra).
  rewrite u4. pose proof (Rabs_pos (real z)) as Az. set (a := Rabs (real z)) in *. set (t := Rabs (f - 1)) in *. set (h := Rabs (rnd (real z * (s * f)) - real z * (s * f))) in *.
  assert (0 <= a * s) by nra. assert (u * (a * (s * f)) <= (a * s) * (u * (1 + 2 * u + u * u))) by (replace (u * (a * (s * f))) with (a * s * (u * f)) by ring; apply Rmult_le_compat_l; [assumption|]; apply Rmult_le_compat_l; lra). assert (a * s * t <= (a * s) * (2 * u + u * u)) by (apply Rmult_le_compat_l; assumption).
  assert (X : u * (1 + 2 * u + u * u) + (2 * u + u * u) <= 4 * u) by nra. apply (Rmult_le_compat_l (a * s)) in X; [|assumption].
  rewrite Rmult_plus_distr_l in X. set (X1 := a * s * (u * (1 + 2 * u + u * u))) in *. set (X2 := a * s * (2 * u + u * u)) in *. set (X3 := u * (a * (s * f))) in *. set (X4 := a * s * t) in *. replace (4 * u * (a * s)) with (a * s * (4 * u)) by ring. lra.
Qed.
Lemma student_compose {G} (E : engine G) log exp pow fuel r g z sp c g1 g2 : number r -> bpow radix2 (-1021) <= real r ->
  (normal_next E log fuel dzero done (false, dzero) g = Ok (z, sp, g1) -> gamma_draw E log exp pow fuel (ddiv r (dof 2)) (dof 2) g1 = Ok (c, g2) ->
     student_draw E log exp pow true fuel r g = Ok (dmul z (dsqrt (ddiv r c)), g2)) /\
  (gamma_draw E log exp pow fuel (ddiv r (dof 2)) (dof 2) g = Ok (c, g1) -> normal_next E log fuel dzero done (false, dzero) g1 = Ok (z, sp, g2) ->
     student_draw E log exp pow false fuel r g = Ok (dmul z (dsqrt (ddiv r c)), g2)).
Proof.
  intros N L. assert (I : gamma_init (ddiv r (dof 2)) (dof 2) = Ok (ddiv r (dof 2), dof 2)).
  { unfold gamma_init. assert (C : dleb (ddiv r (dof 2)) dzero = false).
    { apply chi_check; [assumption|]. pose proof (bpow_gt_0 radix2 (-1021)). split; [lra|]. intros ->.
      change (dmake 1 (-1074)) with (S754_finite false 1 (-1074)) in L. assert (Q : real (S754_finite false 1 (-1074)) = bpow radix2 (-1074)) by (unfold real; simpl; unfold F2R; simpl; ring).
      rewrite Q in L. apply le_bpow in L. lia. }
    rewrite C. reflexivity. }
  unfold student_draw. rewrite I. cbn [bind]. split; intros -> H; cbn [bind]; rewrite H; reflexivity.
Qed.
