(** The discrete samplers in binary64: draws for which the loops never return. *)
From Coq Require Import Reals Lra Floats.SpecFloat.
From Flocq Require Import Core Mult_error Plus_error IEEE754.BinarySingleNaN.
From Verif Require Import Base Float FloatProofs NumModel RandModel RandSpec RandProofs RandDoubleProofs.
Local Open Scope Z_scope.

Lemma dof_int k : 1 <= k <= int32_max -> dvalid (dof k) = true /\ dfinite (dof k) = true /\ (1 <= real (dof k) <= bpow radix2 31)%R.
Proof.
  intros K. assert (B : (1 <= rnd (IZR k) <= bpow radix2 31)%R).
  { split; [apply rnd_int_1; lia|]. rewrite <- (rnd_pow 31) by lia. apply rnd_le. rewrite big_IZR by lia. apply IZR_le. unfold int32_max in K. lia. }
  destruct (dmake_spec k 0) as [V S]. unfold dof. rewrite Rmult_1_r in S. rewrite (small_not_big _ (bpow radix2 31)) in S.
  - destruct S as [E F]. rewrite E. tauto.
  - rewrite Rabs_pos_eq; lra.
  - apply bpow_lt. lia.
Qed.
Lemma valid_lt_big x : dvalid x = true -> dfinite x = true -> (Rabs (real x) < big)%R.
Proof. intros V F. destruct (to_bf x V) as [b ->]. rewrite real_bf. apply abs_B2R_lt_emax. Qed.
Lemma ddiv_finite x k : dvalid x = true -> dfinite x = true -> 1 <= k <= int32_max -> dvalid (ddiv x (dof k)) = true /\ dfinite (ddiv x (dof k)) = true.
Proof.
  intros V F K. destruct (dof_int k K) as (Vk & Fk & Bk). destruct (ddiv_spec x (dof k)) as [Vd S]; try assumption; [lra|].
  assert (I : (0 < / real (dof k) <= 1)%R).
  { split; [apply Rinv_0_lt_compat; lra|]. rewrite <- Rinv_1. apply Rinv_le; lra. }
  assert (A : (Rabs (real x / real (dof k)) <= Rabs (real x))%R).
  { unfold Rdiv. rewrite Rabs_mult, (Rabs_pos_eq (/ _)) by lra. pose proof (Rabs_pos (real x)). nra. }
  rewrite (small_not_big _ (Rabs (real x))) in S; [tauto| |apply valid_lt_big; assumption].
  unfold rnd. apply abs_round_le_generic; try typeclasses eauto; [|exact A].
  apply generic_format_abs. destruct (to_bf x V) as [c ->]. rewrite real_bf. apply generic_format_B2R.
Qed.
Lemma dmul_int_finite p k : dvalid p = true -> dfinite p = true -> (Rabs (real p) <= 1)%R -> 1 <= k <= int32_max ->
  dvalid (dmul p (dof k)) = true /\ dfinite (dmul p (dof k)) = true.
Proof.
  intros V F P K. destruct (dof_int k K) as (Vk & Fk & Bk). destruct (dmul_spec p (dof k)) as [Vd S]; try assumption.
  assert (A : (Rabs (real p * real (dof k)) <= bpow radix2 31)%R).
  { rewrite Rabs_mult, (Rabs_pos_eq (real (dof k))) by lra. pose proof (Rabs_pos (real p)). nra. }
  rewrite (small_not_big _ (bpow radix2 31)) in S; [tauto| |apply bpow_lt; lia].
  unfold rnd. apply abs_round_le_generic; try typeclasses eauto; [|exact A].
  apply generic_format_bpow. unfold SpecFloat.fexp, SpecFloat.emin. lia.
Qed.
(** adding a zero changes nothing a comparison sees; a zero times a finite number is a zero *)
Lemma dleb_add_zero t s r : dleb (dadd t (S754_zero s)) r = dleb t r.
Proof. destruct t as [t|t| |t m e], s; try reflexivity; destruct t; reflexivity. Qed.
Lemma dmul_zero s y : dfinite y = true -> exists s', dmul (S754_zero s) y = S754_zero s'.
Proof. destruct y; try discriminate; cbn; eauto. Qed.

Definition stuck (o : outcome Z) : Prop := o = Fuel \/ o = UB.
Section Stuck.
Context (pow : double -> Z -> double) (rnd : double).
Lemma poisson_stuck lambda : dvalid lambda = true -> dfinite lambda = true -> forall fuel k s t, 0 <= k <= int32_max -> dleb t rnd = true ->
  stuck (poisson_loop (binary64 pow) fuel lambda rnd k (S754_zero s) t) /\
  (int32_max - k < Z.of_nat fuel -> poisson_loop (binary64 pow) fuel lambda rnd k (S754_zero s) t = UB).
Proof.
  intros V F. induction fuel as [|fuel IH]; intros k s t K T; cbn [poisson_loop]; [split; [now left|lia]|].
  cbn [geb binary64]. rewrite T. destruct (Z.eq_dec k int32_max) as [-> | N].
  - rewrite chk_ub by lia. cbn [bind]. split; [now right|reflexivity].
  - rewrite chk_ok by lia. cbn [bind mul add div of_int binary64].
    destruct (dmul_zero s (ddiv lambda (dof (k + 1)))) as [s' ->]; [apply ddiv_finite; try assumption; lia|].
    destruct (IH (k + 1) s' (dadd t (S754_zero s'))) as [H1 H2]; [lia|rewrite dleb_add_zero; assumption|].
    split; [exact H1|]. intros L. apply H2. lia.
Qed.
Lemma negbin_stuck r q : dvalid q = true -> dfinite q = true -> (Rabs (real q) <= 1)%R -> 1 <= r <= int32_max ->
  forall fuel k s t, 0 <= k <= int32_max -> dleb t rnd = true ->
  stuck (negbin_loop (binary64 pow) fuel r q rnd k (S754_zero s) t) /\
  (int32_max - k < Z.of_nat fuel -> negbin_loop (binary64 pow) fuel r q rnd k (S754_zero s) t = UB).
Proof.
  intros V F P R. induction fuel as [|fuel IH]; intros k s t K T; cbn [negbin_loop]; [split; [now left|lia]|].
  cbn [geb binary64]. rewrite T. destruct (Z.eq_dec k int32_max) as [-> | N].
  - rewrite chk_ub by lia. cbn [bind]. split; [now right|reflexivity].
  - rewrite chk_ok by lia. cbn [bind]. destruct (Z.leb_spec (r + (k + 1)) int32_max) as [L|L].
    + rewrite chk_ok by lia. cbn [bind mul add div of_int binary64].
      destruct (dmul_int_finite q (r + (k + 1) - 1)) as [Vm Fm]; try assumption; [lia|].
      destruct (dmul_zero s (ddiv (dmul q (dof (r + (k + 1) - 1))) (dof (k + 1)))) as [s' ->]; [apply ddiv_finite; try assumption; lia|].
      destruct (IH (k + 1) s' (dadd t (S754_zero s'))) as [H1 H2]; [lia|rewrite dleb_add_zero; assumption|].
      split; [exact H1|]. intros L'. apply H2. lia.
    + rewrite chk_ub by lia. cbn [bind]. split; [now right|reflexivity].
Qed.
(** running some iterations *)
Fixpoint negbin_steps (n : nat) (r : Z) (q : double) (st : Z * double * double) : option (Z * double * double) :=
  match n with
  | O => Some st
  | S n =>
      let '(k, pr, th) := st in
      if dleb th rnd && (k + 1 <=? int32_max) && (r + (k + 1) <=? int32_max) then
        let pr := dmul pr (ddiv (dmul q (dof (r + (k + 1) - 1))) (dof (k + 1))) in negbin_steps n r q (k + 1, pr, dadd th pr)
      else None
  end.
Lemma negbin_steps_ok n r q : 1 <= r -> forall k pr th k' pr' th' fuel, 0 <= k ->
  negbin_steps n r q (k, pr, th) = Some (k', pr', th') ->
  negbin_loop (binary64 pow) (n + fuel) r q rnd k pr th = negbin_loop (binary64 pow) fuel r q rnd k' pr' th' /\
  (forall f, (f <= n)%nat -> stuck (negbin_loop (binary64 pow) f r q rnd k pr th)).
Proof.
  intros R. induction n as [|n IH]; intros k pr th k' pr' th' fuel K H; cbn [negbin_steps] in H.
  - injection H as -> -> ->. split; [reflexivity|]. intros f Lf. replace f with 0%nat by lia. now left.
  - destruct (dleb th rnd) eqn:T; [|discriminate]. destruct (Z.leb_spec (k + 1) int32_max) as [L1|]; [|discriminate].
    destruct (Z.leb_spec (r + (k + 1)) int32_max) as [L2|]; [|discriminate]. cbn [andb] in H. cbv zeta in H.
    apply (IH _ _ _ _ _ _ fuel) in H; [|lia]. destruct H as [H1 H2]. split.
    + cbn [Nat.add negbin_loop geb binary64]. rewrite T, chk_ok by lia. cbn [bind]. rewrite chk_ok by lia. cbn [bind]. exact H1.
    + intros [|f] Lf; [now left|]. cbn [negbin_loop geb binary64]. rewrite T, chk_ok by lia. cbn [bind]. rewrite chk_ok by lia. cbn [bind]. apply H2. lia.
Qed.
End Stuck.
Lemma real_inj x y : dvalid x = true -> dvalid y = true -> dfinite x = true -> dfinite y = true -> real x <> 0%R -> real x = real y -> x = y.
Proof.
  intros Vx Vy. destruct (to_bf x Vx) as [a ->], (to_bf y Vy) as [b ->]. rewrite !finite_bf, !real_bf. intros Fx Fy N E. f_equal.
  assert (St : forall b : bf, is_finite b = true -> B2R b <> 0%R -> is_finite_strict b = true).
  { intros [ | | | ]; cbn; try congruence; tauto. }
  apply B2R_inj; [now apply St|apply St; congruence|assumption].
Qed.
Lemma draw_one x r : output x -> nextDouble x = Ok r -> (r = done <-> 18446744073709550592 <= x).
Proof.
  intros X H. destruct (nextDouble_spec x X) as (r' & H' & V & F & E & _). assert (r' = r) as -> by congruence.
  destruct (unit_spec x X) as (_ & _ & E' & _). rewrite <- (unit_one x X), E', <- E. destruct valid_one. split.
  - intros ->. apply real_one.
  - intros O. apply real_inj; try assumption; [lra|]. rewrite O. symmetry. apply real_one.
Qed.
Lemma real_half : real (dmake 1 (-1)) = (/ 2)%R.
Proof.
  assert (D : dmake 1 (-1) = S754_finite false 4503599627370496 (-53)) by (vm_compute; reflexivity). rewrite D. unfold real, SF2R, F2R. cbn [Fnum Fexp cond_Zopp].
  change (-53) with (- (53)). rewrite bpow_opp, big_IZR by lia. change (2 ^ 53) with 9007199254740992. field.
Qed.
Lemma stuck_at_one_half pow f : stuck (negbin_loop (binary64 pow) f 1 (dmake 1 (-1)) done 0 (dmake 1 (-1)) (dmake 1 (-1))).
Proof.
  pose (n := 1100%nat).
  assert (S : negbin_steps done n 1 (dmake 1 (-1)) (0, dmake 1 (-1), dmake 1 (-1)) = Some (1100, S754_zero false, done)) by (vm_compute; reflexivity).
  destruct (Nat.le_gt_cases f n) as [L|L].
  - apply (negbin_steps_ok pow done n 1 _ ltac:(lia) 0 _ _ _ _ _ 0%nat ltac:(lia) S); assumption.
  - destruct (negbin_steps_ok pow done n 1 _ ltac:(lia) 0 _ _ _ _ _ (f - n) ltac:(lia) S) as [E _].
    replace (n + (f - n))%nat with f in E by lia. rewrite E. apply negbin_stuck; try (vm_compute; reflexivity); try (unfold int32_max; lia).
    rewrite real_half, Rabs_pos_eq; lra.
Qed.

(** 1 - u for a draw u < 1 *)
Lemma one_minus u : dvalid u = true -> dfinite u = true -> (0 <= real u <= 1)%R -> u <> done ->
  dvalid (dsub done u) = true /\ dfinite (dsub done u) = true /\ (0 < real (dsub done u) <= 1)%R.
Proof.
  intros V F B N. destruct valid_one as [V1 F1].
  assert (L : (real u < 1)%R).
  { destruct (Req_dec (real u) 1) as [E|E]; [|lra]. exfalso. apply N. apply real_inj; try assumption; [intro; lra|]. now rewrite real_one. }
  assert (O : rnd 1 = 1%R) by (apply (rnd_pow 0); lia).
  assert (R : (0 <= rnd (1 - real u) <= 1)%R) by (split; [apply rnd_nonneg; lra|rewrite <- O; apply rnd_le; lra]).
  destruct (dsub_spec done u) as [Vd S]; try assumption. rewrite real_one in S. rewrite (small_not_big _ 1) in S.
  - destruct S as [E Fd]. rewrite E. split; [assumption|]. split; [assumption|]. split; [|lra].
    destruct (Rle_lt_or_eq_dec 0 (rnd (1 - real u))) as [|Z]; [lra|assumption|]. exfalso.
    assert (H : (1 - real u <> 0)%R) by lra. apply H.
    destruct (to_bf done V1) as [a Ea], (to_bf u V) as [b Eb]. rewrite <- real_one in *. rewrite Ea, Eb, !real_bf in *.
    assert (Ga : generic_format radix2 (FLT_exp (-1074) 53) (B2R a)) by apply (generic_format_B2R 53 1024).
    assert (Gb : generic_format radix2 (FLT_exp (-1074) 53) (B2R b)) by apply (generic_format_B2R 53 1024).
    destruct (Req_dec (B2R a - B2R b) 0) as [|NZ]; [assumption|]. exfalso.
    apply (round_plus_neq_0 radix2 (FLT_exp (-1074) 53) ZnearestE (B2R a) (- B2R b)); [exact Ga|now apply generic_format_opp|exact NZ|].
    symmetry. exact Z.
  - rewrite Rabs_pos_eq; lra.
  - change 1%R with (bpow radix2 0). apply bpow_lt. lia.
Qed.
Lemma gamma_tail theta l : dvalid theta = true -> dfinite theta = true -> (0 < real theta <= IZR (2 ^ 1000))%R ->
  dvalid l = true -> dfinite l = true -> (-1000 <= real l <= 0)%R ->
  dfinite (dmul theta (dneg (dadd dzero l))) = true /\ (0 <= real (dmul theta (dneg (dadd dzero l))))%R.
Proof.
  intros Vt Ft Bt Vl Fl Bl.
  destruct (dadd_spec dzero l) as [Va S]; try assumption; try reflexivity. rewrite real_zero, Rplus_0_l, (rnd_real l) in S by assumption.
  rewrite Rlt_bool_true in S by (apply valid_lt_big; assumption). destruct S as [Ea Fa]. set (a := dadd dzero l) in *. clearbody a.
  assert (Vn : dvalid (dneg a) = true) by (destruct a; exact Va). assert (Fn : dfinite (dneg a) = true) by (destruct a; exact Fa).
  assert (En : real (dneg a) = (- real l)%R).
  { rewrite <- Ea. destruct a as [s|s| |s m e]; try discriminate; cbn; [now rewrite Ropp_0|]. unfold real, SF2R. rewrite <- F2R_Zopp. now destruct s. }
  destruct (dmul_spec theta (dneg a)) as [Vm S]; try assumption. rewrite En in S.
  assert (B : (0 <= real theta * - real l <= bpow radix2 1010)%R).
  { split; [apply Rmult_le_pos; lra|]. rewrite <- big_IZR in Bt by lia. replace 1010 with (1000 + 10) by reflexivity. rewrite bpow_plus.
    apply Rmult_le_compat; try lra. change (bpow radix2 10) with 1024%R. lra. }
  assert (R : (0 <= rnd (real theta * - real l) <= bpow radix2 1010)%R).
  { split; [apply rnd_nonneg; lra|]. rewrite <- (rnd_pow 1010) by lia. apply rnd_le. lra. }
  rewrite (small_not_big _ (bpow radix2 1010)) in S; [destruct S as [-> ->]; split; [reflexivity|lra]|rewrite Rabs_pos_eq; lra|apply bpow_lt; lia].
Qed.
