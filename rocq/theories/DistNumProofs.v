From Coq Require Import Reals Lra Floats.SpecFloat Psatz.
From Flocq Require Import Core IEEE754.BinarySingleNaN.
From Verif Require Import Base Float FloatProofs NumModel NumBinProofs RandModel RandSpec RandDoubleProofs RandSamplerProofs StatProofs DistModel DistNumSpec.
Local Open Scope Z_scope.

(** signs *)
Lemma finite_exp s m e : dvalid (S754_finite s m e) = true -> -1074 <= e.
Proof.
  intros H. unfold dvalid, valid_binary, SpecFloat.bounded in H. apply andb_prop in H. destruct H as [H _]. unfold canonical_mantissa in H. apply Zeq_bool_eq in H.
  unfold SpecFloat.fexp, SpecFloat.emin in H. lia.
Qed.
Lemma real_finite s m e : real (S754_finite s m e) = (IZR (if s then Z.neg m else Z.pos m) * bpow radix2 e)%R.
Proof. unfold real, SF2R, F2R. cbn [Fnum Fexp]. now destruct s. Qed.
Lemma real_sign m e : (0 < real (S754_finite false m e))%R /\ (real (S754_finite true m e) < 0)%R.
Proof. split; [apply F2R_gt_0|apply F2R_lt_0]; reflexivity. Qed.
Lemma deqb_zero x : dvalid x = true -> dfinite x = true -> deqb x dzero = Req_bool (real x) 0.
Proof.
  intros V F. destruct x as [s|s| |s m e]; try discriminate.
  - change (real (S754_zero s)) with 0%R. rewrite Req_bool_true by reflexivity. now destruct s.
  - destruct (real_sign m e) as [P N]. rewrite Req_bool_false by (destruct s; lra). now destruct s.
Qed.
Lemma ddiv_inf x y s : dvalid x = true -> dvalid y = true -> dfinite x = true -> real y <> 0%R -> ddiv x y = S754_infinity s ->
  (0 < real x)%R -> (s = false <-> (0 < real y)%R).
Proof.
  intros Vx Vy. destruct (to_bf x Vx) as [a ->], (to_bf y Vy) as [b ->]. rewrite !finite_bf, div_equiv, !real_bf. intros Fx N D P.
  pose proof (Bdiv_correct _ _ Hprec Hmax mode_NE a b N) as H. unfold Bdiv in D. destruct (Rlt_bool _ _).
  - destruct H as (_ & H & _). rewrite Fx in H. fold (Bdiv mode_NE a b) in D. change (@Bdiv 53 1024 Hprec Hmax mode_NE a b) with (Bdiv mode_NE a b) in H.
    destruct (Bdiv mode_NE a b); cbn in D, H; discriminate.
  - fold (Bdiv mode_NE a b) in D. rewrite H in D. rewrite overflow_inf in D. injection D as <-.
    assert (Sx : Bsign a = false). { destruct a as [[]|[]| |[] m e B]; cbn in *; try reflexivity; try discriminate; try lra. exfalso. pose proof (F2R_lt_0 radix2 (Float radix2 (Z.neg m) e) eq_refl). lra. }
    rewrite Sx. destruct b as [sb|sb| |sb m e B]; cbn in *; try lra. destruct (real_sign m e) as [Q1 Q2]. unfold real, SF2R in Q1, Q2. cbn [cond_Zopp] in *. destruct sb; cbn in *; split; intros; try discriminate; try reflexivity; lra.
Qed.
Lemma real_2 : real (dof 2) = 2%R. Proof. now destruct (dof_exact 2 ltac:(lia)) as (_ & _ & ->). Qed.
Lemma number_2 : number (dof 2). Proof. destruct (dof_exact 2 ltac:(lia)) as (A & B & _). now split. Qed.
Lemma rnd_smallest_half : rnd (bpow radix2 (-1075)) = 0%R.
Proof.
  assert (V : dvalid (dmake 1 (-1074)) = true) by (vm_compute; reflexivity). assert (F : dfinite (dmake 1 (-1074)) = true) by (vm_compute; reflexivity).
  destruct number_2 as [V2 F2]. destruct (ddiv_spec (dmake 1 (-1074)) (dof 2) V V2 F) as [_ S]; [rewrite real_2; lra|]. rewrite real_2 in S.
  assert (E : real (dmake 1 (-1074)) = bpow radix2 (-1074)). { change (dmake 1 (-1074)) with (S754_finite false 1 (-1074)). rewrite real_finite. lra. }
  rewrite E in S. replace (bpow radix2 (-1074) / 2)%R with (bpow radix2 (-1075)) in S.
  - assert (B : (Rabs (rnd (bpow radix2 (-1075))) < big)%R). { eapply Rle_lt_trans; [apply (rnd_bound _ 0); [lia|]|apply pow_big; lia]. rewrite Rabs_pos_eq by apply bpow_ge_0. apply bpow_le. lia. }
    rewrite Rlt_bool_true in S by exact B. destruct S as [S _]. rewrite <- S. vm_compute ddiv. reflexivity.
  - change (-1074) with (1 + -1075). rewrite bpow_plus. change (bpow radix2 1) with 2%R. field.
Qed.
Lemma dvalid_le_pow x : dvalid x = true -> dfinite x = true -> (Rabs (real x) < bpow radix2 1024)%R.
Proof. intros V F. destruct (to_bf x V) as [b ->]. rewrite real_bf. apply abs_B2R_lt_emax. Qed.

(** the checks *)
Lemma leb_zero x : number x -> dleb x dzero = Rle_bool (real x) 0.
Proof. intros [V F]. now rewrite dleb_spec. Qed.
Lemma ltb_zero x : number x -> dltb x dzero = Rlt_bool (real x) 0.
Proof. intros [V F]. now rewrite dltb_spec. Qed.
Lemma one_ltb x : number x -> dltb done x = Rlt_bool 1 (real x).
Proof. intros [V F]. destruct valid_one. rewrite dltb_spec by assumption. now rewrite real_one. Qed.
Lemma gpow_not_err {A} (mul : A -> A -> A) fuel : forall b e r, gpow_loop mul fuel b e r <> Err.
Proof. induction fuel as [|f IH]; intros b e r; cbn; [discriminate|]. destruct (e =? 0); [discriminate|apply IH]. Qed.
Lemma table_not_err (pw : double -> Z -> double) n p q fuel : n <= int32_max -> forall i th, 0 <= i -> i + Z.of_nat fuel <= n -> binom_table (binary64 pw) fuel n p q i th <> Err.
Proof.
  intros N. induction fuel as [|f IH]; intros i th I L; cbn [binom_table]; [discriminate|]. rewrite binomial_spec by lia. unfold chk. destruct (inr I32 _); [|discriminate]. cbn [bind].
  match goal with |- omap _ (binom_table ?a f n p q (i + 1) ?t) <> Err => pose proof (IH (i + 1) t ltac:(lia) ltac:(lia)) as Q; destruct (binom_table a f n p q (i + 1) t); cbn; congruence end.
Qed.
Lemma le_iff a b : Rle_bool a b = true <-> (a <= b)%R.
Proof. destruct (Rle_bool_spec a b); split; intros; try discriminate; auto; lra. Qed.
Lemma lt_iff a b : Rlt_bool a b = true <-> (a < b)%R.
Proof. destruct (Rlt_bool_spec a b); split; intros; try discriminate; auto; lra. Qed.

Lemma exponential_check x : number x -> dleb (ddiv done x) dzero = false <-> ((0 < real x)%R \/ x = dzero).
Proof.
  intros [V F]. destruct valid_one as [V1 F1]. destruct x as [s|s| |s m e]; try discriminate.
  - change (real (S754_zero s)) with 0%R. destruct s; vm_compute ddiv; split; intros H; try discriminate; auto. destruct H as [H|H]; [lra|discriminate].
  - assert (NZ : real (S754_finite s m e) <> 0%R) by (destruct (real_sign m e); destruct s; lra).
    pose proof (dvalid_le_pow _ V F) as LE. set (x := S754_finite s m e) in *. assert (XD : x <> dzero) by discriminate.
    destruct (ddiv_spec done x V1 V F1 NZ) as [Vd S]. rewrite real_one in S. destruct (Rlt_bool _ _) eqn:B.
    + destruct S as [R Fd]. rewrite leb_zero by (now split). rewrite R. destruct (Rle_bool_spec (rnd (1 / real x)) 0) as [L|L]; split; intros H; try discriminate; try reflexivity.
      * exfalso. destruct H as [H|H]; [|contradiction]. assert (P : (bpow radix2 (-1024) <= 1 / real x)%R).
        { change (-1024) with (- (1024)). rewrite bpow_opp. unfold Rdiv. rewrite Rmult_1_l. apply Rinv_le; [exact H|]. rewrite Rabs_pos_eq in LE; lra. }
        apply rnd_le in P. rewrite rnd_pow in P by lia. pose proof (bpow_gt_0 radix2 (-1024)). lra.
      * left. destruct (Rle_lt_dec (real x) 0) as [Q|Q]; [|exact Q]. exfalso. assert (P : (1 / real x <= 0)%R) by (unfold Rdiv; rewrite Rmult_1_l; assert (/ real x < 0)%R by (apply Rinv_lt_0_compat; lra); lra).
        apply rnd_le in P. rewrite rnd_0 in P. lra.
    + destruct S as [b S]. pose proof (ddiv_inf done x b V1 V F1 NZ S ltac:(rewrite real_one; lra)) as I. rewrite S. destruct b; cbn.
      * split; [discriminate|]. intros [H|H]; [|contradiction]. exfalso. assert (true = false) by (apply I; exact H). discriminate.
      * split; [|reflexivity]. intros _. left. apply I. reflexivity.
Qed.
Lemma half_spec r : number r -> number (ddiv r (dof 2)) /\ real (ddiv r (dof 2)) = rnd (real r / 2).
Proof.
  intros [V F]. destruct number_2 as [V2 F2]. pose proof (dvalid_le_pow r V F) as LE.
  destruct (ddiv_ok r (dof 2) 1023 V V2 F) as (A & B & C); rewrite ?real_2 in *; try lra; try lia; [|now repeat split].
  unfold Rdiv. rewrite Rabs_mult, (Rabs_pos_eq (/ 2)) by lra. replace (bpow radix2 1024) with (bpow radix2 1023 * 2)%R in LE by (change 1024 with (1023 + 1); rewrite bpow_plus; reflexivity). lra.
Qed.
Lemma chi_check r : number r -> dleb (ddiv r (dof 2)) dzero = false <-> ((0 < real r)%R /\ r <> dmake 1 (-1074)).
Proof.
  intros N. destruct (half_spec r N) as [H E]. rewrite leb_zero by exact H. rewrite E. destruct N as [V F].
  destruct r as [s|s| |s m e]; try discriminate.
  - change (real (S754_zero s)) with 0%R. unfold Rdiv. rewrite Rmult_0_l, rnd_0, Rle_bool_true by lra. split; [discriminate|]. intros [? _]. lra.
  - pose proof (finite_exp s m e V) as EX. destruct (real_sign m e) as [P1 P2]. destruct s.
    + rewrite Rle_bool_true; [split; [discriminate|intros [? _]; lra]|]. rewrite <- rnd_0. apply rnd_le. lra.
    + assert (K : real (S754_finite false m e) = (IZR (Z.pos m * 2 ^ (e + 1074)) * bpow radix2 (-1074))%R).
      { rewrite real_finite, mult_IZR, <- big_IZR by lia. rewrite Rmult_assoc, <- bpow_plus. do 2 f_equal. lia. }
      assert (POS : 1 <= Z.pos m * 2 ^ (e + 1074)) by (pose proof (Z.pow_pos_nonneg 2 (e + 1074) ltac:(lia) ltac:(lia)); nia).
      change (dmake 1 (-1074)) with (S754_finite false 1 (-1074)).
      destruct (Z.eq_dec (Z.pos m * 2 ^ (e + 1074)) 1) as [O|O].
      * assert (ME : m = 1%positive /\ e = -1074).
        { destruct (Z.eq_dec e (-1074)) as [->|NE]; [rewrite Z.mul_1_r in O; split; [lia|reflexivity]|]. exfalso. assert (2 <= 2 ^ (e + 1074)) by (change 2 with (2 ^ 1) at 1; apply Z.pow_le_mono_r; lia). nia. }
        destruct ME as [-> ->]. rewrite K, O. replace (1 * bpow radix2 (-1074) / 2)%R with (bpow radix2 (-1075)) by (change (-1074) with (1 + -1075); rewrite bpow_plus; change (bpow radix2 1) with 2%R; field).
        rewrite rnd_smallest_half, Rle_bool_true by lra. split; [discriminate|]. intros [_ X]. now elim X.
      * assert (L : (bpow radix2 (-1074) <= real (S754_finite false m e) / 2)%R).
        { rewrite K. assert (2 <= IZR (Z.pos m * 2 ^ (e + 1074)))%R by (apply IZR_le; lia). pose proof (bpow_gt_0 radix2 (-1074)). nra. }
        apply rnd_le in L. rewrite rnd_pow in L by lia. pose proof (bpow_gt_0 radix2 (-1074)). rewrite Rle_bool_false by lra. split; [|reflexivity]. intros _. split; [exact P1|].
        intros X. injection X as -> ->. apply O. reflexivity.
Qed.

Lemma init_check exp pow p : proper p -> (init exp pow p = Err <-> ~ accepted p).
Proof.
  destruct p; cbn [proper accepted documented init]; intros P.
  - unfold bernoulli_init, B64. cbn [RandModel.ltb of_int binary64]. change (dof 0) with dzero. change (dof 1) with done. rewrite ltb_zero, one_ltb by exact P.
    destruct (Rlt_bool_spec (real p) 0); cbn; [split; [intros _; lra|reflexivity]|]. destruct (Rlt_bool_spec 1 (real p)); cbn; (split; [intros; try discriminate; lra|intros; try reflexivity; exfalso; lra]).
  - destruct (Z.leb_spec max min); split; intros; try discriminate; try reflexivity; lia.
  - destruct P as [[V1 F1] [V2 F2]]. rewrite dltb_spec by assumption. destruct (Rlt_bool_spec (real max) (real min)); split; intros; try discriminate; try reflexivity; lra.
  - rewrite leb_zero by apply P. destruct (Rle_bool_spec (real stddev) 0); split; intros; try discriminate; try reflexivity; lra.
  - unfold gamma_init. rewrite !leb_zero by apply P. destruct (Rle_bool_spec (real k) 0); cbn; [split; [intros _; lra|reflexivity]|]. destruct (Rle_bool_spec (real theta) 0); cbn; (split; [intros; try discriminate; lra|intros; try reflexivity; exfalso; lra]).
  - unfold gamma_init. change (dleb done dzero) with false. cbn [orb]. pose proof (exponential_check lambda P) as C. destruct (dleb (ddiv done lambda) dzero); cbn.
    + split; [|reflexivity]. intros _ A. apply C in A. discriminate.
    + split; [discriminate|]. intros A. elim A. now apply C.
  - unfold gamma_init. change (dleb (dof 2) dzero) with false. rewrite orb_false_r. pose proof (chi_check r P) as C. destruct (dleb (ddiv r (dof 2)) dzero); cbn.
    + split; [|reflexivity]. intros _ A. apply C in A. discriminate.
    + split; [discriminate|]. intros A. elim A. now apply C.
  - unfold student_init. rewrite leb_zero by exact P. destruct (Rle_bool_spec (real r) 0); cbn; split; intros; try discriminate; try reflexivity; lra.
  - destruct P as [R P]. unfold negbin_init, B64. cbn [RandModel.ltb geb of_int binary64]. change (dof 0) with dzero. change (dof 1) with done. rewrite leb_zero, one_ltb by exact P.
    destruct (Z.leb_spec r 0); cbn; [split; [intros _; lia|reflexivity]|]. destruct (Rle_bool_spec (real p) 0); cbn; [split; [intros _; lra|reflexivity]|]. destruct (Rlt_bool_spec 1 (real p)); cbn; [split; [intros _; lra|reflexivity]|].
    split; [|intros A; elim A; split; [lia|lra]]. intros X. exfalso.
    assert (Q : genericBinaryPow1 dmul done p r <> Err) by (unfold genericBinaryPow1; destruct (r =? 0); [discriminate|]; destruct (r =? 1); [discriminate|]; destruct (Z.ltb_spec r 0); [lia|apply gpow_not_err]).
    match type of X with context [genericBinaryPow1 ?m ?o p r] => change (genericBinaryPow1 m o p r) with (genericBinaryPow1 dmul done p r) in X end.
    destruct (genericBinaryPow1 dmul done p r); cbn in X; try discriminate; congruence.
  - unfold geometric_init, negbin_init, B64. cbn [RandModel.ltb geb of_int binary64 Z.leb Z.compare orb]. change (dof 0) with dzero. change (dof 1) with done. rewrite leb_zero, one_ltb by exact P.
    destruct (Rle_bool_spec (real p) 0); cbn; [split; [intros _; lra|reflexivity]|]. destruct (Rlt_bool_spec 1 (real p)); cbn; [split; [intros _; lra|reflexivity]|]. split; [discriminate|]. intros A. elim A. lra.
  - unfold poisson_init, B64. cbn [geb of_int binary64]. change (dof 0) with dzero. rewrite leb_zero by exact P. destruct (Rle_bool_spec (real lambda) 0); cbn; split; intros; try discriminate; try reflexivity; lra.
  - destruct P as [R P]. unfold binomial_init, B64. cbn [RandModel.ltb geb of_int binary64]. change (dof 0) with dzero. change (dof 1) with done. rewrite ltb_zero, one_ltb by exact P.
    destruct (Z.ltb_spec n 0); cbn; [split; [intros _; lia|reflexivity]|]. destruct (Rlt_bool_spec (real p) 0); cbn; [split; [intros _; lra|reflexivity]|]. destruct (Rlt_bool_spec 1 (real p)); cbn; [split; [intros _; lra|reflexivity]|].
    split; [|intros A; elim A; split; [lia|lra]]. intros X. exfalso. unfold chk32 in X. destruct (in_int32 (n + 1)); cbn in X; [|discriminate].
    match type of X with context [binom_table ?a ?b ?c ?d ?e ?f ?g] => pose proof (table_not_err (fun x i => pow x (dof i)) n d e b ltac:(unfold in_int32, int32_max in *; lia) 0 g ltac:(lia) ltac:(lia)) as Q; destruct (binom_table a b c d e f g); cbn in X; try discriminate; congruence end.
Qed.
