(** The real numbers behind doubles: every operation is the exact one followed by one rounding. *)
From Coq Require Import Reals Lra Floats.SpecFloat.
From Flocq Require Import Core IEEE754.BinarySingleNaN.
From Verif Require Import Base Float.
Local Open Scope Z_scope.

Lemma Hprec : Prec_gt_0 53. Proof. reflexivity. Qed.
Lemma Hmax : Prec_lt_emax 53 1024. Proof. reflexivity. Qed.
#[global] Existing Instance Hprec.
#[global] Existing Instance Hmax.
Notation fx := (SpecFloat.fexp 53 1024).
(** rounding to the nearest double (ties to even), ignoring overflow *)
Definition rnd (r : R) : R := round radix2 fx ZnearestE r.
(** the real number of a finite double *)
Definition real (x : double) : R := SF2R radix2 x.
Definition big : R := bpow radix2 1024.

Lemma round_nearest_even_equiv s m l : round_nearest_even m l = choice_mode mode_NE s m l.
Proof. destruct l as [|[]]; try reflexivity. simpl. unfold Round.cond_incr. now destruct (Z.even m). Qed.
Lemma round_aux_equiv sx mx ex lx : SpecFloat.binary_round_aux 53 1024 sx mx ex lx = binary_round_aux 53 1024 mode_NE sx mx ex lx.
Proof.
  unfold SpecFloat.binary_round_aux, binary_round_aux. destruct (shr_fexp _ _ _ _ _) as [mrs e]. now rewrite (round_nearest_even_equiv sx).
Qed.
Lemma round_equiv s m e : SpecFloat.binary_round 53 1024 s m e = binary_round 53 1024 mode_NE s m e.
Proof. unfold SpecFloat.binary_round, binary_round, shl_align_fexp. destruct (shl_align _ _ _) as [mz ez]. apply round_aux_equiv. Qed.
Lemma normalize_equiv m e z : SpecFloat.binary_normalize 53 1024 m e z = B2SF (binary_normalize 53 1024 Hprec Hmax mode_NE m e z).
Proof. destruct m as [|p|p]; [reflexivity| |]; simpl; rewrite B2SF_SF2B; apply round_equiv. Qed.

Notation B x H := (@SF2B 53 1024 x H).
Notation bf := (binary_float 53 1024).
Lemma add_equiv (x y : bf) : dadd (B2SF x) (B2SF y) = B2SF (Bplus mode_NE x y).
Proof.
  destruct x as [sx|sx| |sx mx ex Bx], y as [sy|sy| |sy my ey By];
    [now (trivial || simpl; destruct (Bool.eqb _ _)).. |]. apply normalize_equiv.
Qed.
Lemma sub_equiv (x y : bf) : dsub (B2SF x) (B2SF y) = B2SF (Bminus mode_NE x y).
Proof.
  destruct x as [sx|sx| |sx mx ex Bx], y as [sy|sy| |sy my ey By];
    [now (trivial || simpl; destruct (Bool.eqb _ _)).. |]. simpl. unfold Zminus. rewrite <- cond_Zopp_negb. apply normalize_equiv.
Qed.
Lemma mul_equiv (x y : bf) : dmul (B2SF x) (B2SF y) = B2SF (Bmult mode_NE x y).
Proof.
  destruct x as [sx|sx| |sx mx ex Bx], y as [sy|sy| |sy my ey By]; [now trivial.. |]. simpl. rewrite B2SF_SF2B. apply round_aux_equiv.
Qed.
Lemma div_equiv (x y : bf) : ddiv (B2SF x) (B2SF y) = B2SF (Bdiv mode_NE x y).
Proof.
  destruct x as [sx|sx| |sx mx ex Bx], y as [sy|sy| |sy my ey By]; [now (trivial || simpl; destruct (Bool.eqb _ _)).. |].
  simpl. rewrite B2SF_SF2B. destruct (SFdiv_core_binary _ _ _ _ _ _) as [[mz ez] lz]. apply round_aux_equiv.
Qed.

Lemma to_bf x : dvalid x = true -> exists b : bf, x = B2SF b.
Proof. intros H. exists (B x H). now rewrite B2SF_SF2B. Qed.
Lemma valid_bf (b : bf) : dvalid (B2SF b) = true. Proof. apply valid_binary_B2SF. Qed.
Lemma finite_bf (b : bf) : dfinite (B2SF b) = is_finite b. Proof. now destruct b. Qed.
Lemma real_bf (b : bf) : real (B2SF b) = B2R b. Proof. apply SF2R_B2SF. Qed.
Lemma overflow_inf s : binary_overflow 53 1024 mode_NE s = S754_infinity s. Proof. reflexivity. Qed.

(** addition, subtraction, multiplication, division of finite numbers *)
Lemma dadd_spec x y : dvalid x = true -> dvalid y = true -> dfinite x = true -> dfinite y = true ->
  dvalid (dadd x y) = true /\
  (if Rlt_bool (Rabs (rnd (real x + real y))) big then real (dadd x y) = rnd (real x + real y) /\ dfinite (dadd x y) = true
   else exists s, dadd x y = S754_infinity s).
Proof.
  intros Vx Vy. destruct (to_bf x Vx) as [a ->], (to_bf y Vy) as [b ->]. rewrite !finite_bf, add_equiv. intros Fx Fy.
  split; [apply valid_bf|]. pose proof (Bplus_correct _ _ _ _ mode_NE a b Fx Fy) as H. rewrite !real_bf, finite_bf. unfold rnd, big.
  change (round_mode mode_NE) with ZnearestE in H. destruct (Rlt_bool _ _).
  - destruct H as (H1 & H2 & _). auto.
  - destruct H as (H & _). rewrite H, overflow_inf. eauto.
Qed.
Lemma dsub_spec x y : dvalid x = true -> dvalid y = true -> dfinite x = true -> dfinite y = true ->
  dvalid (dsub x y) = true /\
  (if Rlt_bool (Rabs (rnd (real x - real y))) big then real (dsub x y) = rnd (real x - real y) /\ dfinite (dsub x y) = true
   else exists s, dsub x y = S754_infinity s).
Proof.
  intros Vx Vy. destruct (to_bf x Vx) as [a ->], (to_bf y Vy) as [b ->]. rewrite !finite_bf, sub_equiv. intros Fx Fy.
  split; [apply valid_bf|]. pose proof (Bminus_correct _ _ _ _ mode_NE a b Fx Fy) as H. rewrite !real_bf, finite_bf. unfold rnd, big.
  change (round_mode mode_NE) with ZnearestE in H. destruct (Rlt_bool _ _).
  - destruct H as (H1 & H2 & _). auto.
  - destruct H as (H & _). rewrite H, overflow_inf. eauto.
Qed.
Lemma dmul_spec x y : dvalid x = true -> dvalid y = true -> dfinite x = true -> dfinite y = true ->
  dvalid (dmul x y) = true /\
  (if Rlt_bool (Rabs (rnd (real x * real y))) big then real (dmul x y) = rnd (real x * real y) /\ dfinite (dmul x y) = true
   else exists s, dmul x y = S754_infinity s).
Proof.
  intros Vx Vy. destruct (to_bf x Vx) as [a ->], (to_bf y Vy) as [b ->]. rewrite !finite_bf, mul_equiv. intros Fx Fy.
  split; [apply valid_bf|]. pose proof (Bmult_correct _ _ _ _ mode_NE a b) as H. rewrite !real_bf, finite_bf. unfold rnd, big.
  change (round_mode mode_NE) with ZnearestE in H. destruct (Rlt_bool _ _).
  - destruct H as (H1 & H2 & _). rewrite H2, Fx, Fy. auto.
  - rewrite H, overflow_inf. eauto.
Qed.
Lemma ddiv_spec x y : dvalid x = true -> dvalid y = true -> dfinite x = true -> real y <> 0%R ->
  dvalid (ddiv x y) = true /\
  (if Rlt_bool (Rabs (rnd (real x / real y))) big then real (ddiv x y) = rnd (real x / real y) /\ dfinite (ddiv x y) = true
   else exists s, ddiv x y = S754_infinity s).
Proof.
  intros Vx Vy. destruct (to_bf x Vx) as [a ->], (to_bf y Vy) as [b ->]. rewrite !finite_bf, div_equiv, !real_bf. intros Fx Fy.
  split; [apply valid_bf|]. pose proof (Bdiv_correct _ _ _ _ mode_NE a b Fy) as H. rewrite finite_bf. unfold rnd, big.
  change (round_mode mode_NE) with ZnearestE in H. destruct (Rlt_bool _ _).
  - destruct H as (H1 & H2 & _). rewrite H2, Fx. auto.
  - rewrite H, overflow_inf. eauto.
Qed.
Lemma dmake_spec m e : dvalid (dmake m e) = true /\
  (if Rlt_bool (Rabs (rnd (IZR m * bpow radix2 e))) big then real (dmake m e) = rnd (IZR m * bpow radix2 e) /\ dfinite (dmake m e) = true
   else exists s, dmake m e = S754_infinity s).
Proof.
  unfold dmake. rewrite normalize_equiv. split; [apply valid_bf|].
  pose proof (binary_normalize_correct _ _ Hprec Hmax mode_NE m e false) as H. cbv zeta in H. rewrite real_bf, finite_bf. unfold rnd, big.
  change (round_mode mode_NE) with ZnearestE in H. unfold F2R in H. cbn [Fnum Fexp] in H. destruct (Rlt_bool _ _).
  - destruct H as (H1 & H2 & _). auto.
  - rewrite H, overflow_inf. eauto.
Qed.
(** comparisons of finite numbers *)
Lemma dltb_spec x y : dvalid x = true -> dvalid y = true -> dfinite x = true -> dfinite y = true ->
  dltb x y = Rlt_bool (real x) (real y).
Proof.
  intros Vx Vy. destruct (to_bf x Vx) as [a ->], (to_bf y Vy) as [b ->]. rewrite !finite_bf, !real_bf. intros Fx Fy.
  exact (Bltb_correct _ _ a b Fx Fy).
Qed.
Lemma dleb_spec x y : dvalid x = true -> dvalid y = true -> dfinite x = true -> dfinite y = true ->
  dleb x y = Rle_bool (real x) (real y).
Proof.
  intros Vx Vy. destruct (to_bf x Vx) as [a ->], (to_bf y Vy) as [b ->]. rewrite !finite_bf, !real_bf. intros Fx Fy.
  exact (Bleb_correct _ _ a b Fx Fy).
Qed.
(** facts about rounding *)
Lemma rnd_le a b : (a <= b)%R -> (rnd a <= rnd b)%R.
Proof. intros H. unfold rnd. apply round_le; try assumption; typeclasses eauto. Qed.
Lemma rnd_real x : dvalid x = true -> rnd (real x) = real x.
Proof.
  intros V. destruct (to_bf x V) as [b ->]. rewrite real_bf. unfold rnd. apply round_generic; [typeclasses eauto|]. apply generic_format_B2R.
Qed.
Lemma rnd_pow e : -1074 <= e -> rnd (bpow radix2 e) = bpow radix2 e.
Proof.
  intros H. unfold rnd. apply round_generic; [typeclasses eauto|]. apply generic_format_bpow. unfold SpecFloat.fexp, SpecFloat.emin. lia.
Qed.
Lemma rnd_0 : rnd 0 = 0%R.
Proof. unfold rnd. apply round_0. typeclasses eauto. Qed.
