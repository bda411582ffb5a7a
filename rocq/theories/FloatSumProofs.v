(** Sums in a floating-point type: one rounding for each addition. *)
From Coq Require Import Reals Lra Lia Floats.SpecFloat.
From Flocq Require Import Core IEEE754.BinarySingleNaN Plus_error Relative.
From Verif Require Import Base Float FloatProofs StatModel FloatSumModel FloatSumSpec.
Local Open Scope Z_scope.

Lemma prec_pos t : Prec_gt_0 (prec t). Proof. destruct t; reflexivity. Qed.
Lemma prec_max t : Prec_lt_emax (prec t) (emax t). Proof. destruct t; reflexivity. Qed.
#[global] Existing Instance prec_pos.
#[global] Existing Instance prec_max.
Notation fe t := (SpecFloat.fexp (prec t) (emax t)).
Definition frnd t (r : R) : R := round radix2 (fe t) ZnearestE r.

Lemma fround_aux_equiv t sx mx ex lx : SpecFloat.binary_round_aux (prec t) (emax t) sx mx ex lx = binary_round_aux (prec t) (emax t) mode_NE sx mx ex lx.
Proof.
  unfold SpecFloat.binary_round_aux, binary_round_aux. destruct (shr_fexp _ _ _ _ _) as [mrs e]. now rewrite (round_nearest_even_equiv sx).
Qed.
Lemma fround_equiv t s m e : SpecFloat.binary_round (prec t) (emax t) s m e = binary_round (prec t) (emax t) mode_NE s m e.
Proof. unfold SpecFloat.binary_round, binary_round, shl_align_fexp. destruct (shl_align _ _ _) as [mz ez]. apply fround_aux_equiv. Qed.
Lemma fnormalize_equiv t m e z : SpecFloat.binary_normalize (prec t) (emax t) m e z = B2SF (binary_normalize (prec t) (emax t) (prec_pos t) (prec_max t) mode_NE m e z).
Proof. destruct m as [|p|p]; [reflexivity| |]; simpl; rewrite B2SF_SF2B; apply fround_equiv. Qed.
Lemma fadd_equiv t (x y : binary_float (prec t) (emax t)) : fadd t (B2SF x) (B2SF y) = B2SF (Bplus mode_NE x y).
Proof.
  destruct x as [sx|sx| |sx mx ex Bx], y as [sy|sy| |sy my ey By];
    [now (trivial || simpl; destruct (Bool.eqb _ _)).. |]. apply fnormalize_equiv.
Qed.
Lemma number_bf t x : number t x -> exists b : binary_float (prec t) (emax t), x = B2SF b /\ is_finite b = true.
Proof. intros [V F]. exists (SF2B x V). rewrite B2SF_SF2B. split; [reflexivity|]. now rewrite is_finite_SF2B. Qed.
Lemma bf_number t (b : binary_float (prec t) (emax t)) : is_finite b = true -> number t (B2SF b).
Proof. intros F. split; [apply valid_binary_B2SF|]. now rewrite is_finite_SF_B2SF. Qed.
Lemma fval_bf t (b : binary_float (prec t) (emax t)) : fval (B2SF b) = B2R b. Proof. apply SF2R_B2SF. Qed.

Lemma fadd_spec t x y : number t x -> number t y ->
  (is_finite_SF (fadd t x y) = true -> number t (fadd t x y) /\ fval (fadd t x y) = frnd t (fval x + fval y)) /\
  ((Rabs (frnd t (fval x + fval y)) < bpow radix2 (emax t))%R -> is_finite_SF (fadd t x y) = true).
Proof.
  intros Nx Ny. destruct (number_bf t x Nx) as (a & -> & Fa), (number_bf t y Ny) as (b & -> & Fb). rewrite fadd_equiv, !fval_bf.
  pose proof (Bplus_correct _ _ _ _ mode_NE a b Fa Fb) as H. change (round_mode mode_NE) with ZnearestE in H. unfold frnd.
  rewrite is_finite_SF_B2SF. destruct (Rlt_bool_spec (Rabs (round radix2 (fe t) ZnearestE (B2R a + B2R b))) (bpow radix2 (emax t))) as [L|L].
  - destruct H as (H1 & H2 & _). split; [|auto]. intros F. split; [now apply bf_number|]. exact H1.
  - destruct H as (H & _). split; [|lra]. intros F. rewrite <- is_finite_SF_B2SF, H in F. discriminate.
Qed.
Lemma fadd_nonfinite t x y : is_finite_SF x = false -> is_finite_SF (fadd t x y) = false.
Proof. unfold fadd. destruct x as [| | |], y as [| | |]; simpl; try discriminate; auto. now destruct (Bool.eqb _ _). Qed.
Lemma fold_nonfinite t l : forall x, is_finite_SF x = false -> is_finite_SF (fold_left (fadd t) l x) = false.
Proof. induction l as [|y l IH]; intros x F; [exact F|]. cbn [fold_left]. apply IH. now apply fadd_nonfinite. Qed.
Lemma format_number t x : number t x -> generic_format radix2 (fe t) (fval x).
Proof. intros N. destruct (number_bf t x N) as (a & -> & _). rewrite fval_bf. apply generic_format_B2R. Qed.

Lemma unit_bpow t : unit_of t = bpow radix2 (- prec t). Proof. destruct t; reflexivity. Qed.
Lemma u_ro_unit t : u_ro radix2 (prec t) = unit_of t.
Proof.
  rewrite unit_bpow. unfold u_ro. change (/ 2)%R with (bpow radix2 (-1)). rewrite <- bpow_plus. f_equal. lia.
Qed.
Lemma unit_pos t : (0 < unit_of t)%R. Proof. rewrite unit_bpow. apply bpow_gt_0. Qed.
Lemma fadd_error t x y : number t x -> number t y ->
  exists e, (Rabs e <= unit_of t)%R /\ frnd t (fval x + fval y) = ((fval x + fval y) * (1 + e))%R.
Proof.
  intros Nx Ny. destruct (FLT_plus_error_N_ex radix2 (SpecFloat.emin (prec t) (emax t)) (prec t) (fun x => negb (Z.even x)) (fval x) (fval y)
    (format_number t x Nx) (format_number t y Ny)) as (e & He & E).
  exists e. split; [|exact E]. rewrite u_ro_unit in He. pose proof (unit_pos t). eapply Rle_trans; [exact He|].
  apply Rmult_le_reg_r with (1 + unit_of t)%R; [lra|]. unfold Rdiv. rewrite Rmult_assoc, Rinv_l by lra. nra.
Qed.

(** the error grows by one factor with each addition *)
Lemma fold_accurate t l : Forall (number t) l -> forall s S0 A k, number t s ->
  (Rabs S0 <= A)%R -> (Rabs (fval s - S0) <= ((1 + unit_of t) ^ k - 1) * A)%R ->
  is_finite_SF (fold_left (fadd t) l s) = true ->
  (Rabs (fval (fold_left (fadd t) l s) - (S0 + Rsum (map fval l))) <= ((1 + unit_of t) ^ (k + length l) - 1) * (A + Rsum (map (fun x => Rabs (fval x)) l)))%R.
Proof.
  induction 1 as [|x l Nx Nl IH]; intros s S0 A k Ns HA HE F.
  - cbn. rewrite Nat.add_0_r, !Rplus_0_r. exact HE.
  - cbn [fold_left] in F |- *. destruct (is_finite_SF (fadd t s x)) eqn:Fx; [|now rewrite fold_nonfinite in F].
    destruct (proj1 (fadd_spec t s x Ns Nx) Fx) as [N V]. destruct (fadd_error t s x Ns Nx) as (e & He & E).
    specialize (IH (fadd t s x) (S0 + fval x)%R (A + Rabs (fval x))%R (Datatypes.S k) N).
    cbn [map Rsum fold_right length]. fold (Rsum (map fval l)). fold (Rsum (map (fun x => Rabs (fval x)) l)).
    rewrite <- !Rplus_assoc. replace (k + Datatypes.S (length l))%nat with (Datatypes.S k + length l)%nat by lia. apply IH; auto.
    + pose proof (Rabs_triang S0 (fval x)). lra.
    + rewrite V, E. clear - HA HE He. pose proof (unit_pos t) as U. set (u := unit_of t) in *. clearbody u.
      set (p := ((1 + u) ^ k)%R) in *. assert (P : (1 <= p)%R) by (apply pow_R1_Rle; lra).
      change ((1 + u) ^ Datatypes.S k)%R with ((1 + u) * p)%R. clearbody p.
      set (a := fval s) in *. set (b := fval x) in *. clearbody a b.
      replace ((a + b) * (1 + e) - (S0 + b))%R with ((a - S0) * (1 + e) + (S0 + b) * e)%R by ring.
      eapply Rle_trans; [apply Rabs_triang|]. rewrite !Rabs_mult.
      assert (H1 : (Rabs (1 + e) <= 1 + u)%R) by (eapply Rle_trans; [apply Rabs_triang|]; rewrite Rabs_R1; lra).
      assert (H2 : (Rabs (S0 + b) <= A + Rabs b)%R) by (eapply Rle_trans; [apply Rabs_triang|]; lra).
      pose proof (Rabs_pos (a - S0)) as Q1. pose proof (Rabs_pos (1 + e)) as Q2. pose proof (Rabs_pos (S0 + b)) as Q3. pose proof (Rabs_pos e) as Q4.
      pose proof (Rmult_le_compat _ _ _ _ Q1 Q2 HE H1) as M1. pose proof (Rmult_le_compat _ _ _ _ Q3 Q4 H2 He) as M2.
      pose proof (Rabs_pos b) as Q5.
      assert (0 <= (1 + u) * (p - 1) * Rabs b)%R by (apply Rmult_le_pos; [apply Rmult_le_pos|]; lra).
      nra.
Qed.

(** whole numbers up to 2^prec are values of the type *)
Lemma frnd_int t z : Z.abs z <= 2 ^ prec t -> frnd t (IZR z) = IZR z.
Proof.
  intros H. unfold frnd. apply round_generic; [typeclasses eauto|].
  destruct (Z.eq_dec (Z.abs z) (2 ^ prec t)) as [E|E].
  - assert (P : generic_format radix2 (fe t) (IZR (2 ^ prec t))).
    { replace (IZR (2 ^ prec t)) with (bpow radix2 (prec t)) by now destruct t. apply generic_format_bpow. unfold SpecFloat.fexp, SpecFloat.emin. destruct t; cbn; lia. }
    destruct (Z.abs_spec z) as [[? A]|[? A]]; rewrite A in E; [now rewrite E|].
    replace z with (- (2 ^ prec t))%Z by lia. rewrite opp_IZR. now apply generic_format_opp.
  - change (fe t) with (FLT_exp (SpecFloat.emin (prec t) (emax t)) (prec t)). apply generic_format_FLT.
    exists (Defs.Float radix2 z 0); [unfold F2R; simpl; ring| |]; destruct t; cbn in *; lia.
Qed.
Lemma int_small t z : Z.abs z <= 2 ^ prec t -> (Rabs (IZR z) < bpow radix2 (emax t))%R.
Proof.
  intros H. rewrite <- abs_IZR. apply Rle_lt_trans with (IZR (2 ^ prec t)); [now apply IZR_le|].
  replace (IZR (2 ^ prec t)) with (bpow radix2 (prec t)) by now destruct t. apply bpow_lt. destruct t; reflexivity.
Qed.
Lemma fadd_int t x y a b : number t x -> number t y -> fval x = IZR a -> fval y = IZR b -> Z.abs (a + b) <= 2 ^ prec t ->
  number t (fadd t x y) /\ fval (fadd t x y) = IZR (a + b).
Proof.
  intros Nx Ny Vx Vy H. destruct (fadd_spec t x y Nx Ny) as [P Q]. rewrite Vx, Vy, <- plus_IZR, frnd_int in P, Q by exact H.
  apply P, Q, int_small, H.
Qed.
Lemma fold_int t l zs : Forall2 (fun x z => number t x /\ fval x = IZR z) l zs -> forall s a, number t s -> fval s = IZR a ->
  (forall k, Z.abs (a + Zsum (firstn k zs)) <= 2 ^ prec t) ->
  number t (fold_left (fadd t) l s) /\ fval (fold_left (fadd t) l s) = IZR (a + Zsum zs).
Proof.
  induction 1 as [|x z l zs [Nx Vx] R IH]; intros s a Ns Vs H.
  - cbn. now rewrite Z.add_0_r.
  - cbn [fold_left]. destruct (fadd_int t s x a z Ns Nx Vs Vx) as [N V]; [specialize (H 1%nat); cbn in H; now rewrite Z.add_0_r in H|].
    cbn [Zsum fold_right]. fold (Zsum zs). rewrite Z.add_assoc. apply IH; auto.
    intros k. specialize (H (Datatypes.S k)). cbn [firstn Zsum fold_right] in H. fold (Zsum (firstn k zs)) in H. now rewrite Z.add_assoc in H.
Qed.
Lemma fof_int t z : Z.abs z <= 2 ^ prec t -> number t (fof t z) /\ fval (fof t z) = IZR z.
Proof.
  intros H. unfold fof. rewrite fnormalize_equiv.
  pose proof (binary_normalize_correct _ _ (prec_pos t) (prec_max t) mode_NE z 0 false) as C. cbv zeta in C.
  change (round_mode mode_NE) with ZnearestE in C. unfold F2R in C. cbn [Fnum Fexp] in C. change (bpow radix2 0) with 1%R in C. rewrite Rmult_1_r in C.
  fold (frnd t (IZR z)) in C. rewrite frnd_int in C by exact H. rewrite Rlt_bool_true in C by (now apply int_small).
  destruct C as (C1 & C2 & _). split; [now apply bf_number|]. now rewrite fval_bf.
Qed.

(** sums of ones get stuck *)
Lemma stuck t n : fold_left (fadd t) (repeat (fof t 1) n) (fof t (2 ^ prec t)) = fof t (2 ^ prec t).
Proof.
  induction n as [|n IH]; [reflexivity|]. cbn [repeat fold_left]. replace (fadd t (fof t (2 ^ prec t)) (fof t 1)) with (fof t (2 ^ prec t)) by (destruct t; now vm_compute). exact IH.
Qed.
Lemma Zsum_ones n : Zsum (repeat 1 n) = Z.of_nat n.
Proof. induction n as [|n IH]; [reflexivity|]. cbn [repeat Zsum fold_right]. fold (Zsum (repeat 1 n)). lia. Qed.
Lemma firstn_ones k n : firstn k (repeat 1 n) = repeat 1 (Nat.min k n).
Proof. revert n. induction k as [|k IH]; intros [|n]; cbn; auto. now rewrite IH. Qed.
Lemma unique t x y : number t x -> number t y -> (0 < fval x)%R -> fval x = fval y -> x = y.
Proof.
  intros Nx Ny P E. destruct (number_bf t x Nx) as (a & -> & Fa), (number_bf t y Ny) as (b & -> & Fb). rewrite !fval_bf in *.
  f_equal. apply B2R_inj; auto; apply is_finite_strict_B2R; lra.
Qed.
Lemma ones_small t n : Z.of_nat n <= 2 ^ prec t ->
  number t (fsum_all t (repeat (fof t 1) n)) /\ fval (fsum_all t (repeat (fof t 1) n)) = IZR (Z.of_nat n).
Proof.
  intros H. assert (One : number t (fof t 1) /\ fval (fof t 1) = 1%R) by (apply (fof_int t 1); destruct t; cbn; lia).
  assert (Zero : number t (fof t 0) /\ fval (fof t 0) = 0%R) by (apply (fof_int t 0); destruct t; cbn; lia).
  unfold fsum_all. rewrite <- (Zsum_ones n). change (Zsum (repeat 1 n)) with (0 + Zsum (repeat 1 n))%Z. apply fold_int; try tauto.
  - clear H. induction n; constructor; auto.
  - intros k. rewrite firstn_ones, Zsum_ones. lia.
Qed.
Lemma ones t n : fval (fsum_all t (repeat (fof t 1) n)) = IZR (Z.min (Z.of_nat n) (2 ^ prec t)) /\
  (2 ^ prec t <= Z.of_nat n -> fsum_all t (repeat (fof t 1) n) = fof t (2 ^ prec t)).
Proof.
  assert (B : forall m, 2 ^ prec t <= Z.of_nat m -> fsum_all t (repeat (fof t 1) m) = fof t (2 ^ prec t)).
  { intros m H. set (p := Z.to_nat (2 ^ prec t)). assert (Pp : 0 < 2 ^ prec t) by (destruct t; reflexivity).
    assert (Ep : Z.of_nat p = 2 ^ prec t) by (unfold p; lia). clearbody p.
    replace m with (p + (m - p))%nat by lia. rewrite repeat_app. unfold fsum_all. rewrite fold_left_app.
    fold (fsum_all t (repeat (fof t 1) p)). replace (fsum_all t (repeat (fof t 1) p)) with (fof t (2 ^ prec t)); [apply stuck|].
    destruct (ones_small t p) as [N V]; [lia|]. destruct (fof_int t (2 ^ prec t)) as [N' V']; [lia|].
    apply (unique t); auto; rewrite V', ?V, ?Ep; [now apply IZR_lt|reflexivity]. }
  split; [|apply B]. destruct (Z.le_gt_cases (2 ^ prec t) (Z.of_nat n)) as [H|H].
  - rewrite B, Z.min_r by exact H. apply fof_int. destruct t; cbn; lia.
  - rewrite Z.min_l by lia. apply ones_small. lia.
Qed.

(** float to double loses nothing *)
Lemma widen_spec x : number FFloat x -> dvalid (widen x) = true /\ dfinite (widen x) = true /\ real (widen x) = fval x /\ (Rabs (fval x) < bpow radix2 128)%R.
Proof.
  intros N. destruct (number_bf _ x N) as (b & -> & F).
  assert (L : (Rabs (fval (B2SF b)) < bpow radix2 128)%R) by (rewrite fval_bf; apply (abs_B2R_lt_emax _ _ b)).
  destruct b as [s|s| |s m e Bm]; try discriminate F.
  - repeat split; auto.
  - set (x := B2SF (B754_finite s m e Bm : binary_float (prec FFloat) (emax FFloat))) in *. cbn [B2SF] in x.
    assert (E : fval x = (IZR (cond_Zopp s (Zpos m)) * bpow radix2 e)%R) by reflexivity.
    assert (G : rnd (fval x) = fval x).
    { unfold rnd. apply round_generic; [typeclasses eauto|]. apply generic_inclusion_mag with (fexp1 := fe FFloat).
      - intros _. unfold SpecFloat.fexp, SpecFloat.emin. cbn [prec emax]. lia.
      - now apply format_number. }
    change (widen x) with (dmake (cond_Zopp s (Zpos m)) e). destruct (dmake_spec (cond_Zopp s (Zpos m)) e) as [V W]. rewrite <- E, G in W.
    rewrite Rlt_bool_true in W; [destruct W; auto|]. eapply Rlt_trans; [exact L|]. unfold big. apply bpow_lt. reflexivity.
Qed.

Lemma fsum_accurate t l : Forall (number t) l -> is_finite_SF (fsum_all t l) = true ->
  (Rabs (fval (fsum_all t l) - Rsum (map fval l)) <= ((1 + unit_of t) ^ Nat.pred (length l) - 1) * Rsum (map (fun x => Rabs (fval x)) l))%R.
Proof.
  intros N F. destruct N as [|x l Nx Nl].
  - cbn. replace (0 - 0)%R with 0%R by ring. rewrite Rabs_R0. lra.
  - unfold fsum_all in *. cbn [fold_left] in *.
    assert (Zero : number t (fof t 0) /\ fval (fof t 0) = 0%R) by (apply (fof_int t 0); destruct t; cbn; lia). destruct Zero as [N0 V0].
    destruct (is_finite_SF (fadd t (fof t 0) x)) eqn:Fx; [|now rewrite fold_nonfinite in F].
    destruct (proj1 (fadd_spec t _ x N0 Nx) Fx) as [N V]. rewrite V0, Rplus_0_l in V.
    assert (V' : fval (fadd t (fof t 0) x) = fval x).
    { rewrite V. unfold frnd. apply round_generic; [typeclasses eauto|]. now apply format_number. }
    pose proof (fold_accurate t l Nl _ (fval x) (Rabs (fval x)) 0%nat N (Rle_refl _)) as H. rewrite V' in H.
    cbn [map Rsum fold_right length Nat.pred]. apply H; [|exact F].
    replace (fval x - fval x)%R with 0%R by ring. rewrite Rabs_R0. cbn. lra.
Qed.
Lemma fmean_value s n : number FFloat s -> 0 < n <= 2 ^ 53 ->
  dfinite (ddiv (widen s) (dof n)) = true /\ real (ddiv (widen s) (dof n)) = rnd (fval s / IZR n).
Proof.
  intros N H. destruct (widen_spec s N) as (V & F & E & L).
  destruct (dmake_spec n 0) as [Vn Wn]. change (dmake n 0) with (dof n) in *. change (bpow radix2 0) with 1%R in Wn. rewrite Rmult_1_r in Wn.
  assert (Rn : rnd (IZR n) = IZR n) by (change rnd with (frnd FDouble); apply (frnd_int FDouble); cbn [prec]; lia).
  rewrite Rn, Rlt_bool_true in Wn by (apply (int_small FDouble n); cbn [prec]; lia). destruct Wn as [Rv Fn].
  assert (Pn : (1 <= IZR n)%R) by (apply IZR_le; lia).
  destruct (ddiv_spec (widen s) (dof n) V Vn F) as [_ W]; [rewrite Rv; lra|]. rewrite Rv, E in W.
  assert (B : (Rabs (rnd (fval s / IZR n)) <= bpow radix2 128)%R).
  { unfold rnd. apply abs_round_le_generic; [typeclasses eauto|typeclasses eauto|apply generic_format_bpow; unfold SpecFloat.fexp, SpecFloat.emin; lia|].
    unfold Rdiv. rewrite Rabs_mult, (Rabs_pos_eq (/ IZR n)) by (apply Rlt_le, Rinv_0_lt_compat; lra).
    assert (/ IZR n <= 1)%R by (rewrite <- Rinv_1; apply Rinv_le; lra). pose proof (Rabs_pos (fval s)).
    assert (0 < / IZR n)%R by (apply Rinv_0_lt_compat; lra). nra. }
  rewrite Rlt_bool_true in W; [now destruct W|]. eapply Rle_lt_trans; [exact B|]. unfold big. apply bpow_lt. reflexivity.
Qed.
Lemma fold_number t l : Forall (number t) l -> forall s, number t s -> is_finite_SF (fold_left (fadd t) l s) = true -> number t (fold_left (fadd t) l s).
Proof.
  induction 1 as [|x l Nx Nl IH]; intros s Ns F; [exact Ns|]. cbn [fold_left] in *.
  destruct (is_finite_SF (fadd t s x)) eqn:Fx; [|now rewrite fold_nonfinite in F]. apply IH; auto. now apply (fadd_spec t s x).
Qed.
Lemma fsum_number t l : Forall (number t) l -> is_finite_SF (fsum_all t l) = true -> number t (fsum_all t l).
Proof. intros N. apply fold_number; [exact N|]. apply (fof_int t 0). destruct t; cbn; lia. Qed.
Lemma Forall_firstn' {A} (P : A -> Prop) n l : Forall P l -> Forall P (firstn n l).
Proof. intros H. revert n. induction H; intros [|n]; cbn; constructor; auto. Qed.
