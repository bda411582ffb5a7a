(** Programs with BigNum variables compute the natural numbers they denote. *)
From Verif Require Import Base DecModel DecProofs BigModel BigSpec BigProofs BigOpProofs BigThmProofs BigStepProofs
  BigProgModel BigProgSpec.
Local Open Scope Z_scope.

(** ** number of digits *)
Lemma nd_loop_spec f : forall z, 0 <= z < 2 ^ Z.of_nat f ->
  0 <= nd_loop f z /\ (z = 0 -> nd_loop f z = 0) /\ (0 < z -> 1 <= nd_loop f z /\ 10 ^ (nd_loop f z - 1) <= z < 10 ^ nd_loop f z).
Proof.
  induction f as [|f IH]; intros z Hz.
  - change (2 ^ Z.of_nat 0) with 1 in Hz. cbn [nd_loop]. lia.
  - cbn [nd_loop]. destruct (Z.leb_spec z 0); [lia|].
    rewrite Nat2Z.inj_succ, Z.pow_succ_r in Hz by lia.
    destruct (IH (z / 10)) as (I0 & I1 & I2).
    { split; [apply Z.div_pos; lia|]. apply Z.div_lt_upper_bound; lia. }
    split; [lia|]. split; [lia|]. intros _. split; [lia|].
    set (n := nd_loop f (z / 10)) in *. replace (1 + n - 1) with n by lia.
    rewrite Z.pow_add_r by lia. change (10 ^ 1) with 10.
    pose proof (Z_div_mod_eq_full z 10) as D. pose proof (Z.mod_pos_bound z 10 ltac:(lia)) as M.
    destruct (Z.eq_dec (z / 10) 0) as [E|E].
    + rewrite (I1 E). change (10 ^ 0) with 1. lia.
    + assert (0 < z / 10) by (assert (0 <= z / 10) by (apply Z.div_pos; lia); lia). destruct (I2 H0) as [I3 I4].
      replace n with (Z.succ (n - 1)) at 1 by lia. rewrite Z.pow_succ_r by lia. lia.
Qed.
Lemma nd_spec z : 0 <= z -> 0 <= nd z /\ (z = 0 -> nd z = 0) /\ (0 < z -> 1 <= nd z /\ 10 ^ (nd z - 1) <= z < 10 ^ nd z).
Proof.
  intros Hz. apply nd_loop_spec. split; [assumption|].
  rewrite Nat2Z.inj_succ, Z2Nat.id by apply Z.log2_nonneg.
  destruct (Z.eq_dec z 0) as [->|]; [cbn; lia|]. apply Z.log2_spec. lia.
Qed.
Lemma pow_between a b z : 0 <= a -> 0 <= b -> 10 ^ (a - 1) <= z < 10 ^ a -> 10 ^ (b - 1) <= z < 10 ^ b -> a = b.
Proof.
  intros Ha Hb H1 H2. destruct (Z.lt_trichotomy a b) as [H|[H|H]]; [|assumption|].
  - assert (10 ^ a <= 10 ^ (b - 1)) by (apply Z.pow_le_mono_r; lia). lia.
  - assert (10 ^ b <= 10 ^ (a - 1)) by (apply Z.pow_le_mono_r; lia). lia.
Qed.
Lemma len_nd cap b z : denotes cap b z -> 0 <= z -> len b = nd z.
Proof.
  intros H Hz. destruct (denotes_mag _ _ _ H) as (ds & M & E & _ & N). rewrite N.
  destruct (nd_spec z Hz) as (N0 & N1 & N2). rewrite Z.abs_eq in E by assumption.
  destruct (Z.eq_dec z 0) as [Z0|Z0].
  - rewrite (N1 Z0). assert (ds = []) by (apply (mag_nil _ _ _ M); lia). subst ds. reflexivity.
  - destruct (N2 ltac:(lia)) as [N3 N4].
    assert (Nn : ds <> []) by (intros ->; cbn in E; lia).
    destruct M as (_ & _ & _ & Hd & Hl). pose proof (dval_bound ds Hd). pose proof (dval_lower ds Hd Nn (Hl Nn)).
    apply (pow_between _ _ z); lia.
Qed.
Lemma nd_small cap z : small cap z -> nd z <= Z.of_nat cap - 1.
Proof.
  intros [H1 H2]. destruct (nd_spec z H1) as (N0 & N1 & N2).
  assert (1 <= Z.of_nat cap).
  { destruct (Z.le_gt_cases 1 (Z.of_nat cap)); [assumption|]. rewrite Z.pow_neg_r in H2 by lia. lia. }
  destruct (Z.eq_dec z 0) as [Z0|Z0]; [rewrite (N1 Z0); lia|]. destruct (N2 ltac:(lia)) as [N3 N4].
  destruct (Z.le_gt_cases (nd z) (Z.of_nat cap - 1)); [assumption|].
  assert (10 ^ (Z.of_nat cap - 1) <= 10 ^ (nd z - 1)) by (apply Z.pow_le_mono_r; lia). lia.
Qed.
Lemma small_cap cap z : small cap z -> (1 <= cap)%nat.
Proof.
  intros [H1 H2]. destruct (Z.le_gt_cases 1 (Z.of_nat cap)); [lia|]. rewrite Z.pow_neg_r in H2 by lia. lia.
Qed.

(** ** the operators on variables that are solid or long enough *)
Definition rep (cap : nat) (b : big) (x : Z * bool) : Prop :=
  denotes cap b (fst x) /\ small cap (fst x) /\ (snd x = true -> clean b).

Lemma zeros_above cap b ds z s n m : mag cap b ds -> denotes cap b z -> 0 <= z -> (s = true -> clean b) ->
  s = true \/ n <= nd z -> Z.of_nat m = n -> (length ds + (m - length ds) <= cap)%nat ->
  leftover b (repeat 0 (m - length ds)).
Proof.
  intros M D Hz C [E|E] Hm Hc.
  - apply (clean_leftover cap b ds); auto.
  - rewrite <- (len_nd _ _ _ D Hz) in E. destruct (mag_len _ _ _ M) as [N _].
    replace (m - length ds)%nat with 0%nat by lia. split; [constructor|]. cbn [length repeat]. intros k Hk. lia.
Qed.
Lemma plus_ok cap a b x y s t : rep cap a (x, s) -> rep cap b (y, t) -> reaches s x y -> reaches t y x ->
  exists v, plus_val 2 cap a b = Ok v /\ denotes cap v (x + y).
Proof.
  intros (Da & Sx & Ca) (Db & Sy & Cb) Rx Ry. cbn [fst snd] in *. unfold reaches in *.
  destruct (denotes_mag _ _ _ Da) as (xs & Mx & Ex & Gx & Nx).
  destruct (denotes_mag _ _ _ Db) as (ys & My & Ey & Gy & Ny).
  pose proof (nd_small _ _ Sx) as Lx. pose proof (nd_small _ _ Sy) as Ly.
  destruct Sx as [Px _], Sy as [Py _].
  pose proof (len_nd _ _ _ Da Px) as Ax. pose proof (len_nd _ _ _ Db Py) as Ay.
  destruct (add_mag cap a b xs ys (repeat 0 (length ys - length xs)) (repeat 0 (length xs - length ys)))
    as (r & ds & E & Mr & Sr & Cr & _ & _ & V); try assumption.
  - eapply zeros_above; try eassumption; lia.
  - eapply zeros_above; try eassumption; lia.
  - rewrite repeat_length. lia.
  - rewrite repeat_length. lia.
  - lia.
  - exists r. destruct (Z.ltb_spec x 0); [lia|]. destruct (Z.ltb_spec y 0); [lia|].
    unfold plus_val. rewrite Gx, Gy. split; [exact E|].
    rewrite !dval_app, !dval_zeros in V. apply (mag_denotes cap r ds); [assumption|lia|].
    destruct (Z.ltb_spec (x + y) 0); [lia|congruence].
Qed.
Lemma minus_ok cap a b x y s t : rep cap a (x, s) -> rep cap b (y, t) -> reaches t y x -> y <= x ->
  exists v, minus_val 2 cap a b = Ok v /\ denotes cap v (x - y).
Proof.
  intros (Da & Sx & Ca) (Db & Sy & Cb) Ry Hge. cbn [fst snd] in *. unfold reaches in *.
  destruct (denotes_mag _ _ _ Da) as (xs & Mx & Ex & Gx & Nx).
  destruct (denotes_mag _ _ _ Db) as (ys & My & Ey & Gy & Ny).
  pose proof (nd_small _ _ Sx) as Lx. pose proof (nd_small _ _ Sy) as Ly.
  destruct Sx as [Px _], Sy as [Py _].
  pose proof (len_nd _ _ _ Da Px) as Ax. pose proof (len_nd _ _ _ Db Py) as Ay.
  destruct (Z.ltb_spec x 0); [lia|]. destruct (Z.ltb_spec y 0); [lia|].
  pose proof (cmp_mag cap a b xs ys Mx My) as Hcmp. rewrite Gx in Hcmp.
  assert (Hl : (length ys <= length xs)%nat).
  { destruct Mx as (_ & _ & _ & Dx & Cx), My as (_ & _ & _ & Dy & Cy).
    destruct (Nat.le_gt_cases (length ys) (length xs)); [assumption|].
    pose proof (len_lt_val xs ys Dx Dy Cy H1). lia. }
  assert (Lo : leftover b (repeat 0 (length xs - length ys))) by (eapply zeros_above; try eassumption; lia).
  destruct (leftover_el cap b ys _ My Lo) as (tb & Eb); [rewrite repeat_length; lia|].
  pose proof (mag_le _ _ _ Mx) as Lcap.
  destruct Mx as ([ta Ea] & _ & _ & Dx & Cx), My as (_ & _ & _ & Dy & Cy).
  destruct (sub_base 1 cap a b xs (ys ++ repeat 0 (length xs - length ys)) ta tb _ Hcmp)
    as (ds & k & tail & E & Dd & Cd & Lt & _ & Et & Hv);
    [destruct (Z.sgn_spec (dval xs - dval ys)) as [[? ->]|[[? ->]|[? ->]]]; lia|assumption..|
     rewrite app_length, repeat_length; lia|assumption|apply Forall_app; split; [assumption|apply digit_zeros]|lia| |].
  { left. rewrite dval_app, dval_zeros. lia. }
  rewrite dval_app, dval_zeros in Hv. replace (dval ys + 10 ^ Z.of_nat (length ys) * 0) with (dval ys) in Hv by lia.
  pose proof (dval_bound xs Dx). pose proof (dval_bound ys Dy). rewrite Z.mod_small in Hv by lia.
  unfold minus_val. rewrite Gx, Gy. eexists. split; [exact E|].
  apply (mag_denotes cap _ ds); [|lia|cbn [sgn]; destruct (Z.ltb_spec (x - y) 0); [lia|reflexivity]].
  split; [eexists; reflexivity|]. cbn [el len]. auto.
Qed.
Lemma fits cap a b x y : denotes cap a x -> denotes cap b y -> small cap x -> small cap y -> small cap (x * y) ->
  len a + len b <= Z.of_nat cap.
Proof.
  intros Da Db Sx Sy Sp. pose proof (nd_small _ _ Sx) as Lx. pose proof (nd_small _ _ Sy) as Ly.
  destruct Sx as [Px _], Sy as [Py _]. rewrite (len_nd _ _ _ Da Px), (len_nd _ _ _ Db Py).
  destruct (nd_spec x Px) as (X0 & X1 & X2). destruct (nd_spec y Py) as (Y0 & Y1 & Y2).
  destruct (Z.eq_dec x 0) as [E|E]; [rewrite (X1 E); lia|].
  destruct (Z.eq_dec y 0) as [E'|E']; [rewrite (Y1 E'); lia|].
  destruct (X2 ltac:(lia)) as [X3 X4]. destruct (Y2 ltac:(lia)) as [Y3 Y4]. destruct Sp as [_ Sp].
  assert (L3 : 10 ^ (nd x - 1 + (nd y - 1)) <= x * y).
  { rewrite Z.pow_add_r by lia. apply Z.mul_le_mono_nonneg; try lia; apply Z.pow_nonneg; lia. }
  destruct (Z.le_gt_cases (nd x + nd y) (Z.of_nat cap)) as [|Hgt]; [assumption|].
  assert (10 ^ (Z.of_nat cap - 1) <= 10 ^ (nd x - 1 + (nd y - 1))) by (apply Z.pow_le_mono_r; lia). lia.
Qed.
Lemma fresh cap v z : denotes cap v z -> exists r, assign (mk0 cap) v = Ok r /\ denotes cap r z /\ clean r.
Proof.
  intros D. destruct (denotes_mag _ _ _ D) as (ds & M & E & S & _).
  destruct (assign_mk0 cap v ds M) as (r & Er & Mr & Sr & Cr). exists r. split; [assumption|]. split; [|assumption].
  apply (mag_denotes cap r ds); [assumption..|congruence].
Qed.

(** ** variables *)
Definition reps (cap : nat) (vs : list big) (zs : zvars) : Prop := Forall2 (rep cap) vs zs.
Lemma reps_var cap vs zs i : reps cap vs zs -> (i < length zs)%nat ->
  exists b, var vs i = Ok b /\ rep cap b (value zs i, solid zs i).
Proof.
  intros H. revert i. induction H as [|b x vs zs Hb H IH]; intros i Hi; [cbn in Hi; lia|].
  destruct i as [|i].
  - exists b. split; [reflexivity|]. unfold value, solid. cbn [nth]. now destruct x.
  - apply (IH i). cbn [length] in Hi. lia.
Qed.
Lemma reps_put cap vs zs i b x : reps cap vs zs -> rep cap b x -> reps cap (put vs i b) (zput zs i x).
Proof.
  intros H Hb. revert i. induction H as [|b' x' vs zs Hb' H IH]; intros i; [constructor|].
  destruct i as [|i]; cbn [put zput]; constructor; auto. apply IH.
Qed.
Lemma efine_small cap zs e : efine cap zs e -> small cap (zval zs e).
Proof. destruct e; cbn [efine]; tauto. Qed.

Lemma peval_fine cap vs zs e : 90 * Z.of_nat cap <= 900000000 -> reps cap vs zs -> efine cap zs e ->
  exists b, peval cap vs e = Ok b /\ rep cap b (zval zs e, esolid zs e).
Proof.
  intros Hbig Hv. 
  induction e as [i|n|s|a IHa b IHb|a IHa b IHb|a IHa b IHb]; intros F; pose proof (efine_small _ _ _ F) as Sm;
    pose proof (small_cap _ _ Sm) as Hcap; cbn [efine zval peval esolid] in *; destruct F as [_ F].
  - now apply (reps_var cap).
  - assert (10 ^ (Z.of_nat cap - 1) <= 10 ^ Z.of_nat cap) by (apply Z.pow_le_mono_r; lia).
    destruct (of_int64_spec cap n F) as (r & E & D & C); [unfold int64_min; destruct Sm; lia|destruct Sm; lia|].
    exists r. split; [assumption|]. now split.
  - destruct F as (F1 & F2 & F3).
    assert (C0 : canon_digits s) by (split; [assumption|split; [assumption|right; assumption]]).
    assert (s <> ["0"%char]) by (intros ->; apply F3; reflexivity).
    pose proof (canon_digits_lower s C0 H).
    destruct (of_string_pos cap s F1 F2 F3) as (r & E & D & C).
    { destruct (Nat.le_gt_cases (length s) cap); [assumption|]. destruct Sm as [_ Sm].
      assert (10 ^ (Z.of_nat cap - 1) <= 10 ^ (Z.of_nat (length s) - 1)) by (apply Z.pow_le_mono_r; lia). lia. }
    exists r. split; [assumption|]. now split.
  - destruct F as (Fa & Fb & Ra & Rb). destruct (IHa Fa) as (x & Ex & Rx). destruct (IHb Fb) as (y & Ey & Ry).
    rewrite Ex, Ey. cbn [bind]. destruct (plus_ok cap x y _ _ _ _ Rx Ry Ra Rb) as (v & E & D).
    unfold plus. rewrite E. cbn [bind]. destruct (fresh cap v _ D) as (r & Er & Dr & Cr). exists r.
    split; [assumption|]. now split.
  - destruct F as (Fa & Fb & Rb). destruct (IHa Fa) as (x & Ex & Rx). destruct (IHb Fb) as (y & Ey & Ry).
    rewrite Ex, Ey. cbn [bind]. destruct (minus_ok cap x y _ _ _ _ Rx Ry Rb) as (v & E & D); [destruct Sm; lia|].
    unfold minus. rewrite E. cbn [bind]. destruct (fresh cap v _ D) as (r & Er & Dr & Cr). exists r.
    split; [assumption|]. now split.
  - destruct F as (Fa & Fb). destruct (IHa Fa) as (x & Ex & Dx & Sx & _). destruct (IHb Fb) as (y & Ey & Dy & Sy & _).
    cbn [fst] in *. rewrite Ex, Ey. cbn [bind].
    destruct (times_value cap x y _ _ Dx Dy Hbig (fits _ _ _ _ _ Dx Dy Sx Sy Sm)) as (r & E & D & C).
    exists r. split; [assumption|]. rewrite Z.abs_eq in D by (destruct Sy; lia). now split.
Qed.

(** storing into a variable *)
Lemma store_ok cap vs zs i x v z : reps cap vs zs -> rep cap x (value zs i, solid zs i) -> denotes cap v z -> small cap z ->
  exists r, assign x v = Ok r /\ reps cap (put vs i r) (store zs i z).
Proof.
  intros H (Dx & Sx & Cx) Dv Sz. cbn [fst snd] in *.
  destruct (assign_value cap x v z (denotes_length _ _ _ Dx) Dv) as (r & E & D & K). exists r. split; [assumption|].
  apply reps_put; [assumption|]. split; [assumption|]. split; [assumption|]. cbn [snd]. intros F.
  apply andb_true_iff in F. destruct F as [F1 F2]. apply Z.leb_le in F2. destruct Sx as [Px _], Sz as [Pz _].
  intros j Hj. rewrite (denotes_length _ _ _ D) in Hj. rewrite (len_nd _ _ _ D Pz) in Hj.
  rewrite K by (rewrite (len_nd _ _ _ Dv Pz); lia). apply (Cx F1).
  rewrite (denotes_length _ _ _ Dx), (len_nd _ _ _ Dx Px). lia.
Qed.
Lemma copy_ok cap b z : denotes cap b z -> exists r, copy cap b = Ok r /\ denotes cap r z.
Proof.
  intros Ha. destruct (denotes_mag _ _ _ Ha) as (xs & Mx & Ex & Sx & Nx).
  pose proof (mag_le _ _ _ Mx) as Hle. destruct Mx as ([tl E] & L & N & Hd & Hl).
  unfold copy. rewrite L, N.
  destruct (Z.ltb_spec (Z.of_nat (length xs)) 0); [lia|].
  destruct (Z.ltb_spec (Z.of_nat cap) (Z.of_nat (length xs))); [lia|]. cbn [orb].
  rewrite Nat2Z.id.
  assert (Ef : firstn (length xs) (el b) = map Some xs).
  { rewrite E, <- (map_length Some xs), firstn_app, Nat.sub_diag, firstn_all, firstn_O. apply app_nil_r. }
  rewrite Ef. eexists. split; [reflexivity|]. apply (mag_denotes _ _ xs); [|assumption|assumption].
  split; [eexists; reflexivity|]. cbn [el len]. split; [rewrite app_length, map_length, repeat_length; lia|]. auto.
Qed.

Lemma exec_fine cap vs zs s : 90 * Z.of_nat cap <= 900000000 -> reps cap vs zs -> sfine cap zs s ->
  exists vs' o, exec cap vs s = Ok (vs', o) /\ reps cap vs' (fst (zexec zs s)) /\ Forall2 shows o (snd (zexec zs s)).
Proof.
  intros Hbig Hv F.
  assert (Hold : forall i, (i < length zs)%nat -> exists b, var vs i = Ok b /\ rep cap b (value zs i, solid zs i))
    by (intros; now apply reps_var).
  destruct s as [e|i e|i e|i e|i n|i|i|i]; cbn [exec zexec fst snd sfine] in *.
  - assert (New : efine cap zs e -> exists vs' o, (b <- peval cap vs e ;; Ok (vs ++ [b], [])) = Ok (vs', o) /\
      reps cap vs' (zs ++ [(zval zs e, esolid zs e)]) /\ Forall2 shows o []).
    { intros Fe. destruct (peval_fine cap vs zs e Hbig Hv Fe) as (r & Er & Rr). rewrite Er. cbn [bind].
      eexists _, _. split; [reflexivity|]. split; [|constructor].
      apply Forall2_app; [assumption|]. constructor; [exact Rr|constructor]. }
    destruct e as [j|n|t|a b|a b|a b]; cbn [init].
    { destruct F as [Sm Hj]. destruct (Hold j Hj) as (x & Ex & Dx & Sx & _). rewrite Ex. cbn [bind].
      destruct (copy_ok cap x _ Dx) as (r & Er & Dr). rewrite Er. cbn [bind]. eexists _, _. split; [reflexivity|].
      split; [|constructor]. apply Forall2_app; [assumption|]. constructor; [|constructor].
      split; [assumption|]. split; [assumption|discriminate]. }
    all: now apply New.
  - destruct F as [Hi F]. destruct (peval_fine cap vs zs e Hbig Hv F) as (v & Ev & Dv & Sv & _). rewrite Ev. cbn [bind fst] in *.
    destruct (Hold i Hi) as (x & Ex & Rx). rewrite Ex. cbn [bind].
    destruct (store_ok cap vs zs i x v _ Hv Rx Dv Sv) as (r & Er & Rr). rewrite Er. cbn [bind]. eexists _, _. split; [reflexivity|].
    split; [assumption|constructor].
  - cbn [efine zval esolid] in F. destruct F as (Sm & (Sx & Hi) & F & R1 & R2).
    destruct (peval_fine cap vs zs e Hbig Hv F) as (v & Ev & Rv). rewrite Ev. cbn [bind] in *.
    destruct (Hold i Hi) as (x & Ex & Rx). rewrite Ex. cbn [bind].
    destruct (plus_ok cap x v _ _ _ _ Rx Rv R1 R2) as (w & Ew & Dw). unfold plus_assign. rewrite Ew. cbn [bind].
    destruct (store_ok cap vs zs i x w _ Hv Rx Dw Sm) as (r & Er & Rr). rewrite Er. cbn [bind]. eexists _, _. split; [reflexivity|].
    split; [assumption|constructor].
  - cbn [efine zval esolid] in F. destruct F as (Sm & (Sx & Hi) & F & R2).
    destruct (peval_fine cap vs zs e Hbig Hv F) as (v & Ev & Rv). rewrite Ev. cbn [bind] in *.
    destruct (Hold i Hi) as (x & Ex & Rx). rewrite Ex. cbn [bind].
    destruct (minus_ok cap x v _ _ _ _ Rx Rv R2) as (w & Ew & Dw); [destruct Sm; lia|]. unfold minus_assign. rewrite Ew. cbn [bind].
    destruct (store_ok cap vs zs i x w _ Hv Rx Dw Sm) as (r & Er & Rr). rewrite Er. cbn [bind]. eexists _, _. split; [reflexivity|].
    split; [assumption|constructor].
  - assert (Fn : efine cap zs (PInt n)) by (cbn [efine] in F; cbn [efine]; tauto).
    cbn [efine zval esolid] in F. destruct F as (Sm & (Sx & Hi) & (Sn & _)).
    destruct (peval_fine cap vs zs (PInt n) Hbig Hv Fn) as (v & Ev & Dv & _). cbn [peval zval fst] in Ev, Dv.
    destruct (Hold i Hi) as (x & Ex & Rx). rewrite Ex. cbn [bind].
    pose proof (proj1 Rx) as Dx. cbn [fst] in Dx.
    destruct (times_value cap x v _ _ Dx Dv Hbig (fits _ _ _ _ _ Dx Dv Sx Sn Sm)) as (w & Ew & Dw & Cw).
    rewrite Z.abs_eq in Dw by (destruct Sn; lia).
    unfold times_assign_int. rewrite Ev. cbn [bind]. unfold times in Ew. rewrite Ew. cbn [bind].
    destruct (store_ok cap vs zs i x w _ Hv Rx Dw Sm) as (r & Er & Rr). rewrite Er. cbn [bind]. eexists _, _. split; [reflexivity|].
    split; [assumption|constructor].
  - assert (Fn : efine cap zs (PInt 1)) by (cbn [efine] in F; cbn [efine]; tauto).
    cbn [efine zval esolid] in F. destruct F as (Sm & (Sx & Hi) & _ & R1 & R2).
    destruct (peval_fine cap vs zs (PInt 1) Hbig Hv Fn) as (v & Ev & Rv). cbn [peval] in Ev.
    destruct (Hold i Hi) as (x & Ex & Rx). rewrite Ex. cbn [bind]. unfold incr. rewrite Ev. cbn [bind].
    destruct (plus_ok cap x v _ _ _ _ Rx Rv R1 R2) as (w & Ew & Dw). unfold plus_assign. rewrite Ew. cbn [bind].
    destruct (store_ok cap vs zs i x w _ Hv Rx Dw Sm) as (r & Er & Rr). rewrite Er. cbn [bind]. eexists _, _. split; [reflexivity|].
    split; [assumption|constructor].
  - assert (Fn : efine cap zs (PInt 1)) by (cbn [efine] in F; cbn [efine]; tauto).
    cbn [efine zval esolid] in F. destruct F as (Sm & (Sx & Hi) & _ & R2).
    destruct (peval_fine cap vs zs (PInt 1) Hbig Hv Fn) as (v & Ev & Rv). cbn [peval] in Ev.
    destruct (Hold i Hi) as (x & Ex & Rx). rewrite Ex. cbn [bind]. unfold decr. rewrite Ev. cbn [bind].
    destruct (minus_ok cap x v _ _ _ _ Rx Rv R2) as (w & Ew & Dw); [cbn [zval]; destruct Sm; lia|]. unfold minus_assign. rewrite Ew. cbn [bind].
    destruct (store_ok cap vs zs i x w _ Hv Rx Dw Sm) as (r & Er & Rr). rewrite Er. cbn [bind]. eexists _, _. split; [reflexivity|].
    split; [assumption|constructor].
  - destruct (Hold i F) as (x & Ex & Dx & Sx & _). rewrite Ex. cbn [bind fst] in *.
    destruct (Z.eq_dec (value zs i) 0) as [E0|E0].
    + rewrite E0 in Dx. rewrite (toString_zero _ _ Dx). cbn [bind]. eexists _, _. split; [reflexivity|]. split; [assumption|].
      constructor; [|constructor]. now split.
    + destruct (toString_spec _ _ _ Dx E0) as (t & Et & Nt). rewrite Et. cbn [bind]. eexists _, _. split; [reflexivity|]. split; [assumption|].
      constructor; [|constructor]. now split.
Qed.

Lemma execs_fine cap p : 90 * Z.of_nat cap <= 900000000 -> forall vs zs, reps cap vs zs -> fine cap zs p ->
  exists vs' o, execs cap vs p = Ok (vs', o) /\ reps cap vs' (fst (zexecs zs p)) /\ Forall2 shows o (snd (zexecs zs p)).
Proof.
  intros Hbig. induction p as [|s p IH]; intros vs zs Hv F.
  - exists vs, []. split; [reflexivity|]. split; [assumption|constructor].
  - cbn [fine] in F. destruct F as [Fs Fp]. destruct (exec_fine cap vs zs s Hbig Hv Fs) as (v1 & o1 & E1 & R1 & O1).
    destruct (IH v1 _ R1 Fp) as (v2 & o2 & E2 & R2 & O2).
    exists v2, (o1 ++ o2). cbn [execs zexecs]. rewrite E1. cbn [bind]. rewrite E2. cbn [bind].
    destruct (zexec zs s) as [z1 q1]. cbn [fst snd] in *. destruct (zexecs z1 p) as [z2 q2]. cbn [fst snd] in *.
    split; [reflexivity|]. split; [assumption|]. now apply Forall2_app.
Qed.

(** ** whole programs *)
Lemma zexecs_app p : forall zs q, zexecs zs (p ++ q) =
  (fst (zexecs (fst (zexecs zs p)) q), snd (zexecs zs p) ++ snd (zexecs (fst (zexecs zs p)) q)).
Proof.
  induction p as [|s p IH]; intros zs q; cbn [app zexecs].
  - cbn [fst snd app]. now destruct (zexecs zs q).
  - destruct (zexec zs s) as [z1 o1]. rewrite IH. destruct (zexecs z1 p) as [z2 o2]. cbn [fst snd].
    now rewrite app_assoc.
Qed.
Lemma fine_app cap p : forall zs q, fine cap zs (p ++ q) <-> fine cap zs p /\ fine cap (fst (zexecs zs p)) q.
Proof.
  induction p as [|s p IH]; intros zs q; cbn [app fine zexecs].
  - cbn [fst]. tauto.
  - rewrite IH. destruct (zexec zs s) as [z1 o1]. cbn [fst]. destruct (zexecs z1 p) as [z2 o2]. cbn [fst]. tauto.
Qed.
Lemma nd_mono x y : 0 <= x <= y -> nd x <= nd y.
Proof.
  intros H. destruct (nd_spec x ltac:(lia)) as (X0 & X1 & X2). destruct (nd_spec y ltac:(lia)) as (Y0 & Y1 & Y2).
  destruct (Z.eq_dec x 0) as [E|E]; [rewrite (X1 E); lia|].
  destruct (X2 ltac:(lia)) as [X3 X4]. destruct (Y2 ltac:(lia)) as [Y3 Y4].
  destruct (Z.le_gt_cases (nd x) (nd y)); [assumption|].
  assert (10 ^ nd y <= 10 ^ (nd x - 1)) by (apply Z.pow_le_mono_r; lia). lia.
Qed.
Lemma factorial_pos n : 1 <= factorial n.
Proof. induction n as [|n IH]; [cbn; lia|]. change (factorial (S n)) with (Z.of_nat (S n) * factorial n). nia. Qed.
Lemma factorial_up n k : (k <= n)%nat -> factorial k <= factorial n.
Proof.
  induction 1 as [|n H IH]; [lia|]. change (factorial (S n)) with (Z.of_nat (S n) * factorial n).
  pose proof (factorial_pos n). nia.
Qed.
Lemma factorial_ge n : (1 <= n)%nat -> Z.of_nat n <= factorial n.
Proof. intros H. destruct n as [|n]; [lia|]. change (factorial (S n)) with (Z.of_nat (S n) * factorial n). pose proof (factorial_pos n). nia. Qed.
Lemma fact_loop cap n : factorial n < 10 ^ (Z.of_nat cap - 1) -> in_int64 (Z.of_nat n) = true -> forall k, (k <= n)%nat ->
  fine cap [(1, true)] (map (fun i => SMul 0 (Z.of_nat i)) (seq 1 k)) /\
  exists s, zexecs [(1, true)] (map (fun i => SMul 0 (Z.of_nat i)) (seq 1 k)) = ([(factorial k, s)], []).
Proof.
  intros Hn Hi. induction k as [|k IH]; intros Hk.
  - split; [exact I|]. exists true. reflexivity.
  - destruct (IH ltac:(lia)) as (F & s & E). rewrite seq_S, map_app. cbn [map].
    rewrite fine_app, zexecs_app, E. cbn [fst snd]. 
    pose proof (factorial_up n (S k) Hk) as U. pose proof (factorial_up n k ltac:(lia)) as U'.
    pose proof (factorial_pos k) as P. pose proof (factorial_pos (S k)) as P'. pose proof (factorial_ge (S k) ltac:(lia)) as G.
    change (factorial (S k)) with (Z.of_nat (S k) * factorial k) in *.
    split.
    + split; [assumption|]. cbn [fine sfine efine zval]. unfold value, small. cbn [nth fst length].
      replace (1 + k)%nat with (S k) by lia.
      rewrite (Z.mul_comm (factorial k)). unfold in_int64, int64_min, int64_max in *. repeat split; try lia.
    + eexists. cbn [zexecs zexec]. unfold store, value. cbn [nth fst snd zput app]. 
      replace (1 + k)%nat with (S k) by lia. rewrite (Z.mul_comm (factorial k)). reflexivity.
Qed.
Lemma fact_program_ok cap n : 90 * Z.of_nat cap <= 900000000 -> factorial n < 10 ^ (Z.of_nat cap - 1) -> in_int64 (Z.of_nat n) = true ->
  exists vs t, execs cap [] (fact_program n) = Ok (vs, [t]) /\ numeral t (factorial n).
Proof.
  intros Hbig Hn Hi. destruct (fact_loop cap n Hn Hi n ltac:(lia)) as (F & s & E).
  pose proof (factorial_pos n) as P.
  assert (F0 : fine cap [] (fact_program n)).
  { unfold fact_program. apply fine_app. split.
    - cbn [fine sfine efine zval]. unfold small. split; [|exact I]. split; [lia|reflexivity].
    - cbn [zexecs zexec zval app fst]. apply fine_app. split; [assumption|]. rewrite E. cbn [fst fine sfine length]. split; [lia|exact I]. }
  destruct (execs_fine cap (fact_program n) Hbig [] [] (Forall2_nil _) F0) as (vs & o & Eo & _ & Ho).
  unfold fact_program in Ho at 1. rewrite zexecs_app in Ho. cbn [zexecs zexec zval app fst snd] in Ho.
  rewrite zexecs_app, E in Ho. cbn [zexecs zexec zval app fst snd] in Ho. unfold value in Ho. cbn [nth fst] in Ho.
  inversion Ho as [|t z o' zs' Ht Hn']. subst. inversion Hn'. subst. exists vs, t. split; [assumption|]. apply Ht. lia.
Qed.

Lemma fib_SS k : fib (S (S k)) = fib (S k) + fib k.
Proof. reflexivity. Qed.
Lemma fib_pos k : 0 <= fib k /\ 1 <= fib (S k).
Proof. induction k as [|k [I1 I2]]; [cbn; lia|]. rewrite fib_SS. lia. Qed.
Lemma fib_up n k : (k <= n)%nat -> fib k <= fib n.
Proof.
  induction 1 as [|n H IH]; [lia|]. destruct n as [|n]; [assert (k = 0%nat) by lia; subst; cbn; lia|].
  rewrite fib_SS. pose proof (fib_pos n). lia.
Qed.
Lemma repeated_S {A} n (p : list A) : repeated (S n) p = repeated n p ++ p.
Proof. induction n as [|n IH]; [cbn; now rewrite app_nil_r|]. cbn [repeated] in *. rewrite IH at 1. now rewrite app_assoc. Qed.
Definition third (k : nat) : Z := match k with O => 0 | S _ => fib (S k) end.
Lemma fib_loop cap n : fib (S n) < 10 ^ (Z.of_nat cap - 1) -> forall k, (k <= n)%nat ->
  fine cap [(0, true); (1, true); (0, true)] (repeated k [SSet 2 (PAdd (PVar 0) (PVar 1)); SSet 0 (PVar 1); SSet 1 (PVar 2)]) /\
  zexecs [(0, true); (1, true); (0, true)] (repeated k [SSet 2 (PAdd (PVar 0) (PVar 1)); SSet 0 (PVar 1); SSet 1 (PVar 2)])
  = ([(fib k, true); (fib (S k), true); (third k, true)], []).
Proof.
  intros Hn. induction k as [|k IH]; intros Hk; [split; [exact I|reflexivity]|].
  destruct (IH ltac:(lia)) as (F & E). rewrite repeated_S, fine_app, zexecs_app, E. cbn [fst snd].
  pose proof (fib_pos k) as P. pose proof (fib_pos (S k)) as P'.
  pose proof (fib_up (S n) (S (S k)) ltac:(lia)) as U. rewrite fib_SS in U.
  assert (T : 0 <= third k <= fib (S k)) by (unfold third; destruct k; cbn [fib] in *; lia).
  set (x := fib k) in *. set (y := fib (S k)) in *. set (c := third k) in *.
  assert (N1 : (nd c <=? nd (x + y)) = true) by (apply Z.leb_le, nd_mono; lia).
  assert (X : x <= y) by (apply fib_up; lia).
  assert (N2 : (nd x <=? nd y) = true) by (apply Z.leb_le, nd_mono; lia).
  assert (N3 : (nd y <=? nd (x + y)) = true) by (apply Z.leb_le, nd_mono; lia).
  split.
  - split; [assumption|]. cbn [fine sfine efine zexec fst zval esolid]. unfold store, value, solid, small, reaches.
    cbn [nth fst snd zput length]. 
    repeat match goal with |- _ /\ _ => split end; try lia; try exact I; try (left; reflexivity).
  - cbn [zexecs zexec zval fst snd]. unfold store, value, solid. cbn [nth fst snd zput app]. rewrite N1. cbn [andb nth fst snd zput].
    rewrite N2. cbn [andb nth fst snd zput]. rewrite N3. cbn [andb]. cbn [third].
    change (fib (S (S k))) with (y + x). rewrite (Z.add_comm y x). reflexivity.
Qed.
Lemma fib_program_ok cap n : 90 * Z.of_nat cap <= 900000000 -> fib (S n) < 10 ^ (Z.of_nat cap - 1) ->
  exists vs t, execs cap [] (fib_program n) = Ok (vs, [t]) /\ shows t (fib n).
Proof.
  intros Hbig Hn. destruct (fib_loop cap n Hn n ltac:(lia)) as (F & E). pose proof (fib_pos n) as P.
  assert (F0 : fine cap [] (fib_program n)).
  { unfold fib_program. apply fine_app. split.
    - cbn [fine sfine efine zval]. unfold small. repeat match goal with |- _ /\ _ => split end; try lia; try reflexivity; exact I.
    - cbn [zexecs zexec zval app fst]. apply fine_app. split; [exact F|]. rewrite E. cbn [fst fine sfine length]. split; [lia|exact I]. }
  destruct (execs_fine cap (fib_program n) Hbig [] [] (Forall2_nil _) F0) as (vs & o & Eo & _ & Ho).
  unfold fib_program in Ho at 1. rewrite zexecs_app in Ho. cbn [zexecs zexec zval app fst snd] in Ho.
  rewrite zexecs_app, E in Ho. cbn [zexecs zexec zval app fst snd] in Ho. unfold value in Ho. cbn [nth fst] in Ho.
  inversion Ho as [|t z o' zs' Ht Hn']. subst. inversion Hn'. subst. exists vs, t. split; assumption.
Qed.

(** ** a copy added to a longer number *)
Lemma copy_add_ub cap a b : 0 <= a < b -> nd a < nd b -> small cap b -> in_int64 b = true ->
  execs cap [] [SNew (PInt a); SNew (PVar 0); SNew (PAdd (PVar 1) (PInt b))] = UB.
Proof.
  intros H Hn Sb Hb. assert (Sa : small cap a) by (unfold small in *; lia).
  pose proof (small_cap _ _ Sb) as Hcap.
  assert (10 ^ (Z.of_nat cap - 1) <= 10 ^ Z.of_nat cap) by (apply Z.pow_le_mono_r; lia).
  assert (Ha : in_int64 a = true) by (unfold in_int64, int64_min, int64_max in *; lia).
  destruct (of_int64_spec cap a Ha) as (x & Ex & Dx & Cx); [unfold int64_min; lia|unfold small in *; lia|].
  destruct (of_int64_spec cap b Hb) as (y & Ey & Dy & Cy); [unfold int64_min; lia|unfold small in *; lia|].
  cbn [execs exec init peval bind]. rewrite Ex. cbn [bind app]. unfold var at 1. cbn [nth_error bind].
  destruct (copy_ok cap x a Dx) as (r & Er & Dr). rewrite Er. cbn [bind app]. unfold var. cbn [nth_error bind].
  rewrite Ey. cbn [bind]. pose proof (nd_small _ _ Sb) as Lb. destruct (nd_spec a ltac:(lia)) as [N0 _].
  assert (Ub : add cap r y = UB).
  { apply (add_none cap r y (nd a)).
    - rewrite (len_nd _ _ _ Dr), (len_nd _ _ _ Dy) by lia. lia.
    - unfold copy in Er. destruct ((len x <? 0) || _ || _) eqn:Eg; [discriminate|]. injection Er as <-. cbn [el].
      rewrite !orb_false_iff in Eg. destruct Eg as [[G1 G2] G3]. rewrite (len_nd _ _ _ Dx) in * by lia.
      pose proof (denotes_length _ _ _ Dx) as Lx.
      rewrite aget_app2 by (rewrite firstn_length_le; lia). rewrite firstn_length_le by lia. apply aget_repeat. lia. }
  unfold plus, plus_val. destruct Dr as [_ Gr], Dy as [_ Gy]. rewrite Gr, Gy.
  destruct (Z.ltb_spec a 0); [lia|]. destruct (Z.ltb_spec b 0); [lia|]. rewrite Ub. reflexivity.
Qed.
