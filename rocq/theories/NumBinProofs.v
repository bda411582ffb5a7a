From Coq Require Import QArith Lqa.
From Verif Require Import Base NumModel NumSpec NumProofs NumPowProofs.
Local Open Scope Z_scope.

(** ** binomial *)
(** [G a b] = C(a+b, b) by Pascal's rule *)
Fixpoint G (a b : nat) : Z :=
  match a with
  | O => 1
  | S a' => (fix g b := match b with O => 1 | S b' => g b' + G a' (S b') end) b
  end.
Lemma G_0_l b : G 0 b = 1. Proof. reflexivity. Qed.
Lemma G_0_r a : G a 0 = 1. Proof. destruct a; reflexivity. Qed.
Lemma G_SS a b : G (S a) (S b) = G (S a) b + G a (S b). Proof. reflexivity. Qed.
Lemma G_pos a b : 1 <= G a b.
Proof.
  revert b; induction a as [|a IH]; intros b; [rewrite G_0_l; lia|].
  induction b as [|b IHb]; [rewrite G_0_r; lia|]. rewrite G_SS. specialize (IH (S b)). lia.
Qed.
Lemma G_fact a b : G a b * zfact a * zfact b = zfact (a + b).
Proof.
  revert b; induction a as [|a IH]; intros b.
  - rewrite G_0_l. cbn [zfact Nat.add]. ring.
  - induction b as [|b IHb].
    + rewrite G_0_r, Nat.add_0_r. change (zfact 0) with 1. ring.
    + rewrite G_SS. specialize (IH (S b)).
      replace (S a + S b)%nat with (S (a + S b)) by lia.
      replace (S a + b)%nat with (a + S b)%nat in IHb by lia.
      rewrite (zfact_S (a + S b)).
      rewrite (zfact_S b) at 1. rewrite (zfact_S a) in IHb |- *.
      rewrite (zfact_S b) in IH.
      transitivity ((G (S a) b * (Z.of_nat (S a) * zfact a) * zfact b) * Z.of_nat (S b)
        + (G a (S b) * zfact a * (Z.of_nat (S b) * zfact b)) * Z.of_nat (S a)); [ring|].
      rewrite IHb, IH. rewrite !Nat2Z.inj_succ, Nat2Z.inj_add, Nat2Z.inj_succ. ring.
Qed.
Lemma G_mono_r a b b' : (b <= b')%nat -> G a b <= G a b'.
Proof.
  induction 1; [lia|]. destruct a; [rewrite !G_0_l; lia|]. rewrite G_SS.
  pose proof (G_pos a (S m)). lia.
Qed.
Lemma G_mono_l a a' b : (a <= a')%nat -> G a b <= G a' b.
Proof.
  induction 1; [lia|]. destruct b; [rewrite !G_0_r; lia|]. rewrite G_SS.
  pose proof (G_pos (S m) b). lia.
Qed.
Lemma G_mono a b a' b' : (a <= a')%nat -> (b <= b')%nat -> G a b <= G a' b'.
Proof. intros. transitivity (G a' b); [now apply G_mono_l|now apply G_mono_r]. Qed.

Lemma for_loop_inv_bad {S} (bad : Prop) (I : Z -> S -> Prop) (body : Z -> S -> outcome S) n i s :
  I i s ->
  (forall k x, i <= k < i + Z.of_nat n -> I k x ->
     (body k x = UB /\ bad) \/ exists x', body k x = Ok x' /\ I (k + 1) x') ->
  (for_loop n i body s = UB /\ bad) \/ exists s', for_loop n i body s = Ok s' /\ I (i + Z.of_nat n) s'.
Proof.
  revert i s; induction n as [|n IH]; intros i s H0 Hstep.
  - right. exists s. split; [reflexivity|]. now replace (i + Z.of_nat 0) with i by lia.
  - destruct (Hstep i s) as [[E B]|(x & E & Hx)]; [lia|assumption| |].
    + left. cbn [for_loop]. now rewrite E.
    + destruct (IH (i + 1) x) as [[E' B]|(s' & E' & H')]; [assumption| | |].
      * intros k y Hk Hy. apply Hstep; [lia|assumption].
      * left. cbn [for_loop]. now rewrite E.
      * right. exists s'. cbn [for_loop]. rewrite E. cbn [bind]. split; [assumption|].
        now replace (i + Z.of_nat (Datatypes.S n)) with (i + 1 + Z.of_nat n) by lia.
Qed.

Section Binom.
Variables (t : ity) (n r : Z).
Hypothesis Hr : 1 <= r.
Hypothesis Hnr : r <= n.
Hypothesis Hn : n <= int32_max.
Hypothesis Ht : n <= imax t.

Definition GZ (a b : Z) : Z := G (Z.to_nat a) (Z.to_nat b).
Definition bad : Prop := inr t (GZ (n - r) r) = false.

Lemma GZ_bad a b : 0 <= a <= n - r -> 0 <= b <= r -> inr t (GZ a b) = false -> bad.
Proof.
  intros Ha Hb E. unfold bad. destruct (inr t (GZ (n - r) r)) eqn:E2; [|reflexivity].
  rewrite inr_iff in E2.
  assert (inr t (GZ a b) = true); [|congruence].
  rewrite inr_iff. destruct (imin_imax t). unfold GZ in *.
  pose proof (G_pos (Z.to_nat a) (Z.to_nat b)).
  pose proof (G_mono (Z.to_nat a) (Z.to_nat b) (Z.to_nat (n - r)) (Z.to_nat r)). lia.
Qed.

Lemma GZ_step i j : 0 <= i -> 1 <= j -> GZ i (j + 1) + GZ (i + 1) j = GZ (i + 1) (j + 1).
Proof.
  intros. unfold GZ. replace (Z.to_nat (j + 1)) with (S (Z.to_nat j)) by lia.
  replace (Z.to_nat (i + 1)) with (S (Z.to_nat i)) by lia. rewrite G_SS. lia.
Qed.

(** at inner position [j] of round [i] *)
Definition rowinv (i j : Z) (c : list Z) : Prop :=
  Z.of_nat (length c) = r /\
  forall k, 0 <= k < r ->
    let v := if k <? j then GZ (i + 1) (k + 1) else GZ i (k + 1) in
    aget c k = Ok v /\ inr t v = true.

Lemma binom_row_ok i c : 0 <= i < n - r -> rowinv i 0 c ->
  (binom_row t r c = UB /\ bad) \/ exists c', binom_row t r c = Ok c' /\ rowinv (i + 1) 0 c'.
Proof.
  intros Hi Hc. unfold binom_row.
  match goal with |- (for_loop _ _ ?b _ = _ /\ _) \/ _ => set (body := b) end.
  destruct (for_loop_inv_bad bad (rowinv i) body (Z.to_nat r) 0 c) as [H|(c' & E & HI)].
  - assumption.
  - intros j x Hj [HL HX]. replace (0 + Z.of_nat (Z.to_nat r)) with r in Hj by lia.
    unfold body.
    assert (E32 : chk32 (j + 1) = Ok (j + 1)).
    { unfold chk32. now replace (in_int32 (j + 1)) with true by (unfold in_int32, int32_min, int32_max in *; lia). }
    rewrite E32. cbn [bind].
    (* the new value *)
    assert (Step : forall v, v = GZ (i + 1) (j + 1) ->
      (v0 <- chk t v ;; aset x j v0) = UB /\ bad
      \/ exists x', (v0 <- chk t v ;; aset x j v0) = Ok x' /\ rowinv i (j + 1) x').
    { intros v ->. destruct (inr t (GZ (i + 1) (j + 1))) eqn:Ev.
      - right. rewrite chk_ok by assumption. cbn [bind].
        destruct (aset_spec x j (GZ (i + 1) (j + 1))) as (x' & Ex & Lx & Gx); [lia|].
        exists x'. split; [assumption|]. split; [congruence|].
        intros k Hk. rewrite Gx. specialize (HX k Hk). cbv zeta in HX |- *.
        destruct (Z.eqb_spec k j) as [->|Hne].
        + destruct (Z.ltb_spec j (j + 1)); [|lia]. now split.
        + destruct (Z.ltb_spec k (j + 1)), (Z.ltb_spec k j); try lia; assumption.
      - left. rewrite chk_no by assumption. split; [reflexivity|].
        apply (GZ_bad (i + 1) (j + 1)); [lia|lia|assumption]. }
    destruct (HX j Hj) as [Ej Rj]. cbv zeta in Ej. destruct (Z.ltb_spec j j); [lia|].
    rewrite Ej. cbn [bind].
    destruct (Z.eqb_spec j 0) as [->|Hj0].
    + apply Step. unfold GZ. change (Z.to_nat (0 + 1)) with 1%nat.
      replace (Z.to_nat (i + 1)) with (S (Z.to_nat i)) by lia. rewrite (G_SS (Z.to_nat i) 0), G_0_r. lia.
    + destruct (HX (j - 1) ltac:(lia)) as [Ej1 _]. cbv zeta in Ej1.
      destruct (Z.ltb_spec (j - 1) j); [|lia]. rewrite Ej1. cbn [bind]. apply Step.
      replace (j - 1 + 1) with j by lia. apply GZ_step; lia.
  - left; assumption.
  - right. exists c'. split; [assumption|]. destruct HI as [HL HX].
    split; [assumption|]. intros k Hk. specialize (HX k Hk). cbv zeta in HX |- *.
    destruct (Z.ltb_spec k (0 + Z.of_nat (Z.to_nat r))); [|lia].
    destruct (Z.ltb_spec k 0); [lia|]. assumption.
Qed.

Lemma binom_body_ok : binom_body t n r = chk t (GZ (n - r) r).
Proof.
  unfold binom_body.
  match goal with |- bind (for_loop _ _ ?b _) _ = _ => set (body := b) end.
  destruct (for_loop_inv_bad bad (fun i => rowinv i 0) body (Z.to_nat (n - r)) 0 (repeat 1 (Z.to_nat r)))
    as [[E B]|(c' & E & [HL HX])].
  - split; [rewrite repeat_length; lia|]. intros k Hk. cbv zeta.
    destruct (Z.ltb_spec k 0); [lia|]. split.
    + apply aget_nth_error; [lia|]. rewrite nth_error_repeat by lia. reflexivity.
    + destruct (imin_imax t). unfold GZ. change (Z.to_nat 0) with O. rewrite G_0_l, inr_iff. lia.
  - intros i x Hi HX. replace (0 + Z.of_nat (Z.to_nat (n - r))) with (n - r) in Hi by lia.
    unfold body, chk32.
    assert (E32 : in_int32 (i + 1) = true) by (unfold in_int32, int32_min, int32_max in *; lia).
    rewrite E32. cbn [bind]. now apply binom_row_ok.
  - rewrite E. cbn [bind]. symmetry. now apply chk_no.
  - rewrite E. cbn [bind]. destruct (HX (r - 1) ltac:(lia)) as [-> R]. cbv zeta.
    destruct (Z.ltb_spec (r - 1) 0); [lia|].
    replace (0 + Z.of_nat (Z.to_nat (n - r))) with (n - r) in * by lia.
    replace (r - 1 + 1) with r in * by lia.
    cbv zeta in R. destruct (Z.ltb_spec (r - 1) 0); [lia|]. symmetry. now apply chk_ok.
Qed.
End Binom.

Lemma binomial_spec t n r : 0 <= r <= n -> n <= int32_max ->
  binomial t n r = chk t (GZ (n - r) r).
Proof.
  intros Hr Hn. assert (Ht : n <= imax t) by (destruct t; cbn; unfold int32_max, int64_max in *; lia).
  destruct (imin_imax t) as [_ Hpos].
  assert (one : chk t 1 = Ok 1) by (apply chk_ok; rewrite inr_iff; destruct (imin_imax t); lia).
  unfold binomial. cbn [binomial_fuel].
  destruct (Z.ltb_spec n 0); [lia|]. destruct (Z.ltb_spec r 0); [lia|].
  destruct (Z.ltb_spec n r); [lia|]. cbn [orb].
  destruct (Z.eqb_spec r 0) as [->|Hr0].
  { unfold GZ. change (Z.to_nat 0) with O. now rewrite G_0_r. }
  destruct (Z.ltb_spec (Z.quot n 2) r) as [Hq|Hq].
  - destruct (Z.ltb_spec (n - r) 0); [lia|]. destruct (Z.ltb_spec n (n - r)); [lia|]. cbn [orb].
    assert (Sym : GZ (n - r) r = GZ (n - (n - r)) (n - r)).
    { unfold GZ. replace (n - (n - r)) with r by lia.
      pose proof (G_fact (Z.to_nat (n - r)) (Z.to_nat r)) as F1.
      pose proof (G_fact (Z.to_nat r) (Z.to_nat (n - r))) as F2.
      rewrite Nat.add_comm in F2.
      pose proof (zfact_pos (Z.to_nat r)). pose proof (zfact_pos (Z.to_nat (n - r))).
      rewrite <- F2 in F1.
      apply (Z.mul_reg_r _ _ (zfact (Z.to_nat (n - r)) * zfact (Z.to_nat r))); [nia|].
      rewrite Z.mul_assoc, F1. ring. }
    destruct (Z.eqb_spec (n - r) 0) as [E|E].
    { unfold GZ. rewrite E. change (Z.to_nat 0) with O. now rewrite G_0_l. }
    destruct (Z.ltb_spec (Z.quot n 2) (n - r)) as [Hq2|Hq2].
    { exfalso. rewrite Z.quot_div_nonneg in * by lia.
      pose proof (Z.div_mod n 2 ltac:(lia)). pose proof (Z.mod_pos_bound n 2 ltac:(lia)). lia. }
    rewrite Sym. apply binom_body_ok; lia.
  - apply binom_body_ok; lia.
Qed.

Lemma binomial_fact n r : 0 <= r <= n ->
  GZ (n - r) r * zfact (Z.to_nat r) * zfact (Z.to_nat (n - r)) = zfact (Z.to_nat n).
Proof.
  intros H. unfold GZ. replace (Z.to_nat n) with (Z.to_nat (n - r) + Z.to_nat r)%nat by lia.
  rewrite <- G_fact. ring.
Qed.
Lemma binomial_err t n r : n < 0 \/ r < 0 \/ n < r -> binomial t n r = Err.
Proof.
  intros H. unfold binomial. cbn [binomial_fuel].
  destruct ((n <? 0) || (r <? 0) || (n <? r)) eqn:E; [reflexivity|]. lia.
Qed.

(** ** Statistics *)
Local Open Scope Q_scope.

Lemma fold_plus l a : fold_left Qplus l a == a + qsum l.
Proof.
  revert a; induction l as [|x l IH]; intros a; cbn [fold_left qsum]; [ring|].
  rewrite IH. ring.
Qed.
Lemma sum_dbl_eq l : sum_dbl l == qsum l.
Proof. unfold sum_dbl. rewrite fold_plus. ring. Qed.
Lemma mean_dbl_eq l : mean_dbl l == qmean l.
Proof. unfold mean_dbl, qmean. rewrite sum_dbl_eq. reflexivity. Qed.
Lemma sum_square_eq m l : sum_square m l == qsum (map (fun x => (x - m) * (x - m)) l).
Proof.
  unfold sum_square.
  assert (H : forall a, fold_left (fun acc x => acc + (x - m) * (x - m)) l a
            == a + qsum (map (fun x => (x - m) * (x - m)) l)).
  { induction l as [|x l IH]; intros a; cbn [fold_left qsum map]; [ring|]. rewrite IH. ring. }
  rewrite H. ring.
Qed.
Lemma sum_dev_ext m m' l : m == m' ->
  qsum (map (fun x => (x - m) * (x - m)) l) == qsum (map (fun x => (x - m') * (x - m')) l).
Proof. intros H. induction l as [|x l IH]; cbn [qsum map]; [ring|]. rewrite IH, H. ring. Qed.

Lemma variance_dbl_eq l : variance_dbl l == sum_sq_dev l / qlen l.
Proof.
  unfold variance_dbl, sum_sq_dev. rewrite sum_square_eq.
  rewrite (sum_dev_ext _ (qmean l)) by apply mean_dbl_eq. reflexivity.
Qed.

Lemma qsum_dev m l : qsum (map (fun x => (x - m) * (x - m)) l)
  == qsum (map (fun x => x * x) l) - (2 # 1) * m * qsum l + qlen l * m * m.
Proof.
  induction l as [|x l IH].
  - unfold qlen. cbn. ring.
  - cbn [qsum map]. rewrite IH.
    assert (E : qlen (x :: l) == 1 + qlen l).
    { unfold qlen. cbn [length]. rewrite Nat2Z.inj_succ. unfold Z.succ. rewrite inject_Z_plus.
      change (inject_Z 1) with 1. ring. }
    rewrite E. ring.
Qed.
Lemma qlen_pos l : l <> [] -> 0 < qlen l.
Proof.
  intros H. unfold qlen. destruct l; [congruence|]. cbn [length].
  change 0 with (inject_Z 0). rewrite <- Zlt_Qlt. lia.
Qed.
Lemma variance_shortcut l : l <> [] ->
  qsum (map (fun x => x * x) l) / qlen l - qmean l * qmean l == sum_sq_dev l / qlen l.
Proof.
  intros H. pose proof (qlen_pos l H). unfold sum_sq_dev. rewrite qsum_dev.
  unfold qmean. field; try (intros Hc; lra).
Qed.

Lemma zsum_nil : zsum [] = 0%Z. Proof. reflexivity. Qed.
Lemma zsum_cons x l : zsum (x :: l) = (x + zsum l)%Z. Proof. reflexivity. Qed.
Lemma zsum_q l : inject_Z (zsum l) == qsum (map inject_Z l).
Proof. induction l as [|x l IH]; cbn; [reflexivity|]. rewrite inject_Z_plus, IH. reflexivity. Qed.

Lemma sum_int_loop_iff l s : in_int32 s = true ->
  ((forall p q, l = p ++ q -> in_int32 (s + zsum p) = true) <-> sum_int_loop l s = Ok (s + zsum l)%Z)
  /\ ((exists v, sum_int_loop l s = Ok v) \/ sum_int_loop l s = UB)
  /\ (forall v, sum_int_loop l s = Ok v -> v = (s + zsum l)%Z).
Proof.
  revert s; induction l as [|x l IH]; intros s Hs.
  - cbn [sum_int_loop zsum fold_right]. rewrite Z.add_0_r. split; [split; [reflexivity|]|split; [eauto|]].
    + intros _ p q E. destruct p; [|discriminate]. rewrite zsum_nil. now rewrite Z.add_0_r.
    + intros v E. congruence.
  - cbn [sum_int_loop]. unfold chk32. destruct (in_int32 (s + x)) eqn:E.
    + cbn [bind]. destruct (IH (s + x)%Z E) as (I1 & I2 & I3).
      assert (E2 : (s + zsum (x :: l) = s + x + zsum l)%Z) by (rewrite ?zsum_cons, ?zsum_nil; lia).
      rewrite E2. split; [split|split; [assumption|assumption]].
      * intros H. apply I1. intros p q Epq. replace (s + x + zsum p)%Z with (s + zsum (x :: p))%Z by (rewrite ?zsum_cons, ?zsum_nil; lia).
        apply (H (x :: p) q). cbn. now rewrite Epq.
      * intros H p q Epq. destruct p as [|y p].
        -- rewrite zsum_nil. now rewrite Z.add_0_r.
        -- cbn in Epq. injection Epq as <- Epq.
           replace (s + zsum (x :: p))%Z with (s + x + zsum p)%Z by (rewrite ?zsum_cons, ?zsum_nil; lia).
           now apply (proj2 I1 H p q).
    + cbn [bind]. split; [split; [|discriminate]|split; [now right|discriminate]].
      intros H. specialize (H [x] l eq_refl). replace (s + zsum [x])%Z with (s + x)%Z in H by (rewrite ?zsum_cons, ?zsum_nil; lia).
      congruence.
Qed.

Lemma sum_sq_loop_iff l : forall a,
  (Forall (fun x => in_int32 (x * x) = true) l ->
     exists v, sum_sq_loop l a = Ok v /\ v == a + qsum (map (fun x => x * x) (map inject_Z l)))
  /\ (~ Forall (fun x => in_int32 (x * x) = true) l -> sum_sq_loop l a = UB).
Proof.
  induction l as [|x l IH]; intros a; cbn [sum_sq_loop map qsum].
  - split; [intros _; exists a; split; [reflexivity|ring]|]. intros H. destruct H. constructor.
  - unfold chk32. destruct (in_int32 (x * x)) eqn:E; cbn [bind].
    + destruct (IH (a + inject_Z (x * x))) as [I1 I2]. split.
      * intros H. inversion H; subst. destruct (I1 H3) as (v & -> & Hv). exists v. split; [reflexivity|].
        rewrite Hv, inject_Z_mult. ring.
      * intros H. apply I2. intros F. apply H. now constructor.
    + split; [intros H; inversion H; congruence|reflexivity].
Qed.

Lemma variance_int_ok l : l <> [] -> no_int_overflow l ->
  exists v, variance_int l = Ok v /\ v == sum_sq_dev (map inject_Z l) / qlen (map inject_Z l).
Proof.
  intros Hl [H1 H2]. unfold variance_int, mean_int, sum_int.
  destruct (proj1 (sum_sq_loop_iff l 0)) as (ss & -> & Ess); [now apply Forall_forall|].
  destruct (sum_int_loop_iff l 0 eq_refl) as ((S1 & _) & _). cbn [bind].
  rewrite S1 by exact H2. rewrite Z.add_0_l. cbn [bind]. eexists; split; [reflexivity|].
  assert (Hl' : map inject_Z l <> []) by (destruct l; [congruence|discriminate]).
  rewrite <- (variance_shortcut _ Hl').
  unfold qmean. rewrite <- zsum_q, Ess. unfold size, qlen. rewrite map_length.
  rewrite Qplus_0_l. reflexivity.
Qed.
Lemma variance_int_ub l : ~ no_int_overflow l -> variance_int l = UB.
Proof.
  intros H. unfold variance_int, mean_int, sum_int.
  assert (D : Forall (fun x => in_int32 (x * x) = true) l \/ ~ Forall (fun x => in_int32 (x * x) = true) l).
  { clear. induction l as [|x l [I|I]].
    - left; constructor.
    - destruct (in_int32 (x * x)) eqn:E; [left; now constructor|right; intros F; inversion F; congruence].
    - right; intros F; inversion F; contradiction. }
  destruct D as [D|D].
  - destruct (proj1 (sum_sq_loop_iff l 0) D) as (ss & -> & _). cbn [bind].
    destruct (sum_int_loop_iff l 0 eq_refl) as ((_ & S2) & [(v & Ev)|E0] & S3); [|now rewrite E0].
    exfalso. apply H. split; [now apply Forall_forall|].
    pose proof (S3 v Ev) as ->. exact (S2 Ev).
  - now rewrite (proj2 (sum_sq_loop_iff l 0) D).
Qed.

Lemma sq_nonneg (x : Q) : 0 <= x * x.
Proof. destruct x as [a b]. unfold Qle, Qmult. cbn. nia. Qed.
Lemma sq_zero (x : Q) : x * x == 0 -> x == 0.
Proof. intros H. apply Qmult_integral in H. tauto. Qed.
Lemma qsum_sq_nonneg m l : 0 <= qsum (map (fun x => (x - m) * (x - m)) l).
Proof.
  induction l as [|x l IH]; cbn [qsum map]; [apply Qle_refl|].
  pose proof (sq_nonneg (x - m)). lra.
Qed.
Lemma qsum_sq_zero m l : qsum (map (fun x => (x - m) * (x - m)) l) == 0 -> forall x, In x l -> x == m.
Proof.
  induction l as [|y l IH]; cbn [qsum map]; intros H x Hin; [destruct Hin|].
  pose proof (sq_nonneg (y - m)). pose proof (qsum_sq_nonneg m l).
  destruct Hin as [->|Hin].
  - assert ((x - m) * (x - m) == 0) by lra. apply sq_zero in H2. lra.
  - apply IH; [lra|assumption].
Qed.
Lemma qsum_const c l : (forall x, In x l -> x == c) -> qsum l == qlen l * c.
Proof.
  induction l as [|x l IH]; intros H; [unfold qlen; cbn; ring|].
  cbn [qsum]. assert (Hx : x == c) by (apply H; now left).
  rewrite IH by (intros; apply H; now right).
  assert (E : qlen (x :: l) == 1 + qlen l).
  { unfold qlen. cbn [length]. rewrite Nat2Z.inj_succ. unfold Z.succ. rewrite inject_Z_plus.
    change (inject_Z 1) with 1. ring. }
  rewrite E, Hx. ring.
Qed.
Lemma variance_sign l : l <> [] ->
  0 <= sum_sq_dev l / qlen l /\
  (sum_sq_dev l / qlen l == 0 <-> forall x y, In x l -> In y l -> x == y).
Proof.
  intros Hl. pose proof (qlen_pos l Hl) as Hp. split.
  - apply Qle_shift_div_l; [assumption|]. rewrite Qmult_0_l. apply qsum_sq_nonneg.
  - split.
    + intros H. assert (E : sum_sq_dev l == 0).
      { assert (sum_sq_dev l == sum_sq_dev l / qlen l * qlen l) by (field; intros Hc; lra).
        rewrite H0, H. ring. }
      intros x y Hx Hy. pose proof (qsum_sq_zero _ _ E) as Z. rewrite (Z x Hx), (Z y Hy). reflexivity.
    + intros H. destruct l as [|x l]; [congruence|].
      assert (M : qmean (x :: l) == x).
      { unfold qmean. rewrite (qsum_const x).
        - field; try (intros Hc; lra).
        - intros y Hy. apply H; [assumption|now left]. }
      assert (E : sum_sq_dev (x :: l) == 0).
      { unfold sum_sq_dev. rewrite (qsum_const 0); [ring|].
        intros z Hz. apply in_map_iff in Hz. destruct Hz as (y & <- & Hy).
        rewrite M, (H y x Hy (or_introl eq_refl)). ring. }
      rewrite E. field; try (intros Hc; lra).
Qed.

Lemma sample_variance_dbl_eq l : (2 <= length l)%nat ->
  sample_variance_dbl l * (qlen l - 1) == variance_dbl l * qlen l.
Proof.
  intros Hl. assert (Hp : 1 < qlen l).
  { unfold qlen. change 1 with (inject_Z 1). rewrite <- Zlt_Qlt. lia. }
  unfold sample_variance_dbl, variance_dbl. unfold size. fold (qlen l). field; repeat split; intros Hc; lra.
Qed.
Lemma sample_variance_int_eq l : (2 <= length l)%nat ->
  (forall p q, l = p ++ q -> in_int32 (zsum p) = true) ->
  exists v, sample_variance_int l = Ok v /\ v == sample_variance_dbl (map inject_Z l).
Proof.
  intros Hl H2. unfold sample_variance_int, mean_int, sum_int.
  destruct (sum_int_loop_iff l 0 eq_refl) as ((S1 & _) & _).
  rewrite S1 by exact H2. cbn [bind]. eexists; split; [reflexivity|].
  unfold sample_variance_dbl. rewrite !sum_square_eq.
  rewrite (sum_dev_ext _ (mean_dbl (map inject_Z l))).
  - unfold size. rewrite map_length. reflexivity.
  - rewrite mean_dbl_eq. unfold qmean, size, qlen. rewrite <- zsum_q, map_length.
    rewrite Z.add_0_l. reflexivity.
Qed.
