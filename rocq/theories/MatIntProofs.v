(** Lemmas for matrices of machine integers. *)
From Verif Require Import Base MatModel MatSpec MatProofs IntTyModel NumSpec IntTySpec IntTyProofs MatIntModel MatIntSpec.
Local Open Scope Z_scope.

Lemma wide_promote t : wide t = promote t.
Proof. reflexivity. Qed.
Lemma promote_bits t : 32 <= bits (promote t) /\ bits t <= bits (promote t).
Proof. destruct t as [sg []]; cbn; lia. Qed.
Lemma arith_fits t z : fits t z -> exists v, arith (promote t) z = Ok v /\ (2 ^ bits t | z - v) /\ conv t v = conv t z.
Proof.
  unfold fits. rewrite wide_promote. intros H. destruct (sgn (promote t)) eqn:S.
  - exists z. rewrite (arith_ok _ z (H eq_refl)). split; [reflexivity|]. split; [exists 0; lia|reflexivity].
  - exists (conv (promote t) z). rewrite arith_unsigned by exact S. split; [reflexivity|]. split.
    + destruct (conv_congr (promote t) z) as [q E]. destruct (promote_bits t) as [_ B]. exists (q * 2 ^ (bits (promote t) - bits t)). rewrite E. rewrite <- Z.mul_assoc. f_equal. rewrite <- Z.pow_add_r; [f_equal; lia|lia|]. destruct (bits_cases t); lia.
    + apply conv_conv. apply promote_bits.
Qed.
Lemma arith_misfit t z : ~ fits t z -> arith (promote t) z = UB.
Proof.
  unfold fits. rewrite wide_promote. intros H. destruct (sgn (promote t)) eqn:S; [|exfalso; apply H; discriminate]. apply arith_ub; [exact S|]. intros I. apply H. auto.
Qed.
Lemma fits_dec t z : {fits t z} + {~ fits t z}.
Proof.
  unfold fits. destruct (sgn (wide t)) eqn:S; [|left; discriminate]. destruct (has (wide t) z) eqn:H.
  - left. intros _. now apply has_iff.
  - right. intros I. specialize (I eq_refl). apply has_iff in I. congruence.
Qed.
Lemma eadd_ok t x y : fits t (x + y) -> eadd t x y = Ok (conv t (x + y)).
Proof. intros H. unfold eadd. destruct (arith_fits t _ H) as (v & -> & _ & E). cbn [bind]. now rewrite E. Qed.
Lemma eadd_ub t x y : ~ fits t (x + y) -> eadd t x y = UB.
Proof. intros H. unfold eadd. now rewrite arith_misfit. Qed.
Lemma esub_ok t x y : fits t (x - y) -> esub t x y = Ok (conv t (x - y)).
Proof. intros H. unfold esub. destruct (arith_fits t _ H) as (v & -> & _ & E). cbn [bind]. now rewrite E. Qed.
Lemma esub_ub t x y : ~ fits t (x - y) -> esub t x y = UB.
Proof. intros H. unfold esub. now rewrite arith_misfit. Qed.
Lemma muladd_ok t z x y : fits t (x * y) -> fits t (z + x * y) -> emuladd t z x y = Ok (conv t (z + x * y)).
Proof.
  intros H1 H2. unfold emuladd. destruct (arith_fits t _ H1) as (p & E & D & _). destruct (sgn (promote t)) eqn:S.
  - assert (p = x * y). { unfold fits in H1. rewrite wide_promote in H1. rewrite (arith_ok _ _ (H1 S)) in E. congruence. } subst p. rewrite E. cbn [bind]. destruct (arith_fits t _ H2) as (v & -> & _ & E2). cbn [bind]. now rewrite E2.
  - rewrite E. cbn [bind]. assert (F : fits t (z + p)) by (unfold fits; rewrite wide_promote; congruence). destruct (arith_fits t _ F) as (v & -> & _ & E2). cbn [bind]. rewrite E2. f_equal. apply conv_eq.
    destruct D as [q D]. exists (- q). lia.
Qed.
Lemma muladd_ub t z x y : ~ (fits t (x * y) /\ fits t (z + x * y)) -> emuladd t z x y = UB.
Proof.
  intros H. unfold emuladd. destruct (fits_dec t (x * y)) as [F|F]; [|now rewrite arith_misfit]. destruct (arith_fits t _ F) as (p & E & _ & _).
  destruct (sgn (promote t)) eqn:S; [|exfalso; apply H; split; [exact F|unfold fits; rewrite wide_promote; congruence]].
  assert (p = x * y). { unfold fits in F. rewrite wide_promote in F. rewrite (arith_ok _ _ (F S)) in E. congruence. } subst p. rewrite E. cbn [bind]. rewrite arith_misfit; [reflexivity|]. tauto.
Qed.

(** * Loops that may be undefined *)
Lemma for_loop_ub {S} (I : S -> Prop) (body : Z -> S -> outcome S) k0 : forall n i s, I s ->
  (forall k x, i <= k < i + Z.of_nat n -> I x -> body k x = UB \/ exists x', body k x = Ok x' /\ I x') ->
  i <= k0 < i + Z.of_nat n -> (forall x, I x -> body k0 x = UB) -> for_loop n i body s = UB.
Proof.
  induction n as [|n IH]; intros i s Hs Hb Hk U; [lia|]. cbn [for_loop]. destruct (Hb i s ltac:(lia) Hs) as [E|(x' & E & I')]; rewrite E; [reflexivity|]. cbn [bind].
  destruct (Z.eq_dec k0 i) as [->|N]; [rewrite (U s Hs) in E; discriminate|]. apply IH; [exact I'| |lia|exact U]. intros k x Hk' Hx. apply Hb; [lia|exact Hx].
Qed.
Notation ent := (ent Eops).
Lemma loop2_ub n c (g : Z -> Z -> Z -> Z) (P : Z -> Z -> Prop) (body : Z -> Z -> mat Z -> outcome (mat Z)) m i0 j0 :
  shape m n c ->
  (forall i j m, shape m n c -> 0 <= i < n -> 0 <= j < c -> body i j m = UB \/ exists m', body i j m = Ok m' /\ shape m' n c) ->
  0 <= i0 < n -> 0 <= j0 < c -> (forall m, shape m n c -> body i0 j0 m = UB) -> loop2 n c body m = UB.
Proof.
  intros Sm Hb Hi Hj U. unfold loop2. apply (for_loop_ub (fun x => shape x n c) _ i0); [exact Sm| |lia|].
  - intros i x Hi' Sx. assert (G : forall d j x, shape x n c -> 0 <= j -> j + Z.of_nat d <= c -> for_loop d j (body i) x = UB \/ exists x', for_loop d j (body i) x = Ok x' /\ shape x' n c).
    { induction d as [|d IH]; intros j y Sy Hj0 Hd; [right; exists y; split; [reflexivity|exact Sy]|]. cbn [for_loop]. destruct (Hb i j y Sy ltac:(lia) ltac:(lia)) as [E|(y' & E & Sy')]; rewrite E; [now left|]. cbn [bind]. apply IH; [exact Sy'|lia|lia]. }
    apply G; [exact Sx|lia|lia].
  - intros x Sx. apply (for_loop_ub (fun x => shape x n c) _ j0); [exact Sx| |lia|exact U]. intros j y Hj' Sy. apply Hb; [exact Sy|lia|lia].
Qed.

(** * Sums and differences *)
Section Zip.
Context (f : Z -> Z -> outcome Z) (h : Z -> Z -> Z) (P : Z -> Z -> Prop).
Hypothesis f_ok : forall x y, P x y -> f x y = Ok (h x y).
Hypothesis f_ub : forall x y, ~ P x y -> f x y = UB.
Hypothesis P_dec : forall x y, {P x y} + {~ P x y}.
Lemma set_spec (m : mat Z) n c i j v : shape m n c -> 0 <= i < n -> 0 <= j < c -> exists m', mset m i j v = Ok m' /\ shape m' n c.
Proof. intros Sm Hi Hj. destruct (mset_shape Eops m n c i j v Sm Hi Hj) as (m' & E & S & _). eauto. Qed.
Lemma zip_ok (a b : mat Z) n c : shape a n c -> shape b n c -> (forall i j, 0 <= i < n -> 0 <= j < c -> P (ent a i j) (ent b i j)) ->
  exists r, izip_op f a b = Ok r /\ izip_assign f a b = Ok r /\ shape r n c /\ forall i j, 0 <= i < n -> 0 <= j < c -> ent r i j = h (ent a i j) (ent b i j).
Proof.
  intros Sa Sb HP. destruct (shape_nonneg a n c Sa) as (H0 & H1 & Ra & Ca). destruct (shape_nonneg b n c Sb) as (_ & _ & Rb & Cb).
  unfold izip_op, izip_assign. rewrite Ra, Rb, Ca, Cb, !Z.eqb_refl. cbn [andb negb]. destruct (mk_shape Eops n c H0 H1) as (r0 & E0 & S0 & _). rewrite E0. cbn [bind].
  destruct (loop2_sets Eops n c (fun i j _ => h (ent a i j) (ent b i j)) (fun i j r => x <- mget a i j ;; y <- mget b i j ;; v <- f x y ;; mset r i j v) r0 S0) as (r & E & S & H).
  { intros i j m Sm Hi Hj. unfold sets. rewrite (mget_shape Eops a n c), (mget_shape Eops b n c) by assumption. cbn [bind]. rewrite f_ok by auto. cbn [bind].
    destruct (mset_shape Eops m n c i j (h (ent a i j) (ent b i j)) Sm Hi Hj) as (m' & E & S & H). eauto. }
  exists r. split; [exact E|]. split; [|split; [exact S|exact H]].
  assert (G : exists r', loop2 n c (fun i j a => x <- mget a i j ;; y <- mget b i j ;; v <- f x y ;; mset a i j v) a = Ok r' /\ shape r' n c /\ forall i j, 0 <= i < n -> 0 <= j < c -> ent r' i j = h (ent a i j) (ent b i j)).
  { (* row by row: entries before (i,j) are done, the others untouched *)
    unfold loop2.
    destruct (for_loop_inv (fun i (x : mat Z) => shape x n c /\ forall p q, 0 <= p < n -> 0 <= q < c -> ent x p q = if p <? i then h (ent a p q) (ent b p q) else ent a p q)
      (fun i s => for_loop (Z.to_nat c) 0 (fun j a => x <- mget a i j ;; y <- mget b i j ;; v <- f x y ;; mset a i j v) s) (Z.to_nat n) 0 a) as (m' & E' & Sm & Hm').
    - split; [assumption|]. intros p q Hp Hq. destruct (Z.ltb_spec p 0); [lia|reflexivity].
    - intros i x Hi (Sx & Hx).
      destruct (for_loop_inv (fun j (y : mat Z) => shape y n c /\ forall p q, 0 <= p < n -> 0 <= q < c ->
          ent y p q = if (p <? i) || ((p =? i) && (q <? j)) then h (ent a p q) (ent b p q) else ent a p q)
        (fun j a => x <- mget a i j ;; y <- mget b i j ;; v <- f x y ;; mset a i j v) (Z.to_nat c) 0 x) as (y & Ey & Sy & Hy).
      + split; [assumption|]. intros p q Hp Hq. rewrite Hx by assumption. replace (q <? 0) with false by lia. rewrite andb_false_r, orb_false_r. reflexivity.
      + intros j y Hj (Sy & Hy). assert (Hi' : 0 <= i < n) by lia. assert (Hj' : 0 <= j < c) by lia. rewrite (mget_shape Eops y n c i j Sy Hi' Hj'), (mget_shape Eops b n c i j Sb Hi' Hj'). cbn [bind].
        rewrite (Hy i j Hi' Hj'). rewrite Z.ltb_irrefl, Z.eqb_refl, Z.ltb_irrefl. cbn [andb orb]. rewrite f_ok by auto. cbn [bind].
        destruct (mset_shape Eops y n c i j (h (ent a i j) (ent b i j)) Sy Hi' Hj') as (y' & E'' & S' & H'). exists y'. split; [exact E''|]. split; [exact S'|].
        intros p q Hp Hq. rewrite H' by lia. rewrite (Hy p q) by lia. destruct (Z.eqb_spec p i) as [->|Np]; destruct (Z.eqb_spec q j) as [->|Nq]; cbn [andb]; rewrite ?Z.ltb_irrefl; cbn [orb].
        * now replace (j <? j + 1) with true by lia.
        * now replace (q <? j + 1) with (q <? j) by lia.
        * reflexivity.
        * reflexivity.
      + exists y. split; [assumption|]. split; [assumption|]. intros p q Hp Hq. rewrite Hy by assumption. replace (q <? 0 + Z.of_nat (Z.to_nat c)) with true by lia. rewrite andb_true_r.
        replace ((p <? i) || (p =? i)) with (p <? i + 1) by lia. reflexivity.
    - exists m'. split; [assumption|]. split; [assumption|]. intros p q Hp Hq. rewrite Hm' by assumption. destruct (Z.ltb_spec p (0 + Z.of_nat (Z.to_nat n))); [reflexivity|lia]. }
  destruct G as (r' & E' & S' & H'). rewrite E'. f_equal. apply (mat_ext Eops r' r n c S' S). intros i j Hi Hj. now rewrite H, H'.
Qed.
Lemma zip_ub (a b : mat Z) n c i0 j0 : shape a n c -> shape b n c -> 0 <= i0 < n -> 0 <= j0 < c -> ~ P (ent a i0 j0) (ent b i0 j0) -> izip_op f a b = UB.
Proof.
  intros Sa Sb Hi0 Hj0 HP. destruct (shape_nonneg a n c Sa) as (H0 & H1 & Ra & Ca). destruct (shape_nonneg b n c Sb) as (_ & _ & Rb & Cb).
  unfold izip_op. rewrite Ra, Rb, Ca, Cb, !Z.eqb_refl. cbn [andb negb]. destruct (mk_shape Eops n c H0 H1) as (r0 & E0 & S0 & _). rewrite E0. cbn [bind].
  apply (loop2_ub n c (fun _ _ x => x) (fun _ _ => True) _ r0 i0 j0 S0); [|exact Hi0|exact Hj0|].
  - intros i j m Sm Hi Hj. rewrite (mget_shape Eops a n c), (mget_shape Eops b n c) by assumption. cbn [bind]. destruct (P_dec (ent a i j) (ent b i j)) as [H|H]; [|left; now rewrite f_ub].
    right. rewrite f_ok by exact H. cbn [bind]. now apply set_spec.
  - intros m Sm. rewrite (mget_shape Eops a n c), (mget_shape Eops b n c) by assumption. cbn [bind]. now rewrite f_ub.
Qed.
(** in place: the entries not yet visited are the old ones *)
Lemma zip_assign_ub (a b : mat Z) n c i0 j0 : shape a n c -> shape b n c -> 0 <= i0 < n -> 0 <= j0 < c -> ~ P (ent a i0 j0) (ent b i0 j0) -> izip_assign f a b = UB.
Proof.
  intros Sa Sb Hi0 Hj0 HP. destruct (shape_nonneg a n c Sa) as (H0 & H1 & Ra & Ca). destruct (shape_nonneg b n c Sb) as (_ & _ & Rb & Cb).
  unfold izip_assign. rewrite Ra, Rb, Ca, Cb, !Z.eqb_refl. cbn [andb negb]. unfold loop2.
  assert (INNER : forall i d j (x : mat Z), 0 <= i < n -> 0 <= j -> j + Z.of_nat d <= c -> shape x n c -> (forall q, j <= q < c -> ent x i q = ent a i q) -> (forall p q, i < p < n -> 0 <= q < c -> ent x p q = ent a p q) ->
    (for_loop d j (fun j a => x <- mget a i j ;; y <- mget b i j ;; v <- f x y ;; mset a i j v) x = UB \/
     exists x', for_loop d j (fun j a => x <- mget a i j ;; y <- mget b i j ;; v <- f x y ;; mset a i j v) x = Ok x' /\ shape x' n c /\ forall p q, i < p < n -> 0 <= q < c -> ent x' p q = ent a p q) /\
    (i = i0 -> j <= j0 < j + Z.of_nat d -> for_loop d j (fun j a => x <- mget a i j ;; y <- mget b i j ;; v <- f x y ;; mset a i j v) x = UB)).
  { intros i. induction d as [|d IH]; intros j x Hi Hj Hd Sx Hrow Hlater; [split; [right; exists x; split; [reflexivity|now split]|lia]|]. cbn [for_loop]. assert (Hj' : 0 <= j < c) by lia.
    rewrite (mget_shape Eops x n c i j Sx Hi Hj'), (mget_shape Eops b n c i j Sb Hi Hj'). cbn [bind]. rewrite (Hrow j) by lia. destruct (P_dec (ent a i j) (ent b i j)) as [H|H].
    - rewrite f_ok by exact H. cbn [bind]. destruct (mset_shape Eops x n c i j (h (ent a i j) (ent b i j)) Sx Hi Hj') as (x' & E & S & HE). rewrite E. cbn [bind].
      destruct (IH (j + 1) x' Hi ltac:(lia) ltac:(lia) S) as (G1 & G2).
      + intros q Hq. rewrite HE by lia. replace (q =? j) with false by lia. rewrite andb_false_r. apply Hrow. lia.
      + intros p q Hp Hq. rewrite HE by lia. replace (p =? i) with false by lia. cbn [andb]. apply Hlater; lia.
      + split; [exact G1|]. intros -> Hj0'. destruct (Z.eq_dec j0 j) as [->|N]; [contradiction|]. apply G2; [reflexivity|lia].
    - rewrite f_ub by exact H. cbn [bind]. split; [now left|reflexivity]. }
  assert (OUTER : forall d i (x : mat Z), 0 <= i -> i + Z.of_nat d <= n -> i <= i0 < i + Z.of_nat d -> shape x n c -> (forall p q, i <= p < n -> 0 <= q < c -> ent x p q = ent a p q) ->
    for_loop d i (fun i s => for_loop (Z.to_nat c) 0 (fun j a => x <- mget a i j ;; y <- mget b i j ;; v <- f x y ;; mset a i j v) s) x = UB).
  { induction d as [|d IH]; intros i x Hi Hd Hi0' Sx Hx; [lia|]. cbn [for_loop].
    destruct (INNER i (Z.to_nat c) 0 x ltac:(lia) ltac:(lia) ltac:(lia) Sx) as (G1 & G2); [intros q Hq; apply Hx; lia|intros p q Hp Hq; apply Hx; lia|].
    destruct (Z.eq_dec i i0) as [->|N]; [rewrite G2 by lia; reflexivity|]. destruct G1 as [->|(x' & -> & S' & H')]; [reflexivity|]. cbn [bind]. apply IH; [lia|lia|lia|exact S'|]. intros p q Hp Hq. apply H'; lia. }
  apply OUTER; [lia|lia|lia|exact Sa|reflexivity].
Qed.
End Zip.

(** * Products *)
(** the loop over k on one entry *)
Definition cell (t : ty) (a b : mat Z) (i j : Z) (d : nat) (k z : Z) : outcome Z :=
  for_loop d k (fun k z => emuladd t z (ent a i k) (ent b k j)) z.
Lemma inner_cell t a b n k c i j : shape a n k -> shape b k c -> 0 <= i < n -> 0 <= j < c ->
  forall d l r, shape r n c -> 0 <= l -> l + Z.of_nat d <= k ->
  for_loop d l (fun k r => x <- mget a i k ;; y <- mget b k j ;; z <- mget r i j ;; v <- emuladd t z x y ;; mset r i j v) r =
  (v <- cell t a b i j d l (ent r i j) ;; mset r i j v).
Proof.
  intros Sa Sb Hi Hj. unfold cell. induction d as [|d IH]; intros l r Sr Hl Hd.
  - cbn [for_loop bind]. destruct (mset_shape Eops r n c i j (ent r i j) Sr Hi Hj) as (r' & E & S & H). rewrite E. f_equal. apply (mat_ext Eops r r' n c Sr S).
    intros p q Hp Hq. rewrite H by lia. destruct (Z.eqb_spec p i) as [->|]; destruct (Z.eqb_spec q j) as [->|]; reflexivity.
  - cbn [for_loop]. rewrite (mget_shape Eops a n k i l Sa Hi) by lia. rewrite (mget_shape Eops b k c l j Sb) by lia. rewrite (mget_shape Eops r n c i j Sr Hi Hj). cbn [bind].
    destruct (emuladd t (ent r i j) (ent a i l) (ent b l j)) as [v| | |] eqn:EV; cbn [bind]; try reflexivity.
    destruct (mset_shape Eops r n c i j v Sr Hi Hj) as (r' & E & S & H). rewrite E. cbn [bind]. rewrite IH by (assumption || lia).
    assert (EE : ent r' i j = v) by (rewrite H by lia; now rewrite !Z.eqb_refl). rewrite EE. destruct (for_loop d (l + 1) _ v) as [w| | |]; cbn [bind]; try reflexivity.
    destruct (mset_shape Eops r' n c i j w S Hi Hj) as (r1 & E1 & S1 & H1). destruct (mset_shape Eops r n c i j w Sr Hi Hj) as (r2 & E2 & S2 & H2). rewrite E1, E2. f_equal.
    apply (mat_ext Eops r1 r2 n c S1 S2). intros p q Hp Hq. rewrite H1, H2, H by lia. destruct ((p =? i) && (q =? j)); reflexivity.
Qed.
(** no undefined operation in the first [d] steps *)
Definition safe (t : ty) (f : Z -> Z) (d : nat) : Prop := forall l, (l < d)%nat -> fits t (f (Z.of_nat l)) /\ fits t (conv t (upto l f) + f (Z.of_nat l)).
Lemma for_loop_snoc {S} (body : Z -> S -> outcome S) : forall d k s, for_loop (Datatypes.S d) k body s = (x <- for_loop d k body s ;; body (k + Z.of_nat d) x).
Proof.
  induction d as [|d IH]; intros k s.
  - cbn [for_loop bind]. replace (k + Z.of_nat 0) with k by lia. destruct (body k s); reflexivity.
  - change (for_loop (Datatypes.S (Datatypes.S d)) k body s) with (x <- body k s ;; for_loop (Datatypes.S d) (k + 1) body x). change (for_loop (Datatypes.S d) k body s) with (x <- body k s ;; for_loop d (k + 1) body x).
    destruct (body k s) as [x| | |]; cbn [bind]; try reflexivity. rewrite IH. now replace (k + 1 + Z.of_nat d) with (k + Z.of_nat (Datatypes.S d)) by lia.
Qed.
Lemma cell_ok t a b i j d : safe t (fun l => ent a i l * ent b l j) d -> cell t a b i j d 0 0 = Ok (conv t (upto d (fun l => ent a i l * ent b l j))).
Proof.
  unfold cell. induction d as [|d IH]; intros H; [cbn; now rewrite conv_0|]. rewrite for_loop_snoc, IH by (intros l Hl; apply H; lia). cbn [bind]. destruct (H d ltac:(lia)) as (H1 & H2).
  rewrite Z.add_0_l. rewrite muladd_ok by assumption. f_equal. cbn [upto]. apply conv_add.
Qed.
Lemma cell_ub t a b i j d l : (l < d)%nat -> ~ (fits t (ent a i (Z.of_nat l) * ent b (Z.of_nat l) j) /\ fits t (conv t (upto l (fun l => ent a i l * ent b l j)) + ent a i (Z.of_nat l) * ent b (Z.of_nat l) j)) ->
  cell t a b i j d 0 0 = UB.
Proof.
  intros Hl N.
  assert (C : forall d, safe t (fun l => ent a i l * ent b l j) d \/ cell t a b i j d 0 0 = UB).
  { induction d0 as [|d0 [IH|IH]]; [left; intros l' Hl'; lia| |right; unfold cell in *; rewrite for_loop_snoc, IH; reflexivity].
    destruct (fits_dec t (ent a i (Z.of_nat d0) * ent b (Z.of_nat d0) j)) as [F1|F1]; [destruct (fits_dec t (conv t (upto d0 (fun l => ent a i l * ent b l j)) + ent a i (Z.of_nat d0) * ent b (Z.of_nat d0) j)) as [F2|F2]|].
    - left. intros l' Hl'. destruct (Nat.eq_dec l' d0) as [->|]; [now split|apply IH; lia].
    - right. unfold cell. rewrite for_loop_snoc. fold (cell t a b i j d0 0 0). rewrite cell_ok by exact IH. cbn [bind]. rewrite Z.add_0_l. apply muladd_ub. tauto.
    - right. unfold cell. rewrite for_loop_snoc. fold (cell t a b i j d0 0 0). rewrite cell_ok by exact IH. cbn [bind]. rewrite Z.add_0_l. apply muladd_ub. tauto. }
  destruct (C d) as [S|U]; [|exact U]. exfalso. apply N. exact (S l Hl).
Qed.
Lemma cell_cases t a b i j d : cell t a b i j d 0 0 = UB \/ exists v, cell t a b i j d 0 0 = Ok v.
Proof.
  unfold cell. induction d as [|d [IH|(v & IH)]]; [right; now exists 0|left; now rewrite for_loop_snoc, IH|]. rewrite for_loop_snoc, IH. cbn [bind]. rewrite Z.add_0_l.
  destruct (fits_dec t (ent a i (Z.of_nat d) * ent b (Z.of_nat d) j)) as [F1|F1]; [destruct (fits_dec t (v + ent a i (Z.of_nat d) * ent b (Z.of_nat d) j)) as [F2|F2]|].
  - right. rewrite muladd_ok by assumption. eauto.
  - left. apply muladd_ub. tauto.
  - left. apply muladd_ub. tauto.
Qed.
(** the loop body starts from a zero entry, so the invariant also says that later entries are zero *)
Lemma imul_into_ok t a b n k c r0 : shape a n k -> shape b k c -> shape r0 n c -> (forall p q, 0 <= p < n -> 0 <= q < c -> ent r0 p q = 0) ->
  (forall i j, 0 <= i < n -> 0 <= j < c -> safe t (fun l => ent a i l * ent b l j) (Z.to_nat k)) ->
  exists r, imul_into t a b r0 = Ok r /\ shape r n c /\ forall i j, 0 <= i < n -> 0 <= j < c -> ent r i j = conv t (upto (Z.to_nat k) (fun l => ent a i l * ent b l j)).
Proof.
  intros Sa Sb Sr Z0 SF. destruct (shape_nonneg a n k Sa) as (_ & K0 & _ & Ca). destruct (shape_nonneg r0 n c Sr) as (H0 & H1 & Rr & Cr). unfold imul_into. rewrite Rr, Cr, Ca. unfold loop2.
  set (val := fun i j => conv t (upto (Z.to_nat k) (fun l => ent a i l * ent b l j))).
  destruct (for_loop_inv (fun i (x : mat Z) => shape x n c /\ forall p q, 0 <= p < n -> 0 <= q < c -> ent x p q = if p <? i then val p q else 0)
    (fun i s => for_loop (Z.to_nat c) 0 (fun j r => for_loop (Z.to_nat k) 0 (fun k r => x <- mget a i k ;; y <- mget b k j ;; z <- mget r i j ;; v <- emuladd t z x y ;; mset r i j v) r) s) (Z.to_nat n) 0 r0) as (m' & E' & Sm & Hm').
  - split; [assumption|]. intros p q Hp Hq. destruct (Z.ltb_spec p 0); [lia|now apply Z0].
  - intros i x Hi (Sx & Hx).
    destruct (for_loop_inv (fun j (y : mat Z) => shape y n c /\ forall p q, 0 <= p < n -> 0 <= q < c -> ent y p q = if (p <? i) || ((p =? i) && (q <? j)) then val p q else 0)
      (fun j r => for_loop (Z.to_nat k) 0 (fun k r => x <- mget a i k ;; y <- mget b k j ;; z <- mget r i j ;; v <- emuladd t z x y ;; mset r i j v) r) (Z.to_nat c) 0 x) as (y & Ey & Sy & Hy).
    + split; [assumption|]. intros p q Hp Hq. rewrite Hx by assumption. replace (q <? 0) with false by lia. rewrite andb_false_r, orb_false_r. reflexivity.
    + intros j y Hj (Sy & Hy). assert (Hi' : 0 <= i < n) by lia. assert (Hj' : 0 <= j < c) by lia. rewrite (inner_cell t a b n k c i j Sa Sb Hi' Hj' (Z.to_nat k) 0 y Sy) by lia.
      rewrite (Hy i j Hi' Hj'). rewrite Z.ltb_irrefl, Z.eqb_refl, Z.ltb_irrefl. cbn [andb orb]. rewrite cell_ok by (apply SF; assumption). cbn [bind].
      destruct (mset_shape Eops y n c i j (val i j) Sy Hi' Hj') as (y' & E'' & S' & H'). exists y'. split; [exact E''|]. split; [exact S'|].
      intros p q Hp Hq. rewrite H' by lia. rewrite (Hy p q) by lia. destruct (Z.eqb_spec p i) as [->|Np]; destruct (Z.eqb_spec q j) as [->|Nq]; cbn [andb]; rewrite ?Z.ltb_irrefl; cbn [orb].
      * now replace (j <? j + 1) with true by lia.
      * now replace (q <? j + 1) with (q <? j) by lia.
      * reflexivity.
      * reflexivity.
    + exists y. split; [assumption|]. split; [assumption|]. intros p q Hp Hq. rewrite Hy by assumption. replace (q <? 0 + Z.of_nat (Z.to_nat c)) with true by lia. rewrite andb_true_r.
      replace ((p <? i) || (p =? i)) with (p <? i + 1) by lia. reflexivity.
  - exists m'. split; [assumption|]. split; [assumption|]. intros p q Hp Hq. rewrite Hm' by assumption. destruct (Z.ltb_spec p (0 + Z.of_nat (Z.to_nat n))); [reflexivity|lia].
Qed.
Lemma imul_ok t a b n k c : shape a n k -> shape b k c ->
  (forall i j, 0 <= i < n -> 0 <= j < c -> safe t (fun l => ent a i l * ent b l j) (Z.to_nat k)) ->
  exists r, imul t a b = Ok r /\ shape r n c /\ forall i j, 0 <= i < n -> 0 <= j < c -> ent r i j = conv t (upto (Z.to_nat k) (fun l => ent a i l * ent b l j)).
Proof.
  intros Sa Sb SF. destruct (shape_nonneg a n k Sa) as (H0 & K0 & Ra & Ca). destruct (shape_nonneg b k c Sb) as (_ & H1 & Rb & Cb). unfold imul. rewrite Ca, Rb, Z.eqb_refl, Ra, Cb. cbn [negb].
  destruct (mk_shape Eops n c H0 H1) as (r0 & E0 & S0 & Z0). rewrite E0. cbn [bind]. destruct (imul_into_ok t a b n k c r0 Sa Sb S0) as (r & E & S & H); [intros; apply Z0|exact SF|].
  rewrite E. cbn [bind]. rewrite (deepCopy_id Eops r n c S). eauto.
Qed.
Lemma imul_ub t a b n k c i j l : shape a n k -> shape b k c -> 0 <= i < n -> 0 <= j < c -> (l < Z.to_nat k)%nat ->
  ~ (fits t (ent a i (Z.of_nat l) * ent b (Z.of_nat l) j) /\ fits t (conv t (upto l (fun l => ent a i l * ent b l j)) + ent a i (Z.of_nat l) * ent b (Z.of_nat l) j)) -> imul t a b = UB.
Proof.
  intros Sa Sb Hi0 Hj0 Hl N. destruct (shape_nonneg a n k Sa) as (H0 & K0 & Ra & Ca). destruct (shape_nonneg b k c Sb) as (_ & H1 & Rb & Cb). unfold imul. rewrite Ca, Rb, Z.eqb_refl, Ra, Cb. cbn [negb].
  destruct (mk_shape Eops n c H0 H1) as (r0 & E0 & S0 & Z0). rewrite E0. cbn [bind]. assert (U : imul_into t a b r0 = UB); [|now rewrite U].
  destruct (shape_nonneg r0 n c S0) as (_ & _ & Rr & Cr). unfold imul_into. rewrite Rr, Cr, Ca. unfold loop2.
  set (B := fun i j r => for_loop (Z.to_nat k) 0 (fun k r => x <- mget a i k ;; y <- mget b k j ;; z <- mget r i j ;; v <- emuladd t z x y ;; mset r i j v) r).
  assert (INNER : forall i' d j' (x : mat Z), 0 <= i' < n -> 0 <= j' -> j' + Z.of_nat d <= c -> shape x n c -> (forall q, j' <= q < c -> ent x i' q = 0) -> (forall p q, i' < p < n -> 0 <= q < c -> ent x p q = 0) ->
    (for_loop d j' (B i') x = UB \/ exists x', for_loop d j' (B i') x = Ok x' /\ shape x' n c /\ forall p q, i' < p < n -> 0 <= q < c -> ent x' p q = 0) /\
    (i' = i -> j' <= j < j' + Z.of_nat d -> for_loop d j' (B i') x = UB)).
  { intros i'. induction d as [|d IH]; intros j' x Hi Hj Hd Sx Hrow Hlater; [split; [right; exists x; split; [reflexivity|now split]|lia]|]. cbn [for_loop]. assert (Hj' : 0 <= j' < c) by lia.
    assert (EB : B i' j' x = (v <- cell t a b i' j' (Z.to_nat k) 0 0 ;; mset x i' j' v)) by (unfold B; rewrite (inner_cell t a b n k c i' j' Sa Sb Hi Hj' (Z.to_nat k) 0 x Sx) by lia; rewrite (Hrow j') by lia; reflexivity). rewrite EB. destruct (cell_cases t a b i' j' (Z.to_nat k)) as [E|(v & E)].
    - rewrite E. cbn [bind]. split; [now left|reflexivity].
    - rewrite E. cbn [bind]. destruct (mset_shape Eops x n c i' j' v Sx Hi Hj') as (x' & E' & S & HE). rewrite E'. cbn [bind].
      destruct (IH (j' + 1) x' Hi ltac:(lia) ltac:(lia) S) as (G1 & G2).
      + intros q Hq. rewrite HE by lia. replace (q =? j') with false by lia. rewrite andb_false_r. apply Hrow. lia.
      + intros p q Hp Hq. rewrite HE by lia. replace (p =? i') with false by lia. cbn [andb]. apply Hlater; lia.
      + split; [exact G1|]. intros -> Hj0'. destruct (Z.eq_dec j j') as [->|NJ]; [exfalso; rewrite (cell_ub t a b i j' _ l Hl N) in E; discriminate|]. apply G2; [reflexivity|lia]. }
  assert (OUTER : forall d i' (x : mat Z), 0 <= i' -> i' + Z.of_nat d <= n -> i' <= i < i' + Z.of_nat d -> shape x n c -> (forall p q, i' <= p < n -> 0 <= q < c -> ent x p q = 0) ->
    for_loop d i' (fun i s => for_loop (Z.to_nat c) 0 (B i) s) x = UB).
  { induction d as [|d IH]; intros i' x Hi Hd Hi0' Sx Hx; [lia|]. cbn [for_loop].
    destruct (INNER i' (Z.to_nat c) 0 x ltac:(lia) ltac:(lia) ltac:(lia) Sx) as (G1 & G2); [intros q Hq; apply Hx; lia|intros p q Hp Hq; apply Hx; lia|].
    destruct (Z.eq_dec i' i) as [->|NI]; [rewrite G2 by lia; reflexivity|]. destruct G1 as [->|(x' & -> & S' & H')]; [reflexivity|]. cbn [bind]. apply IH; [lia|lia|lia|exact S'|]. intros p q Hp Hq. apply H'; lia. }
  apply OUTER; [lia|lia|lia|exact S0|intros; apply Z0].
Qed.
