(** Paths: existing elements, evaluation of locations, pairs of locations. *)
From Coq Require Import Permutation.
From Verif Require Import Base JsonModel JsonSpec JsonProofs JsonRoundProofs JsonHeapModel JsonHeapSpec JsonHeapProofs JsonHeapOpsProofs JsonHeapNavProofs.
Local Open Scope nat_scope.

Lemma sel_eqb_true s t : sel_eqb s t = true <-> s = t.
Proof.
  destruct s, t; simpl; split; intros H; try discriminate; try (injection H as ->).
  - apply same_key_true in H. congruence.
  - now apply same_key_true.
  - apply Z.eqb_eq in H. congruence.
  - apply Z.eqb_refl.
Qed.
Lemma relate_same p : forall q, relate p q = Same -> p = q.
Proof.
  induction p as [|s p IH]; intros [|t q]; simpl; try discriminate; auto.
  destruct (sel_eqb s t) eqn:E; [|destruct (same_kind s t); discriminate]. apply sel_eqb_true in E. intros H. f_equal; auto.
Qed.
Lemma relate_above p : forall q, relate p q = Above -> exists s q', q = p ++ s :: q'.
Proof.
  induction p as [|s p IH]; intros [|t q]; simpl; try discriminate; eauto.
  destruct (sel_eqb s t) eqn:E; [|destruct (same_kind s t); discriminate]. apply sel_eqb_true in E. subst t. intros H.
  destruct (IH q H) as (s' & q' & ->). eauto.
Qed.
Lemma relate_below p : forall q, relate p q = Below -> exists s p', p = q ++ s :: p'.
Proof.
  induction p as [|s p IH]; intros [|t q]; simpl; try discriminate; eauto.
  destruct (sel_eqb s t) eqn:E; [|destruct (same_kind s t); discriminate]. apply sel_eqb_true in E. subst t. intros H.
  destruct (IH q H) as (s' & q' & ->). eauto.
Qed.
Lemma same_kind_sym s t : same_kind s t = same_kind t s.
Proof. now destruct s, t. Qed.
Lemma same_kind_refl s : same_kind s s = true.
Proof. now destruct s. Qed.

Lemma nodup_right {A} (l l' : list A) : NoDup (l ++ l') -> NoDup l'.
Proof. induction l; simpl; intros H; auto. inversion H; auto. Qed.

Section Walk.
Context {F : Type} (fzero : F).
Notation heap := (heap F).

Lemma rep_det (h : heap) :
  (forall n v f, nrep h n v f -> forall v' f', nrep h n v' f' -> v = v' /\ f = f') /\
  (forall l vs f, reps h l vs f -> forall vs' f', reps h l vs' f' -> vs = vs' /\ f = f').
Proof.
  apply (rep_ind (F := F)).
  1-4: intros; match goal with H : nrep _ _ _ _ |- _ => inversion H; subst end; auto.
  - intros c s L v' f' H. inversion H; subst. split; congruence.
  - intros c l vs f L B R IH v' f' H. inversion H; subst. assert (l0 = l) by congruence. subst l0.
    match goal with X : reps _ _ _ _ |- _ => match X with R => fail 1 | _ => destruct (IH _ _ X) as [-> ->] end end. auto.
  - intros c m vs f L E I R IH v' f' H. inversion H; subst. assert (m0 = m) by congruence. subst m0.
    match goal with X : reps _ _ _ _ |- _ => match X with R => fail 1 | _ => destruct (IH _ _ X) as [Y ->] end end. assert (vs = vs0) as ->; auto.
    rewrite <- (combine_split vs), <- (combine_split vs0). congruence.
  - intros vs' f' H. inversion H. auto.
  - intros a n v f1 l vs f2 L R IH R2 IH2 vs' f' H. apply reps_cons_inv in H.
    destruct H as (n' & v' & g1 & vs1 & g2 & -> & -> & L' & R' & R2'). assert (n' = n) by congruence. subst n'.
    destruct (IH _ _ R') as [-> ->]. destruct (IH2 _ _ R2') as [-> ->]. auto.
Qed.
Lemma holds_det (h : heap) a v f v' f' : holds h a v f -> holds h a v' f' -> v = v' /\ f = f'.
Proof. intros (n & L & R) (n' & L' & R'). assert (n' = n) by congruence. subst n'. eapply rep_det; eauto. Qed.

(** * Paths of existing elements *)
Fixpoint walk (h : heap) (a : addr) (p : list sel) (b : addr) : Prop :=
  match p with [] => a = b | s :: p => exists d, child h a s d /\ walk h d p b end.
Lemma walk_det h p : forall a b b', walk h a p b -> walk h a p b' -> b = b'.
Proof.
  induction p as [|s p IH]; simpl; intros a b b'; [congruence|]. intros (d & C & W) (d' & C' & W').
  rewrite (child_det _ _ _ _ _ C C') in W. eauto.
Qed.
Lemma walk_app h p : forall a q b, walk h a (p ++ q) b <-> exists c, walk h a p c /\ walk h c q b.
Proof.
  induction p as [|s p IH]; simpl; intros a q b.
  - split; [eauto|]. intros (c & -> & W). exact W.
  - split.
    + intros (d & C & W). apply IH in W. destruct W as (c & W1 & W2). eauto.
    + intros (c & (d & C & W1) & W2). exists d. split; [exact C|]. apply IH. eauto.
Qed.
Lemma child_frame (h h' : heap) a v f s d : holds h a v f -> child h a s d -> look h' a = look h a ->
  (forall c f0, f = c :: f0 -> look h' c = look h c) -> child h' a s d.
Proof.
  intros (n & L & R) C E Ec. destruct s; simpl in *; destruct C as (c & m & L' & Lc & X); rewrite L' in L; injection L as <-; inversion R; subst.
  - exists c, m. rewrite E, (Ec c f0); auto.
  - exists c, m. rewrite E, (Ec c f0); auto.
Qed.
Lemma walk_frame h h' p : forall a v f b, holds h a v f -> walk h a p b -> agree (a :: f) h h' -> walk h' a p b.
Proof.
  induction p as [|s p IH]; simpl; intros a v f b Hd W A; auto. destruct W as (d & C & W).
  destruct (child_focus _ _ _ _ _ _ Hd C) as (c & f1 & f2 & g & -> & Hd' & _). exists d. split.
  - eapply child_frame; eauto; [apply A; now left|]. intros c' f0 E. injection E as <- _. apply A. right. now left.
  - eapply IH; eauto. eapply agree_incl; eauto. intros x Hx. right. right. apply in_or_app. right. apply in_or_app. now left.
Qed.
Lemma walk_focus h p : forall a v f b, holds h a v f -> walk h a p b ->
  exists g x, Permutation (a :: f) (b :: g ++ x) /\ holds h b (get v p) g /\ (p <> [] -> In a x) /\
    forall h' w g', agree x h h' -> holds h' b w g' -> exists f', holds h' a (put v p w) f' /\ Permutation (a :: f') (b :: g' ++ x).
Proof.
  induction p as [|s p IH]; simpl; intros a v f b Hd W.
  - subst b. exists f, []. rewrite app_nil_r. split; [reflexivity|]. split; [exact Hd|]. split; [congruence|].
    intros h' w g' _ H. exists g'. rewrite app_nil_r. auto.
  - destruct W as (d & C & W). destruct (child_focus _ _ _ _ _ _ Hd C) as (c & f1 & f2 & g & -> & Hd' & Re).
    destruct (IH d (get1 v s) g b Hd' W) as (g2 & x & P & Hb & _ & Re2).
    exists g2, (a :: c :: f1 ++ f2 ++ x). split; [|split; [exact Hb|split; [now left|]]].
    + transitivity ((a :: c :: f1 ++ f2) ++ (d :: g)); [pcount|]. rewrite P. pcount.
    + intros h' w g' A H. destruct (Re2 h' w g') as (f' & Hd2 & P2); auto.
      { eapply agree_incl; eauto. intros y Hy. right. right. rewrite !in_app_iff. auto. }
      exists (c :: f1 ++ (d :: f') ++ f2). split.
      * apply Re; auto. eapply agree_incl; eauto. intros y. simpl. rewrite !in_app_iff. intuition.
      * transitivity ((a :: c :: f1 ++ f2) ++ (d :: f')); [pcount|]. rewrite P2. pcount.
Qed.
Lemma legal_cons s p : legal (s :: p) = legal1 s && legal p.
Proof. reflexivity. Qed.
Lemma nav_ok p : forall h a v f r, holds h a v f -> own h (a :: f ++ r) -> legal p = true ->
  exists h' b f', nav fzero h a p = Ok (h', b) /\ holds h' a (touch v p) f' /\ own h' (a :: f' ++ r) /\ agree r h h' /\ walk h' a p b.
Proof.
  induction p as [|s p IH]; intros h a v f r Hd O Lg.
  - exists h, a, f. repeat split; try apply O; auto using agree_refl.
  - rewrite legal_cons in Lg. apply andb_true_iff in Lg. destruct Lg as [Lg1 Lg2].
    destruct (index_ok fzero h a v f r s Hd O Lg1) as (h1 & d & f1 & E1 & Hd1 & O1 & A1 & C1 & _).
    destruct (child_focus _ _ _ _ _ _ Hd1 C1) as (c & x1 & x2 & g & -> & Hd2 & Re). rewrite get1_set1 in Hd2.
    destruct (IH h1 d (get1 v s) g (a :: c :: x1 ++ x2 ++ r) Hd2) as (h2 & b & g' & E2 & Hd3 & O2 & A2 & W2); auto.
    { eapply own_perm; eauto. pcount. }
    exists h2, b, (c :: x1 ++ (d :: g') ++ x2). simpl nav. rewrite E1. cbn [bind]. split; [exact E2|]. split; [|split; [|split]].
    + unfold touch. simpl put. simpl get. rewrite <- (set1_set1 v s (get1 v s)). apply Re; auto.
      eapply agree_incl; eauto. intros y. simpl. rewrite !in_app_iff. intuition.
    + eapply own_perm; eauto. pcount.
    + intros y Hy. rewrite A2; auto. right. right. rewrite !in_app_iff. auto.
    + simpl. exists d. split; auto. eapply child_frame; eauto; [apply A2; now left|].
      intros c' f0 E. injection E as <- _. apply A2. right. now left.
Qed.
Lemma nav_illegal p : forall h a v f r, holds h a v f -> own h (a :: f ++ r) -> legal p = false -> nav fzero h a p = UB.
Proof.
  induction p as [|s p IH]; intros h a v f r Hd O Lg; [discriminate|].
  rewrite legal_cons in Lg. simpl nav. destruct (legal1 s) eqn:Lg1; [simpl in Lg|rewrite (index_illegal fzero h a v f r s); auto].
  destruct (index_ok fzero h a v f r s Hd O Lg1) as (h1 & d & f1 & E1 & Hd1 & O1 & A1 & C1 & _).
  destruct (child_focus _ _ _ _ _ _ Hd1 C1) as (c & x1 & x2 & g & -> & Hd2 & Re).
  rewrite E1. cbn [bind]. apply (IH h1 d _ g (a :: c :: x1 ++ x2 ++ r)) with (1 := Hd2); auto.
  eapply own_perm; eauto. pcount.
Qed.
Lemma walk_nav p : forall h a v f r b, holds h a v f -> own h (a :: f ++ r) -> legal p = true -> walk h a p b -> nav fzero h a p = Ok (h, b).
Proof.
  induction p as [|s p IH]; intros h a v f r b Hd O Lg W; [simpl in *; congruence|].
  rewrite legal_cons in Lg. apply andb_true_iff in Lg. destruct Lg as [Lg1 Lg2]. destruct W as (d & C & W).
  destruct (index_ok fzero h a v f r s Hd O Lg1) as (h1 & d1 & f1 & E1 & Hd1 & O1 & A1 & C1 & Sm & _).
  rewrite (Sm d C) in *. rewrite (child_det _ _ _ _ _ C1 C) in E1. simpl nav. rewrite E1. cbn [bind].
  destruct (child_focus _ _ _ _ _ _ Hd C) as (c & x1 & x2 & g & -> & Hd2 & Re).
  apply (IH h d _ g (a :: c :: x1 ++ x2 ++ r) b) with (1 := Hd2); auto. eapply own_perm; [exact O|]. pcount.
Qed.

(** * Two elements *)
Lemma reps_in (h : heap) l : forall vs f b, reps h l vs f -> In b l -> exists v g x, Permutation f ((b :: g) ++ x) /\ holds h b v g.
Proof.
  intros vs f b R I. apply In_nth_error in I. destruct I as (i & I).
  destruct (reps_split _ _ _ _ _ _ R I) as (v & g & f1 & f2 & -> & _ & Hd & _). exists v, g, (f1 ++ f2). split; [pcount|exact Hd].
Qed.
Lemma reps_two (h : heap) l : forall vs f a b, reps h l vs f -> In a l -> In b l -> a <> b ->
  exists v g w k x, Permutation f ((a :: g) ++ (b :: k) ++ x) /\ holds h a v g /\ holds h b w k.
Proof.
  induction l as [|c l IH]; intros vs f a b R Ia Ib N; [destruct Ia|].
  apply reps_cons_inv in R. destruct R as (n & v & f1 & vs' & f2 & -> & -> & H1 & H2 & H3).
  destruct Ia as [->|Ia], Ib as [->|Ib]; try congruence.
  - destruct (reps_in _ _ _ _ _ H3 Ib) as (w & k & x & P & Hb). exists v, f1, w, k, x. repeat split; auto; [|now exists n].
    simpl. constructor. rewrite P. simpl. reflexivity.
  - destruct (reps_in _ _ _ _ _ H3 Ia) as (w & k & x & P & Hb). exists w, k, v, f1, x. repeat split; auto; [|now exists n].
    rewrite P. pcount.
  - destruct (IH _ _ _ _ H3 Ia Ib N) as (v1 & g & w & k & x & P & Ha & Hb). exists v1, g, w, k, (c :: f1 ++ x). repeat split; auto.
    rewrite P. pcount.
Qed.
Lemma reps_nodup (h : heap) l : forall vs f, reps h l vs f -> NoDup f -> NoDup l.
Proof.
  induction l as [|c l IH]; intros vs f R N; [constructor|].
  apply reps_cons_inv in R. destruct R as (n & v & f1 & vs' & f2 & -> & -> & H1 & H2 & H3).
  inversion N; subst. constructor.
  - intros I. apply H4. apply in_or_app. right. destruct (reps_in _ _ _ _ _ H3 I) as (w & g & x & P & _).
    eapply Permutation_in; [symmetry; exact P|]. now left.
  - eapply IH; eauto. now apply nodup_right in H5.
Qed.
Lemma find_key_in {V} (m : list (bytes * V)) k d : find_key m k = Some d -> In (k, d) m.
Proof.
  induction m as [|[k' v'] m IH]; simpl; [discriminate|]. destruct (bless k k') eqn:E1; [discriminate|].
  destruct (bless k' k) eqn:E2; [auto|]. intros H. injection H as ->. left. f_equal.
  apply bless_false in E1. apply bless_false in E2. destruct (lex_total k k') as [X|[X|X]]; [contradiction|auto|contradiction].
Qed.
Lemma snd_inj {A B} (m : list (A * B)) : NoDup (map snd m) -> forall k k' d, In (k, d) m -> In (k', d) m -> k = k'.
Proof.
  induction m as [|[k0 d0] m IH]; simpl; intros N k k' d J1 J2; [contradiction|]. inversion N; subst.
  destruct J1 as [E|I], J2 as [E'|I']; try congruence; eauto.
  - injection E as -> ->. exfalso. apply H1. apply (in_map snd) in I'. exact I'.
  - injection E' as -> ->. exfalso. apply H1. apply (in_map snd) in I. exact I.
Qed.
Lemma children_apart (h : heap) a v f s t d e : holds h a v f -> NoDup f -> child h a s d -> child h a t e -> sel_eqb s t = false ->
  exists c g k x, Permutation f (c :: (d :: g) ++ (e :: k) ++ x) /\ holds h d (get1 v s) g /\ holds h e (get1 v t) k.
Proof.
  intros Hd N C C' E. pose proof (child_kind _ _ _ _ _ _ Hd C) as K. pose proof (child_kind _ _ _ _ _ _ Hd C') as K'.
  destruct (child_focus _ _ _ _ _ _ Hd C) as (_ & _ & _ & g & _ & Hg & _).
  destruct (child_focus _ _ _ _ _ _ Hd C') as (_ & _ & _ & k & _ & Hk & _).
  assert (X : exists c vs l f0, f = c :: f0 /\ reps h l vs f0 /\ In d l /\ In e l /\ d <> e).
  { destruct Hd as (n & L & R). destruct s, t; simpl in *; try congruence.
    - destruct C as (c & m & L1 & Lc & Fk). destruct C' as (c' & m' & L1' & Lc' & Fk').
      assert (c' = c) by congruence. subst c'. assert (m' = m) by congruence. subst m'. rewrite L1 in L. injection L as <-. inversion R; subst.
      assert (m0 = m) by congruence. subst m0. apply find_key_in in Fk. apply find_key_in in Fk'.
      exists c, (map snd vs), (map snd m), f0. repeat split; auto; try (now apply (in_map snd) in Fk); try (now apply (in_map snd) in Fk').
      intros ->. apply same_key_false in E. apply E. inversion N; subst. eapply snd_inj; eauto. eapply reps_nodup; eauto.
    - destruct C as (c & m & L1 & Lc & P & Fk). destruct C' as (c' & m' & L1' & Lc' & P' & Fk').
      assert (c' = c) by congruence. subst c'. assert (m' = m) by congruence. subst m'. rewrite L1 in L. injection L as <-. inversion R; subst.
      assert (l = m) by congruence. subst l.
      exists c, vs, m, f0. repeat split; auto; try (now apply nth_error_In in Fk); try (now apply nth_error_In in Fk').
      intros ->. apply Z.eqb_neq in E. apply E. inversion N; subst. apply reps_nodup in H2; auto.
      rewrite NoDup_nth_error in H2. specialize (H2 (Z.to_nat i) (Z.to_nat i0)). rewrite Fk, Fk' in H2.
      assert (Z.to_nat i = Z.to_nat i0) by (apply H2; auto; apply nth_error_Some; congruence). lia. }
  destruct X as (c & vs & l & f0 & -> & R & Id & Ie & Ne).
  destruct (reps_two _ _ _ _ _ _ R Id Ie Ne) as (v1 & g1 & w1 & k1 & x & P & H1 & H2).
  destruct (holds_det _ _ _ _ _ _ Hg H1) as [-> ->]. destruct (holds_det _ _ _ _ _ _ Hk H2) as [-> ->].
  exists c, g1, k1, x. split; [now rewrite P|]. auto.
Qed.
Lemma walk_in (h : heap) p a v f b : holds h a v f -> walk h a p b -> p <> [] -> NoDup (a :: f) -> In b f /\ b <> a.
Proof.
  intros Hd W N D. destruct (walk_focus h p a v f b Hd W) as (g & x & P & _ & I & _). specialize (I N).
  assert (Nb : b <> a).
  { intros ->. eapply Permutation_NoDup in D; [|exact P]. inversion D; subst. apply H1. apply in_or_app. auto. }
  split; [|exact Nb]. assert (X : In b (a :: f)) by (eapply Permutation_in; [symmetry; exact P|now left]). destruct X; congruence.
Qed.
Lemma walks_apart h p : forall q a v f b d, holds h a v f -> NoDup (a :: f) -> walk h a p b -> walk h a q d -> relate p q = Apart ->
  exists g k x, Permutation (a :: f) ((b :: g) ++ (d :: k) ++ x) /\ holds h b (get v p) g /\ holds h d (get v q) k.
Proof.
  induction p as [|s p IH]; intros [|t q] a v f b d Hd N W W' E; simpl in E; try discriminate.
  destruct W as (a1 & C1 & W1). destruct W' as (a2 & C2 & W2). destruct (sel_eqb s t) eqn:Es.
  - apply sel_eqb_true in Es. subst t. rewrite (child_det _ _ _ _ _ C2 C1) in W2.
    destruct (child_focus _ _ _ _ _ _ Hd C1) as (c & x1 & x2 & g0 & -> & Hd1 & _).
    destruct (IH q a1 _ g0 b d Hd1) as (g & k & x & P & Hb & Hd2); auto.
    { assert (N' : NoDup ((a1 :: g0) ++ a :: c :: x1 ++ x2)) by (eapply Permutation_NoDup; [|exact N]; pcount).
      now apply nodup_left in N'. }
    exists g, k, (a :: c :: x1 ++ x2 ++ x). split; [|auto].
    transitivity ((a :: c :: x1 ++ x2) ++ (a1 :: g0)); [pcount|]. rewrite P. pcount.
  - inversion N; subst. destruct (children_apart _ _ _ _ _ _ _ _ Hd H2 C1 C2 Es) as (c & g0 & k0 & x & P & H1' & H2').
    destruct (walk_focus h p a1 _ g0 b H1' W1) as (g & y & P1 & Hb & _).
    destruct (walk_focus h q a2 _ k0 d H2' W2) as (k & z & P2 & Hd2 & _).
    exists g, k, (a :: c :: x ++ y ++ z). split; [|auto].
    rewrite P. transitivity ((a :: c :: x) ++ (a1 :: g0) ++ (a2 :: k0)); [pcount|]. rewrite P1, P2. pcount.
Qed.

(** evaluating a second location *)
Lemma nav_keeps p : forall q h a v f r b h' d, holds h a v f -> own h (a :: f ++ r) -> legal q = true -> walk h a p b ->
  relate p q <> Clash -> nav fzero h a q = Ok (h', d) -> walk h' a p b.
Proof.
  induction p as [|t p IH]; intros [|s q] h a v f r b h' d Hd O Lg W Nc E; simpl in W.
  - exact W.
  - exact W.
  - simpl in E. injection E as <- <-. exact W.
  - destruct W as (e & C & W). rewrite legal_cons in Lg. apply andb_true_iff in Lg. destruct Lg as [Lg1 Lg2].
    destruct (index_ok fzero h a v f r s Hd O Lg1) as (h1 & d1 & f1 & E1 & Hd1 & O1 & A1 & C1 & Sm & Kp & _).
    simpl nav in E. rewrite E1 in E. cbn [bind] in E. simpl in Nc. destruct (sel_eqb t s) eqn:Es.
    + apply sel_eqb_true in Es. subst s. rewrite (Sm e C) in *. rewrite (child_det _ _ _ _ _ C1 C) in E.
      destruct (child_focus _ _ _ _ _ _ Hd C) as (c & x1 & x2 & g & -> & Hd2 & _).
      assert (O2 : own h (e :: g ++ (a :: c :: x1 ++ x2 ++ r))) by (eapply own_perm; [exact O|]; pcount).
      destruct (nav_ok q h e _ g _ Hd2 O2 Lg2) as (h2 & d2 & g2 & E2 & _ & _ & A2 & _). rewrite E2 in E. injection E as -> ->.
      exists e. split.
      * eapply (child_frame h _ a v _ t e Hd C); [apply A2; now left|]. intros c' f0 X. injection X as <- _. apply A2. right. now left.
      * eapply IH; eauto.
    + destruct (same_kind t s) eqn:Ks; [|congruence]. rewrite same_kind_sym in Ks. destruct (Kp t e Ks C) as [C' Ag].
      assert (W1 : walk h1 e p b).
      { destruct (child_focus _ _ _ _ _ _ Hd C) as (c & x1 & x2 & g & -> & Hd2 & _). eapply walk_frame; eauto.
        eapply agree_incl; eauto. intros y Hy. right. change (In y (x1 ++ (e :: g) ++ x2)). apply in_or_app. right. apply in_or_app. auto. }
      assert (Nf : NoDup f1). { destruct O1 as [X _]. inversion X; subst. now apply nodup_left in H2. }
      destruct (children_apart _ _ _ _ _ _ _ _ Hd1 Nf C' C1 Es) as (c & g & k & x & P & He & Hk).
      assert (O2 : own h1 (d1 :: k ++ (a :: c :: (e :: g) ++ x ++ r))).
      { eapply own_perm; eauto. transitivity ((a :: r) ++ f1); [pcount|]. rewrite P. pcount. }
      destruct (nav_ok q h1 d1 _ k _ Hk O2 Lg2) as (h2 & d2 & g2 & E2 & _ & _ & A2 & _). rewrite E2 in E. injection E as -> ->.
      exists e. split.
      * eapply child_frame; eauto; [apply A2; now left|]. intros c' f0 ->. apply A2.
        destruct (child_focus _ _ _ _ _ _ Hd1 C1) as (c1 & y1 & y2 & k1 & X & Hk1 & _).
        injection X as -> ->. destruct (holds_det _ _ _ _ _ _ Hk Hk1) as [_ <-].
        assert (In c1 (d1 :: k ++ a :: c :: (e :: g) ++ x ++ r)).
        { assert (Q : Permutation ((c1 :: y1 ++ (d1 :: k) ++ y2) ++ (a :: r)) (d1 :: k ++ a :: c :: (e :: g) ++ x ++ r)) by (rewrite P; pcount).
          eapply Permutation_in; [exact Q|]. now left. }
        assert (Nc1 : ~ In c1 (d1 :: k)).
        { inversion Nf; subst. intros I. apply H2. apply in_or_app. right. change (In c1 ((d1 :: k) ++ y2)). apply in_or_app. auto. }
        change (In c1 ((d1 :: k) ++ a :: c :: (e :: g) ++ x ++ r)) in H. apply in_app_iff in H. tauto.
      * eapply walk_frame; eauto. eapply agree_incl; [exact A2|]. intros y Hy. right. right. apply in_or_app. now left.
Qed.
Lemma nav_clash p : forall q h a v f r b h' d, holds h a v f -> own h (a :: f ++ r) -> legal q = true -> walk h a p b ->
  relate p q = Clash -> nav fzero h a q = Ok (h', d) -> look h' b = None.
Proof.
  induction p as [|t p IH]; intros [|s q] h a v f r b h' d Hd O Lg W Nc E; simpl in Nc; try discriminate.
  pose proof (walk_in h (t :: p) a v f b Hd W) as Ib.
  destruct W as (e & C & W). rewrite legal_cons in Lg. apply andb_true_iff in Lg. destruct Lg as [Lg1 Lg2].
  destruct (index_ok fzero h a v f r s Hd O Lg1) as (h1 & d1 & f1 & E1 & Hd1 & O1 & A1 & C1 & Sm & _ & Cl).
  simpl nav in E. rewrite E1 in E. cbn [bind] in E. destruct (sel_eqb t s) eqn:Es.
  - apply sel_eqb_true in Es. subst s. rewrite (Sm e C) in *. rewrite (child_det _ _ _ _ _ C1 C) in E.
    destruct (child_focus _ _ _ _ _ _ Hd C) as (c & x1 & x2 & g & -> & Hd2 & _).
    eapply IH with (h := h) (a := e) (r := a :: c :: x1 ++ x2 ++ r); eauto. eapply own_perm; [exact O|]. pcount.
  - destruct (same_kind t s) eqn:Ks; [discriminate|]. rewrite same_kind_sym in Ks.
    assert (N : NoDup (a :: f)). { destruct O as [X _]. change (a :: f ++ r) with ((a :: f) ++ r) in X. now apply nodup_left in X. }
    destruct Ib as [Ib _]; [discriminate|exact N|]. specialize (Cl t e Ks C b Ib).
    apply nav_later in E. destruct E as [_ E]. apply E; auto.
    apply index_later in E1. destruct E1 as [E1 _]. eapply Nat.lt_le_trans; [|exact E1]. eapply own_lt; eauto. right. apply in_or_app. auto.
Qed.
End Walk.
