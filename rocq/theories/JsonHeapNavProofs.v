(** Locations: operator[] along a path. *)
From Coq Require Import Permutation.
From Verif Require Import Base JsonModel JsonSpec JsonProofs JsonRoundProofs JsonHeapModel JsonHeapSpec JsonHeapProofs JsonHeapOpsProofs.
Local Open Scope nat_scope.

(** * Keys *)
Lemma same_key_true a b : same_key a b = true <-> a = b.
Proof. unfold same_key. destruct (list_eq_dec _ a b); split; congruence. Qed.
Lemma same_key_false a b : same_key a b = false <-> a <> b.
Proof. unfold same_key. destruct (list_eq_dec _ a b); split; congruence. Qed.
Lemma bless_refl a : bless a a = false.
Proof. apply bless_false, lex_irr. Qed.
Lemma filter_all {A} (f : A -> bool) l : (forall x, In x l -> f x = true) -> filter f l = l.
Proof. induction l as [|a l IH]; simpl; intros H; auto. rewrite H by auto. f_equal. auto. Qed.
Lemma filter_none {A} (f : A -> bool) l : (forall x, In x l -> f x = false) -> filter f l = [].
Proof. induction l as [|a l IH]; simpl; intros H; auto. rewrite H by auto. auto. Qed.

Lemma increasing_app l k r : increasing (l ++ k :: r) -> (forall b, In b l -> lex b k) /\ (forall b, In b r -> lex k b) /\ increasing (l ++ r).
Proof.
  induction l as [|a l IH]; intros H.
  - simpl in *. apply increasing_cons in H. destruct H. repeat split; auto. intros b [].
  - change ((a :: l) ++ k :: r) with (a :: (l ++ k :: r)) in H. apply increasing_cons in H. destruct H as [H1 H2].
    destruct (IH H1) as (A & B & C). repeat split; auto.
    + intros b [<-|Hb]; auto. apply H2. apply in_or_app. right. now left.
    + change (increasing (a :: (l ++ r))). apply increasing_cons. split; auto. intros b Hb. apply H2.
      apply in_app_iff in Hb. apply in_or_app. destruct Hb; auto. right. now right.
Qed.

Section Keys.
Context {V : Type}.
Notation fmap := (list (bytes * V)).
(** entries on both sides of a key *)
Definition around (m1 m2 : fmap) (k : bytes) : Prop :=
  (forall e, In e m1 -> lex (fst e) k) /\ (forall e, In e m2 -> lex k (fst e)).
Lemma find_key_some (m : fmap) k d : increasing (map fst m) -> find_key m k = Some d ->
  exists m1 m2, m = m1 ++ (k, d) :: m2 /\ around m1 m2 k.
Proof.
  induction m as [|[k' v'] m IH]; simpl find_key; intros S H; [discriminate|].
  cbn [map fst] in S. pose proof S as S0. apply increasing_cons in S. destruct S as [S1 S2].
  destruct (bless k k') eqn:E1; [discriminate|]. destruct (bless k' k) eqn:E2.
  - destruct (IH S1 H) as (m1 & m2 & -> & A & B). exists ((k', v') :: m1), m2. repeat split; auto.
    intros e [<-|He]; auto. now apply bless_lex.
  - injection H as <-. assert (k' = k) as ->.
    { apply bless_false in E1. apply bless_false in E2. destruct (lex_total k k') as [X|[X|X]]; [contradiction|auto|contradiction]. }
    exists [], m. repeat split; auto; [intros e []|]. intros e He. apply S2. now apply in_map.
Qed.
Lemma find_key_around (m1 m2 : fmap) k d : around m1 m2 k -> find_key (m1 ++ (k, d) :: m2) k = Some d.
Proof.
  intros [A _]. induction m1 as [|[k' v'] m1 IH]; simpl; [now rewrite bless_refl|].
  assert (L : lex k' k) by (apply (A (k', v')); now left).
  rewrite (proj2 (bless_false k k')) by (now apply lex_asym). rewrite (proj2 (bless_lex k' k) L). apply IH.
  intros e He. apply A. now right.
Qed.
Lemma find_key_none (m : fmap) k : increasing (map fst m) -> find_key m k = None ->
  exists m1 m2, m = m1 ++ m2 /\ around m1 m2 k /\ forall d, map_set m k d = m1 ++ (k, d) :: m2.
Proof.
  induction m as [|[k' v'] m IH]; intros S H.
  - exists [], []. repeat split; auto; intros e [].
  - cbn [map fst] in S. pose proof S as S0. apply increasing_cons in S. destruct S as [S1 S2]. simpl in H.
    destruct (bless k k') eqn:E1.
    + exists [], ((k', v') :: m). apply bless_lex in E1. repeat split; auto; [intros e []| |].
      * intros e [<-|He]; auto. eapply lex_trans; eauto. apply S2. now apply in_map.
      * intros d. simpl. now rewrite (proj2 (bless_lex k k') E1).
    + destruct (bless k' k) eqn:E2; [|discriminate].
      destruct (IH S1 H) as (m1 & m2 & -> & [A B] & C). exists ((k', v') :: m1), m2. repeat split; auto.
      * intros e [<-|He]; auto. now apply bless_lex.
      * intros d. simpl. rewrite E1, E2, C. reflexivity.
Qed.
Lemma around_keys {W} (m1 m2 : fmap) (n1 n2 : list (bytes * W)) k : around m1 m2 k -> map fst m1 = map fst n1 -> map fst m2 = map fst n2 ->
  (forall e, In e n1 -> lex (fst e) k) /\ (forall e, In e n2 -> lex k (fst e)).
Proof.
  intros [A B] E1 E2. split; intros e He.
  - apply (in_map fst) in He. rewrite <- E1 in He. apply in_map_iff in He. destruct He as (e' & <- & He). auto.
  - apply (in_map fst) in He. rewrite <- E2 in He. apply in_map_iff in He. destruct He as (e' & <- & He). auto.
Qed.
End Keys.
Lemma around_increasing {V} (m1 m2 : list (bytes * V)) k d : around m1 m2 k -> increasing (map fst (m1 ++ m2)) ->
  increasing (map fst (m1 ++ (k, d) :: m2)).
Proof.
  intros [A B]. induction m1 as [|e m1 IH]; intros S.
  - cbn [app map fst] in *. apply increasing_cons. split; auto. intros b Hb. apply in_map_iff in Hb. destruct Hb as (e & <- & He). auto.
  - cbn [app map] in *. apply increasing_cons in S. destruct S as [S1 S2]. apply increasing_cons. split.
    + apply IH; auto. intros e' He'. apply A. now right.
    + intros b Hb. rewrite map_app in Hb. cbn [map fst] in Hb. apply in_app_iff in Hb. destruct Hb as [Hb|[<-|Hb]].
      * apply S2. rewrite map_app. apply in_or_app. auto.
      * apply A. now left.
      * apply S2. rewrite map_app. apply in_or_app. auto.
Qed.

Section Laws.
Context {F : Type}.
Notation json := (json F).
Lemma store_around (m1 m2 : list (bytes * json)) k w : around m1 m2 k -> store (m1 ++ m2) k w = m1 ++ (k, w) :: m2.
Proof.
  intros [A B]. unfold store. rewrite !filter_app.
  rewrite (filter_all _ m1), (filter_none _ m2), (filter_none _ m1), (filter_all _ m2), app_nil_r; auto.
  - intros e He. now apply bless_lex, B.
  - intros e He. apply bless_false, lex_asym, A, He.
  - intros e He. apply bless_false, lex_asym, B, He.
  - intros e He. now apply bless_lex, A.
Qed.
Lemma store_around_set (m1 m2 : list (bytes * json)) k w w' : around m1 m2 k -> store (m1 ++ (k, w) :: m2) k w' = m1 ++ (k, w') :: m2.
Proof.
  intros R. rewrite <- (store_around m1 m2 k w' R). unfold store. rewrite !filter_app. simpl. rewrite bless_refl. reflexivity.
Qed.
Lemma find_around {V} (m1 m2 : list (bytes * V)) k d : around m1 m2 k ->
  find (fun e => same_key (fst e) k) (m1 ++ (k, d) :: m2) = Some (k, d).
Proof.
  intros [A _]. induction m1 as [|e m1 IH]; simpl.
  - now rewrite (proj2 (same_key_true k k) eq_refl).
  - rewrite (proj2 (same_key_false (fst e) k)); [apply IH; intros x Hx; apply A; now right|].
    intros E. apply (lex_irr k). rewrite <- E at 1. apply A. now left.
Qed.
Lemma lookup_around (m1 m2 : list (bytes * json)) k w : around m1 m2 k -> lookup (m1 ++ (k, w) :: m2) k = w.
Proof. intros R. unfold lookup. now rewrite find_around. Qed.
Lemma around_none {V} (m1 m2 : list (bytes * V)) k : around m1 m2 k -> find (fun e => same_key (fst e) k) (m1 ++ m2) = None.
Proof.
  intros [A B]. destruct (find _ (m1 ++ m2)) as [e|] eqn:E; [|reflexivity].
  apply find_some in E. destruct E as [I E]. apply same_key_true in E. exfalso. apply (lex_irr k).
  apply in_app_iff in I. destruct I as [I|I]; [rewrite <- E at 1; auto|rewrite <- E at 2; auto].
Qed.
Lemma lookup_absent (m1 m2 : list (bytes * json)) k : around m1 m2 k -> lookup (m1 ++ m2) k = JNull.
Proof. intros R. unfold lookup. now rewrite around_none. Qed.
Lemma filter_around (m : list (bytes * json)) k : around (filter (fun e => bless (fst e) k) m) (filter (fun e => bless k (fst e)) m) k.
Proof. split; intros e He; apply filter_In in He; now apply bless_lex. Qed.

Lemma get1_set1 (v : json) s w : get1 (set1 v s w) s = w.
Proof.
  destruct s as [k|i]; simpl.
  - apply lookup_around, filter_around.
  - set (n := Z.to_nat i). set (l := items v).
    rewrite app_assoc, app_nth2; rewrite app_length, repeat_length, firstn_length; [|lia].
    replace (n - (Nat.min n (length l) + (n - length l))) with 0 by lia. reflexivity.
Qed.
Lemma set1_set1 (v : json) s w w' : set1 (set1 v s w) s w' = set1 v s w'.
Proof.
  destruct s as [k|i]; unfold set1.
  - f_equal. apply store_around_set, filter_around.
  - cbv zeta. change (items (JArr ?x)) with x. set (n := Z.to_nat i). set (l := items v). f_equal.
    assert (E : length (firstn n l ++ repeat JNull (n - length l)) = n) by (rewrite app_length, repeat_length, firstn_length; lia).
    rewrite (app_assoc (firstn n l) _ (w :: _)), (app_assoc (firstn n l) _ (w' :: skipn (S n) l)).
    set (a := firstn n l ++ repeat JNull (n - length l)) in *. clearbody a.
    assert (Sk : forall x y, skipn (S n) (a ++ x :: y) = y).
    { intros x y. rewrite (skipn_app (S n) a), skipn_all2 by lia. replace (S n - length a) with 1 by lia. reflexivity. }
    assert (Fi : forall y, firstn n (a ++ y) = a).
    { intros y. rewrite firstn_app, E, Nat.sub_diag, firstn_O, app_nil_r, <- E. apply firstn_all. }
    rewrite Sk, Fi. replace (n - length (a ++ w :: skipn (S n) l)) with 0 by (rewrite app_length; simpl; lia). reflexivity.
Qed.
Lemma get_put p : forall (v w : json), get (put v p w) p = w.
Proof. induction p as [|s p IH]; simpl; intros v w; auto. now rewrite get1_set1. Qed.
Lemma put_put p : forall (v w w' : json), put (put v p w) p w' = put v p w'.
Proof. induction p as [|s p IH]; simpl; intros v w w'; auto. now rewrite get1_set1, set1_set1, IH. Qed.
Lemma get_touch p (v : json) : get (touch v p) p = get v p.
Proof. apply get_put. Qed.
Lemma put_touch p (v w : json) : put (touch v p) p w = put v p w.
Proof. apply put_put. Qed.
Lemma get_app p : forall q (v : json), get v (p ++ q) = get (get v p) q.
Proof. induction p; simpl; auto. Qed.
End Laws.

(** * One step *)
Section Nav.
Context {F : Type} (fzero : F).
Notation heap := (heap F).
Definition child (h : heap) (a : addr) (s : sel) (d : addr) : Prop :=
  match s with
  | Key k => exists c m, look h a = Some (CNode (NObj c)) /\ look h c = Some (CObj m) /\ find_key m k = Some d
  | Idx i => exists c l, look h a = Some (CNode (NArr c)) /\ look h c = Some (CArr l) /\ (0 <= i)%Z /\ nth_error l (Z.to_nat i) = Some d
  end.
Lemma child_det h a s d d' : child h a s d -> child h a s d' -> d = d'.
Proof.
  destruct s; simpl; intros (c & m & A & B & C) (c' & m' & A' & B' & C').
  - congruence.
  - destruct C, C'; congruence.
Qed.

Lemma map_snd_upd {A B} (m1 m2 : list (A * B)) k d d' :
  map snd (m1 ++ (k, d') :: m2) = upd (map snd (m1 ++ (k, d) :: m2)) (length m1) d'.
Proof. induction m1 as [|e m1 IH]; simpl; congruence. Qed.
Lemma nth_error_mid {A B} (m1 m2 : list (A * B)) k d : nth_error (map snd (m1 ++ (k, d) :: m2)) (length m1) = Some d.
Proof. induction m1; simpl; auto. Qed.
Lemma split_keys {V W} (m1 m2 : list (bytes * V)) k d (n : list (bytes * W)) : map fst (m1 ++ (k, d) :: m2) = map fst n ->
  exists n1 n2 e, n = n1 ++ (k, e) :: n2 /\ map fst m1 = map fst n1 /\ map fst m2 = map fst n2 /\ length n1 = length m1.
Proof.
  revert n. induction m1 as [|x m1 IH]; intros [|[k' e] n] H; simpl in H; try discriminate.
  - injection H as -> H. exists [], n, e. auto.
  - injection H as E H. destruct (IH n H) as (n1 & n2 & e' & -> & A & B & C). exists ((k', e) :: n1), n2, e'.
    simpl. repeat split; auto; congruence.
Qed.
Lemma upd_split {A} (l : list A) i x y : nth_error l i = Some y -> upd l i x = firstn i l ++ x :: skipn (S i) l.
Proof. revert i. induction l as [|z l IH]; intros [|i] H; simpl in *; try discriminate; auto. now rewrite IH. Qed.

(** an object with an existing element in focus *)
Lemma child_focus h a v f s d : holds h a v f -> child h a s d ->
  exists c f1 f2 g, f = c :: f1 ++ (d :: g) ++ f2 /\ holds h d (get1 v s) g /\
    forall h' w' g', agree (a :: c :: f1 ++ f2) h h' -> holds h' d w' g' -> holds h' a (set1 v s w') (c :: f1 ++ (d :: g') ++ f2).
Proof.
  intros (n & L & R) C. destruct s as [k|i]; simpl in C.
  - destruct C as (c & m & L' & Lc & Fk). rewrite L in L'. injection L' as ->. inversion R; subst.
    rewrite Lc in H0. injection H0 as <-.
    assert (S' : increasing (map fst m)) by congruence.
    destruct (find_key_some m k d S' Fk) as (m1 & m2 & -> & A).
    destruct (split_keys _ _ _ _ _ H1) as (n1 & n2 & e & -> & E1 & E2 & Len).
    destruct (reps_split _ _ _ _ (length m1) d H3) as (w & g & f1 & f2 & -> & En & Hd & W).
    { apply nth_error_mid. }
    rewrite <- Len, nth_error_mid in En. injection En as <-.
    pose proof (around_keys _ _ _ _ _ A E1 E2) as A'.
    exists c, f1, f2, g. split; [reflexivity|]. simpl. rewrite lookup_around by exact A'. split; [exact Hd|].
    intros h' w' g' Ag Hd'. exists (NObj c). split; [rewrite Ag; [exact L|now left]|].
    rewrite store_around_set by exact A'. econstructor.
    + rewrite Ag; [exact Lc|right; now left].
    + rewrite H1, !map_app. reflexivity.
    + rewrite H1 in S'. rewrite !map_app in *. exact S'.
    + rewrite (map_snd_upd n1 n2 k e w'), Len. apply W; auto. eapply agree_incl; eauto. intros x Hx. right. now right.
  - destruct C as (c & l & L' & Lc & Pi & Ni). rewrite L in L'. injection L' as ->. inversion R; subst.
    rewrite Lc in H0. injection H0 as <-.
    destruct (reps_split _ _ _ _ _ _ H2 Ni) as (w & g & f1 & f2 & -> & En & Hd & W).
    exists c, f1, f2, g. split; [reflexivity|]. simpl. rewrite (nth_error_nth _ _ _ En). split; [exact Hd|].
    intros h' w' g' Ag Hd'. exists (NArr c). split; [rewrite Ag; [exact L|now left]|].
    econstructor; [rewrite Ag; [exact Lc|right; now left]|assumption|].
    assert (Z.to_nat i < length vs) by (apply nth_error_Some; congruence).
    replace (Z.to_nat i - length vs) with 0 by lia. simpl. rewrite <- (upd_split _ _ _ _ En).
    apply W; auto. eapply agree_incl; eauto. intros x Hx. right. now right.
Qed.

Lemma grow_ok n : forall (h : heap) l vs f r, reps h l vs f -> own h (f ++ r) ->
  exists h' l' f', grow h l n = (h', l ++ l') /\ length l' = n /\ reps h' (l ++ l') (vs ++ repeat JNull n) (f ++ f') /\
    own h' ((f ++ f') ++ r) /\ agree (f ++ r) h h'.
Proof.
  induction n as [|n IH]; intros h l vs f r R O.
  - exists h, [], []. simpl repeat. rewrite !app_nil_r. simpl. auto 6 using agree_refl.
  - pose proof (alloc_own h _ (CNode NNull) O) as O1. pose proof (alloc_agree h _ (Some (CNode NNull)) O) as A1.
    destruct (IH (h ++ [Some (CNode NNull)]) (l ++ [length h]) (vs ++ [JNull]) (f ++ [length h]) r) as (h' & l' & f' & E & Ln & R' & O' & A').
    { apply reps_app.
      - eapply reps_frame; eauto. eapply agree_incl; eauto. intros x. rewrite in_app_iff. auto.
      - apply reps_one. exists []. split; [reflexivity|]. exists NNull. split; [apply look_app_new|constructor]. }
    { eapply own_perm; eauto. pcount. }
    exists h', (length h :: l'), (length h :: f').
    change (grow h l (S n)) with (grow (h ++ [Some (CNode NNull)]) (l ++ [length h]) n). rewrite E. simpl. rewrite <- !app_assoc in *. simpl in *.
    repeat split; auto; try apply O'.
    intros x Hx. rewrite A', A1; auto. apply in_app_iff in Hx. apply in_or_app. destruct Hx; auto. right. now right.
Qed.

Lemma map_at_ok (h : heap) c m vs f r k : look h c = Some (CObj m) -> map fst m = map fst vs -> increasing (map fst vs) ->
  reps h (map snd m) (map snd vs) f -> own h (c :: f ++ r) ->
  exists h' d m' f', map_at h c k = Ok (h', d) /\ look h' c = Some (CObj m') /\
    map fst m' = map fst (store vs k (lookup vs k)) /\ increasing (map fst m') /\
    reps h' (map snd m') (map snd (store vs k (lookup vs k))) f' /\ own h' (c :: f' ++ r) /\ agree (f ++ r) h h' /\
    find_key m' k = Some d /\ (forall d', find_key m k = Some d' -> h' = h /\ d = d') /\
    (forall k' d', find_key m k' = Some d' -> find_key m' k' = Some d').
Proof.
  intros Lc Ek S R O. unfold map_at, rd_obj. rewrite Lc. simpl bind.
  assert (S' : increasing (map fst m)) by congruence.
  destruct (find_key m k) as [d|] eqn:Fk.
  - destruct (find_key_some m k d S' Fk) as (m1 & m2 & -> & A).
    destruct (split_keys _ _ _ _ _ Ek) as (n1 & n2 & e & -> & E1 & E2 & Len).
    pose proof (around_keys _ _ _ _ _ A E1 E2) as A'.
    rewrite lookup_around, store_around_set by exact A'.
    exists h, d, (m1 ++ (k, d) :: m2), f. repeat split; auto using agree_refl; try apply O; congruence.
  - destruct (find_key_none m k S' Fk) as (m1 & m2 & -> & A & E).
    simpl alloc. rewrite E.
    assert (Ev : exists n1 n2, vs = n1 ++ n2 /\ map fst m1 = map fst n1 /\ map fst m2 = map fst n2).
    { clear - Ek. rewrite map_app in Ek. exists (firstn (length m1) vs), (skipn (length m1) vs).
      rewrite firstn_skipn. split; [reflexivity|]. rewrite <- firstn_map, <- skipn_map, <- Ek.
      rewrite <- (map_length fst m1). split.
      - now rewrite firstn_app, Nat.sub_diag, firstn_O, app_nil_r, firstn_all.
      - now rewrite skipn_app, Nat.sub_diag, skipn_all. }
    destruct Ev as (n1 & n2 & -> & E1 & E2).
    pose proof (around_keys _ _ _ _ _ A E1 E2) as A'.
    rewrite lookup_absent, store_around by exact A'.
    pose proof (alloc_own h _ (CNode NNull) O) as O1. pose proof (alloc_agree h _ (Some (CNode NNull)) O) as A1.
    rewrite !map_app in R. destruct (reps_app_inv _ _ _ _ _ R) as (vs1 & vs2 & f1 & f2 & Ev & -> & R1 & R2).
    assert (Hl : length (map snd n1) = length vs1).
    { apply reps_length in R1. rewrite <- R1, !map_length, <- (map_length fst m1), E1, map_length. reflexivity. }
    assert (Hv : vs1 = map snd n1 /\ vs2 = map snd n2).
    { clear - Ev Hl. revert vs1 Ev Hl. generalize (map snd n1) (map snd n2). induction l as [|x l IH]; destruct vs1; simpl; intros; try lia; auto.
      injection Ev as -> Ev. destruct (IH l0 vs1 Ev); [lia|]. split; congruence. }
    destruct Hv as [-> ->].
    match goal with |- context [wr ?x c ?y] => destruct (wr_ok x c (length h :: (f1 ++ f2) ++ r) y) as (h2 & Ew & O2 & A2 & L2 & _) end.
    { eapply own_perm; eauto. constructor. }
    rewrite Ew. simpl bind. exists h2, (length h), (m1 ++ (k, length h) :: m2), (f1 ++ [length h] ++ f2).
    assert (Ag : agree ((f1 ++ f2) ++ r) h h2).
    { intros x Hx. rewrite A2 by (now right). apply A1. now right. }
    assert (Sm : increasing (map fst (m1 ++ (k, length h) :: m2))) by (apply around_increasing; auto).
    repeat split; auto.
    + rewrite !map_app. simpl. congruence.
    + rewrite !map_app. simpl map. change (map snd n1 ++ JNull :: map snd n2) with (map snd n1 ++ [JNull] ++ map snd n2).
      change (map snd m1 ++ length h :: map snd m2) with (map snd m1 ++ [length h] ++ map snd m2).
      repeat apply reps_app.
      * eapply reps_frame; eauto. eapply agree_incl; eauto. intros x. rewrite !in_app_iff. auto.
      * apply reps_one. exists []. split; [reflexivity|]. exists NNull. split; [|constructor]. rewrite A2 by (now left). apply look_app_new.
      * eapply reps_frame; eauto. eapply agree_incl; eauto. intros x. rewrite !in_app_iff. auto.
    + destruct O2 as [N _]. eapply Permutation_NoDup; [|exact N]. pcount.
    + intros H. apply O2 in H. eapply Permutation_in; [|exact H]. pcount.
    + intros H. apply O2. eapply Permutation_in; [|exact H]. pcount.
    + now apply find_key_around.
    + discriminate.
    + discriminate.
    + intros k' d' Fk'. destruct (find_key_some _ k' d' S' Fk') as (p1 & p2 & Ep & Ap).
      assert (I : In (k', d') (m1 ++ (k, length h) :: m2)).
      { assert (I : In (k', d') (m1 ++ m2)) by (rewrite Ep; apply in_or_app; right; now left).
        apply in_app_iff in I. apply in_or_app. destruct I; auto. right. now right. }
      apply in_split in I. destruct I as (q1 & q2 & Eq). rewrite Eq. apply find_key_around.
      rewrite Eq in Sm. rewrite map_app in Sm. cbn [map fst] in Sm. apply increasing_app in Sm. destruct Sm as (Q1 & Q2 & _).
      split; intros e He; [apply Q1|apply Q2]; now apply in_map.
Qed.

Definition list_at (h : heap) (c : addr) (i : Z) : outcome (heap * addr) :=
  l <- rd_arr h c ;;
  ' (h, l) <-
    (if (Z.of_nat (length l) <=? i)%Z then
       s <- chk32 (i + 1) ;;
       let '(h, l) := grow h l (Z.to_nat s - length l) in
       h <- wr h c (CArr l) ;; Ok (h, l)
     else Ok (h, l)) ;;
  d <- aget l i ;; Ok (h, d).
Lemma index_arr_eq (h : heap) a i : index fzero h a (Idx i) =
  (h <- setType fzero h a KArray ;; n <- rd_node h a ;; match n with NArr c => list_at h c i | _ => UB end).
Proof. reflexivity. Qed.
Lemma nth_error_mid_nat {A} (l : list A) i x : nth_error l i = Some x -> l = firstn i l ++ x :: skipn (S i) l.
Proof. revert i. induction l as [|y l IH]; intros [|i] H; simpl in *; try discriminate; [congruence|]. f_equal. auto. Qed.
Lemma list_at_ok (h : heap) c l vs f r i : look h c = Some (CArr l) -> (Z.of_nat (length l) <= int32_max)%Z ->
  reps h l vs f -> own h (c :: f ++ r) -> (0 <= i < int32_max)%Z ->
  exists h' d l' f', list_at h c i = Ok (h', d) /\ look h' c = Some (CArr l') /\ (Z.of_nat (length l') <= int32_max)%Z /\
    reps h' l' (items (set1 (JArr vs) (Idx i) (get1 (JArr vs) (Idx i)))) f' /\ own h' (c :: f' ++ r) /\ agree (f ++ r) h h' /\
    nth_error l' (Z.to_nat i) = Some d /\ (forall d', nth_error l (Z.to_nat i) = Some d' -> h' = h) /\
    (forall j e, nth_error l j = Some e -> nth_error l' j = Some e).
Proof.
  intros Lc B R O I. unfold list_at, rd_arr. rewrite Lc. simpl bind at 1. pose proof (reps_length _ _ _ _ R) as Len.
  destruct (Z.of_nat (length l) <=? i)%Z eqn:E.
  - apply Z.leb_le in E. assert (Ck : chk32 (i + 1) = Ok (i + 1)%Z).
    { unfold chk32, in_int32, int32_max, int32_min in *. rewrite (proj2 (Z.leb_le _ _)), (proj2 (Z.leb_le _ (2147483647)%Z)) by lia. reflexivity. }
    rewrite Ck. unfold int32_max in *. cbn [bind].
    destruct (grow_ok (Z.to_nat (i + 1) - length l) h l vs f (c :: r)) as (h1 & l1 & f1 & E1 & Ln & R1 & O1 & A1); auto.
    { eapply own_perm; eauto. apply Permutation_middle. }
    rewrite E1. destruct (wr_ok h1 c ((f ++ f1) ++ r) (CArr (l ++ l1))) as (h2 & E2 & O2 & A2 & L2 & _).
    { eapply own_perm; eauto. symmetry. apply Permutation_middle. }
    rewrite E2. cbn [bind].
    assert (Nd : exists d, nth_error (l ++ l1) (Z.to_nat i) = Some d).
    { destruct (nth_error (l ++ l1) (Z.to_nat i)) eqn:X; [eauto|]. apply nth_error_None in X. rewrite app_length in X. clear - X Ln E I. lia. }
    destruct Nd as (d & Nd). unfold aget. rewrite (proj2 (Z.ltb_ge i 0)) by lia. rewrite Nd. cbn [bind].
    exists h2, d, (l ++ l1), (f ++ f1). split; [reflexivity|]. split; [exact L2|]. split; [rewrite app_length; lia|].
    split; [|split; [exact O2|split; [|split; [exact Nd|split]]]].
    + unfold set1, get1. cbv zeta. cbn [items].
      rewrite nth_overflow by lia. rewrite firstn_all2 by lia. rewrite skipn_all2 by lia.
      replace (repeat JNull (Z.to_nat i - length vs) ++ [JNull]) with (repeat (@JNull F) (Z.to_nat (i + 1) - length l)).
      * eapply reps_frame; eauto. eapply agree_incl; [exact A2|]. intros x Hx. apply in_or_app. auto.
      * replace (Z.to_nat (i + 1) - length l) with (Z.to_nat i - length vs + 1) by lia. now rewrite repeat_app.
    + intros x Hx. rewrite A2, A1; auto; apply in_app_iff in Hx; rewrite !in_app_iff; simpl; intuition.
    + intros d' Hd'. exfalso. assert (Z.to_nat i < length l) by (apply nth_error_Some; congruence). lia.
    + intros j e Hj. rewrite nth_error_app1; [exact Hj|]. apply nth_error_Some. congruence.
  - apply Z.leb_gt in E. cbn [bind].
    assert (Nd : exists d, nth_error l (Z.to_nat i) = Some d).
    { destruct (nth_error l (Z.to_nat i)) eqn:X; [eauto|]. apply nth_error_None in X. lia. }
    destruct Nd as (d & Nd). unfold aget. rewrite (proj2 (Z.ltb_ge i 0)) by lia. rewrite Nd. cbn [bind].
    exists h, d, l, f. repeat split; auto using agree_refl; try apply O.
    unfold set1, get1. cbv zeta. cbn [items]. replace (Z.to_nat i - length vs) with 0 by lia. simpl repeat. rewrite app_nil_l.
    rewrite <- (nth_error_mid_nat vs); [exact R|]. apply nth_error_nth'. lia.
Qed.
Lemma list_at_illegal (h : heap) c l i : look h c = Some (CArr l) -> (Z.of_nat (length l) <= int32_max)%Z -> ~ (0 <= i < int32_max)%Z ->
  list_at h c i = UB.
Proof.
  intros Lc B I. unfold list_at, rd_arr. rewrite Lc. simpl bind at 1. destruct (Z.of_nat (length l) <=? i)%Z eqn:E.
  - apply Z.leb_le in E. unfold chk32, in_int32. unfold int32_max, int32_min in *.
    replace ((-2147483648 <=? i + 1)%Z && (i + 1 <=? 2147483647)%Z) with false; [reflexivity|].
    symmetry. apply andb_false_iff. right. apply Z.leb_gt. lia.
  - apply Z.leb_gt in E. cbn [bind]. unfold aget. rewrite (proj2 (Z.ltb_lt i 0)) by lia. reflexivity.
Qed.

Definition legal1 (s : sel) : bool := match s with Key _ => true | Idx i => (0 <=? i)%Z && (i <? int32_max)%Z end.
Definition sel_kind (s : sel) : kind := match s with Key _ => KObject | Idx _ => KArray end.
Lemma set1_other v w s : kind_of_value v <> sel_kind s -> set1 v s w = set1 (initial fzero (sel_kind s)) s w.
Proof. destruct s, v; simpl; intros H; try reflexivity; congruence. Qed.
Lemma get1_other v s : kind_of_value v <> sel_kind s -> get1 v s = get1 (initial fzero (sel_kind s)) s.
Proof. destruct s, v; simpl; intros H; try reflexivity; congruence. Qed.
Lemma child_kind h a v f s d : holds h a v f -> child h a s d -> kind_of_value v = sel_kind s.
Proof.
  intros (n & L & R) C. rewrite <- (kind_rep _ _ _ _ R). destruct s; simpl in C; destruct C as (c & x & L' & _); rewrite L' in L;
    injection L as <-; reflexivity.
Qed.
Lemma kind_same s t : same_kind s t = true <-> sel_kind s = sel_kind t.
Proof. destruct s, t; simpl; split; congruence. Qed.

(** operator[] on an object that already has the right type *)
Lemma enter_ok h a v f r s : holds h a v f -> own h (a :: f ++ r) -> kind_of_value v = sel_kind s -> legal1 s = true ->
  exists h' d f', index fzero h a s = Ok (h', d) /\ holds h' a (set1 v s (get1 v s)) f' /\ own h' (a :: f' ++ r) /\
    agree (a :: tl f ++ r) h h' /\ child h' a s d /\ (forall d', child h a s d' -> h' = h) /\
    (forall t e, child h a t e -> child h' a t e) /\ exists c f0, f = c :: f0.
Proof.
  intros (n & L & R) O K Lg. rewrite <- (kind_rep _ _ _ _ R) in K. destruct s as [k|i]; simpl in K.
  - destruct n; try discriminate. inversion R; subst.
    simpl index. unfold index_key, setType, rd_node. rewrite L. cbn [bind kind_of]. destruct (kind_eq_dec KObject KObject) as [_|]; [|congruence].
    cbn [bind]. rewrite L. cbn [bind].
    destruct (map_at_ok h a0 m vs f0 (a :: r) k) as (h' & d & m' & f' & E & L' & Ek & Sk & R' & O' & A' & Fd & Sd & Kd); auto.
    { eapply own_perm; eauto. simpl. eapply perm_trans; [apply perm_swap|]. constructor. apply Permutation_middle. }
    assert (La : look h' a = Some (CNode (NObj a0))) by (rewrite A'; [exact L|apply in_or_app; right; now left]).
    exists h', d, (a0 :: f'). split; [exact E|]. split; [|split; [|split; [|split; [|split; [|split]]]]].
    + exists (NObj a0). split; [exact La|]. simpl. econstructor; eauto. congruence.
    + eapply own_perm; eauto. simpl. symmetry. eapply perm_trans; [apply perm_swap|]. constructor. apply Permutation_middle.
    + eapply agree_incl; eauto. intros x. simpl. rewrite !in_app_iff. simpl. intuition.
    + simpl. exists a0, m'. auto.
    + simpl. intros d' (c & m0 & X & Y & W). rewrite L in X. injection X as <-. rewrite H0 in Y. injection Y as <-. now apply (Sd d').
    + intros t e C. destruct t as [k'|j]; simpl in *; destruct C as (c & m0 & X & Y & W); rewrite L in X; [|discriminate].
      injection X as <-. rewrite H0 in Y. injection Y as <-. exists a0, m'. auto.
    + eauto.
  - destruct n; try discriminate. inversion R; subst. simpl in Lg. apply andb_true_iff in Lg. destruct Lg as [Lg1 Lg2].
    apply Z.leb_le in Lg1. apply Z.ltb_lt in Lg2.
    rewrite index_arr_eq. unfold setType, rd_node. rewrite L. cbn [bind kind_of]. destruct (kind_eq_dec KArray KArray) as [_|]; [|congruence].
    cbn [bind]. rewrite L. cbn [bind].
    destruct (list_at_ok h a0 l vs f0 (a :: r) i) as (h' & d & l' & f' & E & L' & B' & R' & O' & A' & Nd & Sd & Kd); auto.
    { eapply own_perm; eauto. simpl. eapply perm_trans; [apply perm_swap|]. constructor. apply Permutation_middle. }
    assert (La : look h' a = Some (CNode (NArr a0))) by (rewrite A'; [exact L|apply in_or_app; right; now left]).
    exists h', d, (a0 :: f'). split; [exact E|]. split; [|split; [|split; [|split; [|split; [|split]]]]].
    + exists (NArr a0). split; [exact La|]. econstructor; eauto.
    + eapply own_perm; eauto. simpl. symmetry. eapply perm_trans; [apply perm_swap|]. constructor. apply Permutation_middle.
    + eapply agree_incl; eauto. intros x. simpl. rewrite !in_app_iff. simpl. intuition.
    + simpl. exists a0, l'. auto.
    + simpl. intros d' (c & m0 & X & Y & _ & W). rewrite L in X. injection X as <-. rewrite H0 in Y. injection Y as <-. now apply (Sd d').
    + intros t e C. destruct t as [k'|j]; simpl in *; [destruct C as (c & m0 & X & Y & W)|destruct C as (c & m0 & X & Y & P & W)]; rewrite L in X; [discriminate|].
      injection X as <-. rewrite H0 in Y. injection Y as <-. exists a0, l'. auto.
    + eauto.
Qed.
Lemma setType_noop (h : heap) a n : look h a = Some (CNode n) -> setType fzero h a (kind_of n) = Ok h.
Proof. intros L. unfold setType, rd_node. rewrite L. simpl. destruct (kind_eq_dec _ _); congruence. Qed.
Lemma index_setType (h h1 : heap) a s f v : setType fzero h a (sel_kind s) = Ok h1 -> holds h1 a v f -> kind_of_value v = sel_kind s ->
  index fzero h a s = index fzero h1 a s.
Proof.
  intros E (n & L & R) K. rewrite <- (kind_rep _ _ _ _ R) in K. pose proof (setType_noop h1 a n L) as E1. rewrite K in E1.
  destruct s; simpl in *; unfold index_key, index_int; rewrite E, E1; reflexivity.
Qed.
Lemma setType_sel h a v f r s : holds h a v f -> own h (a :: f ++ r) ->
  exists h' v' f', setType fzero h a (sel_kind s) = Ok h' /\ own h' (a :: f' ++ r) /\ agree r h h' /\
    holds h' a v' f' /\ kind_of_value v' = sel_kind s /\ (forall w, set1 v' s w = set1 v s w) /\ get1 v' s = get1 v s /\
    ((kind_of_value v = sel_kind s /\ h' = h /\ f' = f /\ v' = v) \/
     (kind_of_value v <> sel_kind s /\ forall x, In x f -> look h' x = None)).
Proof.
  intros Hd O. destruct (setType_ok fzero h a v f r (sel_kind s) Hd O) as (h1 & f1 & E & O1 & A & [(K & -> & ->)|(K & Hd' & Dd)]).
  - exists h, v, f. auto 12.
  - exists h1, (initial fzero (sel_kind s)), f1. repeat split; auto; try apply O1.
    + now destruct s.
    + intros w. symmetry. now apply set1_other.
    + symmetry. now apply get1_other.
Qed.
Lemma index_ok h a v f r s : holds h a v f -> own h (a :: f ++ r) -> legal1 s = true ->
  exists h' d f', index fzero h a s = Ok (h', d) /\ holds h' a (set1 v s (get1 v s)) f' /\ own h' (a :: f' ++ r) /\ agree r h h' /\
    child h' a s d /\ (forall d', child h a s d' -> h' = h) /\
    (forall t e, same_kind s t = true -> child h a t e -> child h' a t e /\ agree (a :: tl f) h h') /\
    (forall t e, same_kind s t = false -> child h a t e -> forall x, In x f -> look h' x = None).
Proof.
  intros Hd O Lg. destruct (setType_sel h a v f r s Hd O) as (h1 & v1 & f1 & E1 & O1 & A1 & Hd1 & K1 & S1 & G1 & Ca).
  destruct (enter_ok h1 a v1 f1 r s Hd1 O1 K1 Lg) as (h2 & d & f2 & E2 & Hd2 & O2 & A2 & C2 & Sm & Kd & c & f0 & Ef).
  exists h2, d, f2. split; [rewrite (index_setType h h1 a s f1 v1); auto|]. rewrite S1, G1 in Hd2.
  split; [exact Hd2|]. split; [exact O2|]. split; [|split; [exact C2|]].
  { intros x Hx. rewrite A2; [auto|]. right. apply in_or_app. auto. }
  destruct Ca as [(K & -> & -> & ->)|(K & Dd)].
  - split; [exact Sm|]. split.
    + intros t e _ Ct. split; [auto|]. eapply agree_incl; eauto. intros x [<-|Hx]; [now left|]. right. apply in_or_app. auto.
    + intros t e Kt Ct. exfalso. pose proof (child_kind _ _ _ _ _ _ Hd Ct) as Kt'. assert (X : same_kind s t = true) by (apply kind_same; congruence). congruence.
  - split; [|split].
    + intros d' C. exfalso. apply K. eapply child_kind; eauto.
    + intros t e Kt C. exfalso. apply K. apply kind_same in Kt. rewrite Kt. eapply child_kind; eauto.
    + intros t e _ _ x Hx. assert (L : later h1 h2).
      { rewrite <- (index_setType h h1 a s f1 v1) in E2 by auto. pose proof (index_later fzero h1 a s h2 d) as X. rewrite (index_setType h h1 a s f1 v1) in E2 by auto. auto. }
      destruct L as [_ L]. apply L; auto. apply setType_later in E1. destruct E1 as [E1 _]. eapply Nat.lt_le_trans; [|exact E1].
      eapply own_lt; eauto. right. apply in_or_app. auto.
Qed.
Lemma index_illegal h a v f r s : holds h a v f -> own h (a :: f ++ r) -> legal1 s = false -> index fzero h a s = UB.
Proof.
  intros Hd O Lg. destruct s as [k|i]; [discriminate|].
  destruct (setType_sel h a v f r (Idx i) Hd O) as (h1 & v1 & f1 & E1 & O1 & A1 & (n & L & R) & K1 & _).
  rewrite index_arr_eq. simpl in E1. rewrite E1. cbn [bind]. unfold rd_node. rewrite L. cbn [bind].
  rewrite <- (kind_rep _ _ _ _ R) in K1. destruct n; try discriminate. inversion R; subst. eapply list_at_illegal; eauto.
  intros I. simpl in Lg. rewrite (proj2 (Z.leb_le 0 i)), (proj2 (Z.ltb_lt i _)) in Lg by lia. discriminate.
Qed.
End Nav.
