(** Member functions on one object. *)
From Coq Require Import Permutation.
From Verif Require Import Base JsonModel JsonSpec JsonProofs JsonRoundProofs JsonHeapModel JsonHeapSpec JsonHeapProofs JsonHeapOpsProofs JsonHeapNavProofs JsonHeapWalkProofs JsonHeapEnvProofs.
Local Open Scope nat_scope.

Lemma nodup_disj {A} (l l' : list A) x : NoDup (l ++ l') -> In x l -> In x l' -> False.
Proof.
  induction l as [|y l IH]; simpl; intros N I I'; [exact I|]. apply NoDup_cons_iff in N. destruct N as [N1 N2].
  destruct I as [->|I]; [|auto]. apply N1. apply in_or_app. auto.
Qed.

Section Step.
Context {F : Type} (fzero : F) (D : doubles F).
Notation heap := (heap F).

Lemma own_nodup (h : heap) a f r : own h (a :: f ++ r) -> NoDup f.
Proof. intros [N _]. inversion N; subst. now apply nodup_left in H2. Qed.
Lemma own_dead (h : heap) l x : own h l -> ~ In x l -> look h x = None.
Proof. intros [_ O] N. destruct (look h x) eqn:E; [|reflexivity]. exfalso. apply N, O. congruence. Qed.

Lemma assign_ok (h : heap) a v f r s : holds h a v f -> own h (a :: f ++ r) ->
  exists h' f', assign fzero h a s = Ok h' /\ holds h' a (scalar s) f' /\ own h' (a :: f' ++ r) /\ agree r h h'.
Proof.
  intros Hd O.
  assert (Plain : forall k n, (forall h2, nrep h2 n (scalar s) []) -> (forall h1 f1, holds h1 a (initial fzero k) f1 -> f1 = []) -> (kind_of_value v = k -> f = []) ->
    exists h' f', (h <- setType fzero h a k ;; wr h a (CNode n)) = Ok h' /\ holds h' a (scalar s) f' /\ own h' (a :: f' ++ r) /\ agree r h h').
  { intros k n Rn In_ Iv. destruct (setType_ok fzero h a v f r k Hd O) as (h1 & f1 & E1 & O1 & A1 & C). rewrite E1. cbn [bind].
    assert (f1 = []) as ->. { destruct C as [(K & -> & ->)|(K & Hd1 & _)]; eauto. }
    destruct (wr_ok h1 a r (CNode n) O1) as (h2 & E2 & O2 & A2 & L2 & _). exists h2, []. rewrite E2. split; [reflexivity|].
    split; [exists n; auto|]. split; [exact O2|]. eapply agree_trans; eauto. }
  destruct s; simpl assign.
  - apply (Plain KBool (NBool b)); [constructor| |].
    + intros h1 f1 (n & _ & R). now inversion R.
    + intros K. destruct Hd as (n & _ & R). inversion R; subst; simpl in K; congruence.
  - apply (Plain KInt (NInt z)); [constructor| |].
    + intros h1 f1 (n & _ & R). now inversion R.
    + intros K. destruct Hd as (n & _ & R). inversion R; subst; simpl in K; congruence.
  - apply (Plain KFloat (NFlt f0)); [constructor| |].
    + intros h1 f1 (n & _ & R). now inversion R.
    + intros K. destruct Hd as (n & _ & R). inversion R; subst; simpl in K; congruence.
  - destruct (setType_ok fzero h a v f r KString Hd O) as (h1 & f1 & E1 & O1 & A1 & C). rewrite E1. cbn [bind].
    assert (X : exists c, look h1 a = Some (CNode (NStr c)) /\ f1 = [c]).
    { destruct C as [(K & -> & ->)|(K & Hd1 & _)].
      - destruct Hd as (n & L & R). rewrite <- (kind_rep _ _ _ _ R) in K. destruct n; try discriminate. inversion R; subst. eauto.
      - destruct Hd1 as (n & L & R). inversion R; subst. eauto. }
    destruct X as (c & L1 & ->). unfold rd_node. rewrite L1. cbn [bind].
    destruct (wr_ok h1 c (a :: r) (CStr s)) as (h2 & E2 & O2 & A2 & L2 & _).
    { eapply own_perm; [exact O1|]. constructor. }
    exists h2, [c]. rewrite E2. split; [reflexivity|]. split; [|split].
    + exists (NStr c). split; [rewrite A2 by (now left); exact L1|]. now constructor.
    + eapply own_perm; [exact O2|]. constructor.
    + intros x Hx. rewrite A2 by (now right). auto.
Qed.
Lemma construct_ok (h : heap) s r : own h r ->
  exists h' n g, construct h s = (h', n) /\ nrep h' n (scalar s) g /\ own h' (g ++ r) /\ agree r h h'.
Proof.
  intros O. destruct s; simpl; try (eexists h, _, []; split; [reflexivity|]; split; [constructor|]; split; [exact O|apply agree_refl]).
  eexists _, _, [length h]. split; [reflexivity|]. split; [constructor; apply look_app_new|]. split; [now apply alloc_own|now apply alloc_agree].
Qed.
Lemma copy_assign_ok (h : heap) a v f r t w gt : holds h a v f -> own h (a :: f ++ r) -> holds h t w gt -> incl (t :: gt) (a :: r) -> NoDup gt ->
  exists h' f', copy_assign h a t = Ok h' /\ holds h' a w f' /\ own h' (a :: f' ++ r) /\ agree r h h'.
Proof.
  intros Hd O Ht I N. destruct (clearData_ok h a v f r Hd O) as (h1 & E1 & O1 & A1 & _).
  assert (Ht1 : holds h1 t w gt) by (eapply holds_frame; eauto; eapply agree_incl; eauto).
  destruct (copyData_ok h1 t w gt (a :: r) Ht1 I N O1) as (h2 & n & g & E2 & R2 & O2 & A2).
  unfold copy_assign. rewrite E1. cbn [bind]. rewrite E2. cbn [bind].
  destruct (wr_ok h2 a (g ++ r) (CNode n)) as (h3 & E3 & O3 & A3 & L3 & _).
  { eapply own_perm; [exact O2|]. symmetry. apply Permutation_middle. }
  exists h3, g. split; [exact E3|]. split; [|split; [exact O3|]].
  - exists n. split; [exact L3|]. eapply nrep_frame; eauto. eapply agree_incl; eauto. intros x. rewrite in_app_iff. auto.
  - intros x Hx. rewrite A3, A2, A1; auto; try (now right). apply in_or_app. auto.
Qed.
Lemma destroy_ok (h : heap) a v f r : holds h a v f -> own h (a :: f ++ r) -> exists h', destroy h a = Ok h' /\ own h' r /\ agree r h h'.
Proof.
  intros Hd O. destruct (clearData_ok h a v f r Hd O) as (h1 & E1 & O1 & A1 & _). unfold destroy. rewrite E1. cbn [bind].
  destruct (release_ok h1 a r O1) as (h2 & E2 & O2 & A2 & _). exists h2. repeat split; auto; try apply O2.
  intros x Hx. rewrite A2 by assumption. apply A1. now right.
Qed.
Lemma destroy_all l : forall (h : heap) vs g r, reps h l vs g -> own h (g ++ r) -> exists h', each destroy h l = Ok h' /\ own h' r /\ agree r h h'.
Proof.
  induction l as [|a l IH]; intros h vs g r R O.
  - apply reps_nil_inv in R. destruct R as [-> ->]. exists h. auto using agree_refl.
  - apply reps_cons_inv in R. destruct R as (n & v & f1 & vs' & f2 & -> & -> & H1 & H2 & H3).
    destruct (destroy_ok h a v f1 (f2 ++ r)) as (h1 & E1 & O1 & A1); [now exists n| |].
    { eapply own_perm; [exact O|]. pcount. }
    simpl each. rewrite E1. cbn [bind]. destruct (IH h1 vs' f2 r) as (h2 & E2 & O2 & A2); auto.
    { eapply reps_frame; eauto. eapply agree_incl; eauto. intros x. rewrite in_app_iff. auto. }
    exists h2. split; [exact E2|]. split; [exact O2|]. intros x Hx. rewrite A2, A1; auto. apply in_or_app. auto.
Qed.
Lemma new_copy_ok (h : heap) b w g r : holds h b w g -> incl (b :: g) r -> NoDup g -> own h r ->
  exists h' t gt, new_copy h b = Ok (h', t) /\ holds h' t w gt /\ own h' (t :: gt ++ r) /\ agree r h h'.
Proof.
  intros Hd I N O. destruct (copyData_ok h b w g r Hd I N O) as (h1 & n & gt & E1 & R1 & O1 & A1). unfold new_copy. rewrite E1. cbn [bind].
  pose proof (alloc_agree h1 _ (Some (CNode n)) O1) as A2. exists (h1 ++ [Some (CNode n)]), (length h1), gt. split; [reflexivity|]. split; [|split].
  - exists n. split; [apply look_app_new|]. eapply nrep_frame; eauto. eapply agree_incl; eauto. intros x. rewrite in_app_iff. auto.
  - apply (alloc_own h1 _ (CNode n) O1).
  - intros x Hx. rewrite A2, A1; auto. apply in_or_app. auto.
Qed.

(** append *)
Lemma to_array (h : heap) a v f r : holds h a v f -> own h (a :: f ++ r) ->
  exists h' f', setType fzero h a KArray = Ok h' /\ holds h' a (JArr (items v)) f' /\ own h' (a :: f' ++ r) /\ agree r h h'.
Proof.
  intros Hd O. destruct (setType_ok fzero h a v f r KArray Hd O) as (h1 & f1 & E1 & O1 & A1 & C). exists h1, f1. split; [exact E1|]. split; auto.
  destruct C as [(K & -> & ->)|(K & Hd1 & _)]; destruct v; simpl in *; try congruence; auto.
Qed.
Lemma holds_arr (h : heap) a vs f : holds h a (JArr vs) f -> exists c l f0, f = c :: f0 /\ look h a = Some (CNode (NArr c)) /\
  look h c = Some (CArr l) /\ (Z.of_nat (length l) <= int32_max)%Z /\ reps h l vs f0.
Proof. intros (n & L & R). inversion R; subst. eauto 10. Qed.
Lemma push_ok (h : heap) a vs f n w gn r : holds h a (JArr vs) f -> nrep h n w gn -> own h (a :: f ++ gn ++ r) ->
  (Z.of_nat (length vs) < int32_max)%Z ->
  exists h' f', push h a n = Ok h' /\ holds h' a (JArr (vs ++ [w])) f' /\ own h' (a :: f' ++ r) /\ agree r h h'.
Proof.
  intros Hd Rn O B. apply holds_arr in Hd. destruct Hd as (c & l & f0 & -> & L & H1 & H2 & H3). unfold push, rd_node. rewrite L. cbn [bind]. unfold rd_arr. rewrite H1. cbn [bind].
  rewrite (reps_length _ _ _ _ H3). rewrite (proj2 (Z.ltb_lt _ _) B). cbn [alloc]. cbv beta iota zeta.
  pose proof (alloc_own h _ (CNode n) O) as O1. pose proof (alloc_agree h _ (Some (CNode n)) O) as A1.
  destruct (wr_ok (h ++ [Some (CNode n)]) c (length h :: a :: f0 ++ gn ++ r) (CArr (l ++ [length h]))) as (h2 & E2 & O2 & A2 & L2 & _).
  { eapply own_perm; [exact O1|]. pcount. }
  assert (Ag : agree (a :: f0 ++ gn ++ r) h h2).
  { intros x Hx. rewrite A2 by (now right). apply A1. destruct Hx as [<-|Hx]; [now left|]. right. now right. }
  exists h2, (c :: f0 ++ (length h :: gn)). split; [exact E2|]. split; [|split].
  - exists (NArr c). split; [rewrite Ag; [exact L|now left]|]. econstructor; eauto.
    + pose proof (reps_length _ _ _ _ H3). rewrite app_length. simpl. unfold int32_max in *. lia.
    + apply reps_app.
      * eapply reps_frame; eauto. eapply agree_incl; eauto. intros x Hx. right. apply in_or_app. auto.
      * apply reps_one. exists gn. split; [reflexivity|]. exists n. split; [rewrite A2 by (now left); apply look_app_new|].
        eapply nrep_frame; eauto. eapply agree_incl; eauto. intros x Hx. right. rewrite !in_app_iff. auto.
  - eapply own_perm; [exact O2|]. pcount.
  - eapply agree_incl; eauto. intros x Hx. right. rewrite !in_app_iff. auto.
Qed.
Lemma push_full (h : heap) a vs f n : holds h a (JArr vs) f -> (int32_max <= Z.of_nat (length vs))%Z -> push h a n = Fuel.
Proof.
  intros Hd B. apply holds_arr in Hd. destruct Hd as (c & l & f0 & -> & L & H1 & H2 & H3). unfold push, rd_node. rewrite L. cbn [bind]. unfold rd_arr. rewrite H1. cbn [bind].
  rewrite (reps_length _ _ _ _ H3). now rewrite (proj2 (Z.ltb_ge _ _) B).
Qed.
Lemma append_scal_ok (h : heap) a v f r s : holds h a v f -> own h (a :: f ++ r) ->
  match appended v (scalar s) with
  | Ok w => exists h' f', append_scal fzero h a s = Ok h' /\ holds h' a w f' /\ own h' (a :: f' ++ r) /\ agree r h h'
  | _ => append_scal fzero h a s = Fuel
  end.
Proof.
  intros Hd O. destruct (to_array h a v f r Hd O) as (h1 & f1 & E1 & Hd1 & O1 & A1).
  destruct (construct_ok h1 s (a :: f1 ++ r) O1) as (h2 & n & g & E2 & R2 & O2 & A2).
  assert (Hd2 : holds h2 a (JArr (items v)) f1).
  { eapply holds_frame; eauto. eapply agree_incl; eauto. intros x [<-|Hx]; [now left|]. right. apply in_or_app. auto. }
  unfold appended, append_scal. rewrite E1. cbn [bind]. rewrite E2. destruct (_ <? _)%Z eqn:B.
  - apply Z.ltb_lt in B. destruct (push_ok h2 a (items v) f1 n (scalar s) g r Hd2 R2) as (h3 & f3 & E3 & Hd3 & O3 & A3); auto.
    { eapply own_perm; [exact O2|]. pcount. }
    exists h3, f3. repeat split; auto; try apply O3. intros x Hx. rewrite A3, A2, A1; auto. right. apply in_or_app. auto.
  - apply Z.ltb_ge in B. eapply push_full; eauto.
Qed.
Lemma append_obj_ok (h : heap) a v f r t w gt : holds h a v f -> holds h t w gt -> own h (a :: f ++ (t :: gt) ++ r) ->
  match appended v w with
  | Ok w => exists h' f', append_obj fzero h a t = Ok h' /\ holds h' a w f' /\ own h' (a :: f' ++ r) /\ agree r h h'
  | _ => append_obj fzero h a t = Fuel
  end.
Proof.
  intros Hd Ht O. destruct (to_array h a v f _ Hd O) as (h1 & f1 & E1 & Hd1 & O1 & A1).
  assert (Ht1 : holds h1 t w gt). { eapply holds_frame; eauto. eapply agree_incl; eauto. intros x. rewrite in_app_iff. auto. }
  assert (Ng : NoDup gt).
  { destruct O1 as [N _]. inversion N; subst. apply nodup_right in H2. change (NoDup ((t :: gt) ++ r)) in H2. apply nodup_left in H2. now inversion H2. }
  destruct (copyData_ok h1 t w gt (a :: f1 ++ (t :: gt) ++ r) Ht1) as (h2 & n & g & E2 & R2 & O2 & A2); auto.
  { intros x Hx. right. apply in_or_app. right. apply in_or_app. auto. }
  assert (Hd2 : holds h2 a (JArr (items v)) f1).
  { eapply holds_frame; eauto. eapply agree_incl; eauto. intros x [<-|Hx]; [now left|]. right. apply in_or_app. auto. }
  assert (Ht2 : holds h2 t w gt).
  { eapply holds_frame; eauto. eapply agree_incl; eauto. intros x Hx. right. apply in_or_app. right. apply in_or_app. auto. }
  unfold appended, append_obj. rewrite E1. cbn [bind]. rewrite E2. cbn [bind]. destruct (_ <? _)%Z eqn:B.
  - apply Z.ltb_lt in B. destruct (push_ok h2 a (items v) f1 n w g ((t :: gt) ++ r) Hd2 R2) as (h3 & f3 & E3 & Hd3 & O3 & A3); auto.
    { eapply own_perm; [exact O2|]. pcount. }
    assert (Ht3 : holds h3 t w gt). { eapply holds_frame; eauto. eapply agree_incl; eauto. intros x Hx. apply in_or_app. auto. }
    rewrite E3. cbn [bind]. destruct (destroy_ok h3 t w gt (a :: f3 ++ r) Ht3) as (h4 & E4 & O4 & A4).
    { eapply own_perm; [exact O3|]. pcount. }
    exists h4, f3. split; [exact E4|]. split; [|split; [exact O4|]].
    + eapply holds_frame; eauto. eapply agree_incl; eauto. intros x [<-|Hx]; [now left|]. right. apply in_or_app. auto.
    + intros x Hx. assert (Hx' : In x ((t :: gt) ++ r)) by (apply in_or_app; auto).
      rewrite A4, A3, A2, A1; auto; right; apply in_or_app; auto.
  - apply Z.ltb_ge in B. rewrite (push_full h2 a (items v) f1 n Hd2 B). reflexivity.
Qed.

(** const member functions *)
Lemma find_has {V} (m : list (bytes * V)) (vs : list (bytes * json F)) k : increasing (map fst m) -> map fst m = map fst vs ->
  (match find_key m k with Some _ => true | None => false end) = has vs k.
Proof.
  intros S Em. assert (X : has vs k = existsb (fun k' => same_key k' k) (map fst vs)).
  { unfold has. clear. induction vs; simpl; congruence. }
  rewrite X, <- Em. destruct (find_key m k) as [d|] eqn:Ek.
  - apply find_key_in in Ek. symmetry. apply existsb_exists. exists k. split; [now apply (in_map fst) in Ek|now apply same_key_true].
  - destruct (find_key_none m k S Ek) as (m1 & m2 & -> & [A B] & _). symmetry. apply not_true_is_false. intros H.
    apply existsb_exists in H. destruct H as (k' & I & E). apply same_key_true in E. subst k'. apply (lex_irr k).
    apply in_map_iff in I. destruct I as (e & Ee & I). rewrite <- Ee. apply in_app_iff in I. destruct I as [I|I].
    + rewrite Ee at 2. apply A, I.
    + rewrite Ee at 1. apply B, I.
Qed.
Lemma ask_ok (h : heap) a v g q : holds h a v g -> length g <= length h -> ask fzero D h a q = Ok (answer fzero D v q).
Proof.
  intros Hd Lg. pose proof Hd as (n & L & R). unfold ask, rd_node. rewrite L. cbn [bind]. destruct q.
  - rewrite (view_ok (S (length h)) h a v g Hd) by lia. reflexivity.
  - now rewrite (kind_rep _ _ _ _ R).
  - inversion R; subst; try reflexivity; [unfold rd_arr|unfold rd_obj]; rewrite H; cbn [bind answer].
    + now rewrite (reps_length _ _ _ _ H1).
    + rewrite <- (map_length fst m), H0, map_length. reflexivity.
  - inversion R; subst; try reflexivity. unfold rd_arr. rewrite H. cbn [bind answer]. now rewrite (reps_length _ _ _ _ H1).
  - inversion R; subst; try reflexivity. unfold rd_obj. rewrite H. cbn [bind answer entries]. rewrite (find_has m vs); auto. congruence.
  - inversion R; subst; try reflexivity. unfold rd_str. now rewrite H.
  - inversion R; subst; reflexivity.
  - inversion R; subst; reflexivity.
  - inversion R; subst; reflexivity.
Qed.

(** copying an object of which a part has been released *)
Lemma copy_later fuel : forall (h : heap) a h' n, copy fuel h a = Ok (h', n) -> later h h'.
Proof.
  induction fuel as [|fuel IH]; intros h a h' n E; [discriminate|].
  assert (Al : forall l (h h' : heap) l', copy_all (copy fuel) h l = Ok (h', l') -> later h h').
  { induction l as [|b l IHl]; intros h0 h1 l' X; simpl in X; [injection X as <- _; apply later_refl|].
    apply bind_ok in X. destruct X as ([h2 n2] & X1 & X). apply IH in X1. apply bind_ok in X. destruct X as ([h3 l3] & X2 & X).
    injection X as <- _. apply IHl in X2. eapply later_trans; [exact X1|]. eapply later_trans; [apply alloc_later|exact X2]. }
  simpl in E. apply bind_ok in E. destruct E as (n0 & _ & E). destruct n0; try (injection E as <- _; apply later_refl).
  - apply bind_ok in E. destruct E as (s & _ & E). injection E as <- _. apply alloc_later.
  - apply bind_ok in E. destruct E as (l & _ & E). apply bind_ok in E. destruct E as ([h2 l2] & E1 & E). injection E as <- _.
    eapply later_trans; [eapply Al; eauto|apply alloc_later].
  - apply bind_ok in E. destruct E as (l & _ & E). apply bind_ok in E. destruct E as ([h2 l2] & E1 & E). injection E as <- _.
    eapply later_trans; [eapply Al; eauto|apply alloc_later].
Qed.
Lemma copy_all_later fuel l : forall (h h' : heap) l', copy_all (copy fuel) h l = Ok (h', l') -> later h h'.
Proof.
  induction l as [|b l IHl]; intros h0 h1 l' X; simpl in X; [injection X as <- _; apply later_refl|].
  apply bind_ok in X. destruct X as ([h2 n2] & X1 & X). apply copy_later in X1. apply bind_ok in X. destruct X as ([h3 l3] & X2 & X).
  injection X as <- _. apply IHl in X2. eapply later_trans; [exact X1|]. eapply later_trans; [apply alloc_later|exact X2].
Qed.
Lemma copy_all_app fuel l d l2 : forall (h h' : heap) l', copy_all (copy fuel) h l = Ok (h', l') -> copy fuel h' d = UB ->
  copy_all (copy fuel) h (l ++ d :: l2) = UB.
Proof.
  induction l as [|b l IHl]; intros h h' l' X U; simpl in X |- *; [injection X as <- _; now rewrite U|].
  apply bind_ok in X. destruct X as ([h2 n2] & X1 & X). rewrite X1. cbn [bind]. apply bind_ok in X. destruct X as ([h3 l3] & X2 & X).
  injection X as <- _. change (let '(h, a') := alloc h2 (CNode n2) in ' (h0, l) <- copy_all (copy fuel) h (l ++ d :: l2) ;; Ok (h0, a' :: l))
    with (' (h0, l) <- copy_all (copy fuel) (h2 ++ [Some (CNode n2)]) (l ++ d :: l2) ;; Ok (h0, length h2 :: l)).
  erewrite IHl; eauto.
Qed.
Lemma copy_child (h : heap) a v f s d : holds h a v f -> child h a s d ->
  exists c l vs f0, f = c :: f0 /\ reps h l vs f0 /\ In d l /\
    forall h1 fuel, look h1 a = look h a -> look h1 c = look h c -> copy_all (copy fuel) h1 l = UB -> copy (S fuel) h1 a = UB.
Proof.
  intros (n & L & R) C. destruct s; simpl in C.
  - destruct C as (c & m & L1 & Lc & Fk). rewrite L1 in L. injection L as <-. inversion R; subst. assert (m0 = m) by congruence. subst m0.
    exists c, (map snd m), (map snd vs), f0. split; [reflexivity|]. split; [assumption|]. split; [apply find_key_in in Fk; now apply (in_map snd) in Fk|].
    intros h1 fuel X Y U. simpl. unfold rd_node. rewrite X, L1. cbn [bind]. unfold rd_obj. rewrite Y, Lc. cbn [bind]. now rewrite U.
  - destruct C as (c & m & L1 & Lc & _ & Fk). rewrite L1 in L. injection L as <-. inversion R; subst. assert (l = m) by congruence. subst l.
    exists c, m, vs, f0. split; [reflexivity|]. split; [assumption|]. split; [now apply nth_error_In in Fk|].
    intros h1 fuel X Y U. simpl. unfold rd_node. rewrite X, L1. cbn [bind]. unfold rd_arr. rewrite Y, Lc. cbn [bind]. now rewrite U.
Qed.
Lemma copy_torn (h : heap) b w g : holds h b w g -> owning w = true -> forall p fuel h1 a v f R,
  holds h a v f -> walk h a p b -> length f < fuel -> NoDup (a :: f) -> own h1 R ->
  (forall x, In x (a :: f) -> ~ In x g -> look h1 x = look h x /\ In x R) -> (forall x, In x g -> look h1 x = None /\ x < length h1) ->
  copy fuel h1 a = UB.
Proof.
  intros Hb Ow. induction p as [|s p IH]; intros fuel h1 a v f R Hd W Lf N O Live Dead; (destruct fuel as [|fuel]; [lia|]).
  - simpl in W. subst b. destruct (holds_det _ _ _ _ _ _ Hd Hb) as [-> ->]. destruct Hd as (n & L & Rn).
    assert (La : look h1 a = look h a). { apply Live; [now left|]. now inversion N. }
    simpl. unfold rd_node. rewrite La, L. cbn [bind].
    inversion Rn; subst; try discriminate Ow; [unfold rd_str|unfold rd_arr|unfold rd_obj];
      rewrite (proj1 (Dead c (or_introl eq_refl))); reflexivity.
  - destruct W as (d & C & W). destruct (copy_child h a v f s d Hd C) as (c & l & vs & f0 & -> & Rl & Id & K).
    apply in_split in Id. destruct Id as (l1 & l2 & ->). destruct (reps_app_inv _ _ _ _ _ Rl) as (vs1 & vs2 & g1 & g2 & -> & -> & R1 & R2).
    apply reps_cons_inv in R2. destruct R2 as (nd & vd & gd & vs3 & g3 & -> & -> & Ld & Rd & R3).
    assert (Hd2 : holds h d vd gd) by (now exists nd).
    destruct (walk_focus h p d vd gd b Hd2 W) as (gb & x & P & Hb' & _). destruct (holds_det _ _ _ _ _ _ Hb Hb') as [_ <-].
    assert (Sub : forall y, In y g -> In y (d :: gd)).
    { intros y Hy. eapply Permutation_in; [symmetry; exact P|]. right. apply in_or_app. auto. }
    assert (Out : forall y, In y (a :: c :: g1) -> ~ In y g).
    { intros y Hy Hg. apply Sub in Hg. assert (N' : NoDup ((a :: c :: g1) ++ (d :: gd) ++ g3)) by exact N.
      apply (nodup_disj _ _ y N' Hy). apply in_or_app. auto. }
    assert (Lv : forall y, In y (a :: c :: g1) -> look h1 y = look h y /\ In y R).
    { intros y Hy. apply Live; auto. destruct Hy as [<-|[<-|Hy]]; [now left|right; now left|]. right. right. apply in_or_app. auto. }
    apply K; [apply Lv; now left|apply Lv; right; now left|].
    assert (R1' : reps h1 l1 vs1 g1). { eapply reps_frame; eauto. intros y Hy. apply Lv. right. now right. }
    simpl in Lf. rewrite !app_length in Lf. simpl in Lf. rewrite app_length in Lf.
    destruct (copy_all_ok (copy fuel) fuel (copy_ok fuel) l1 vs1 g1 h1 R) as (h2 & l' & g' & E2 & R2' & O2 & A2); auto; try lia.
    { intros y Hy. apply Lv. right. now right. }
    eapply copy_all_app; [exact E2|]. pose proof (copy_all_later _ _ _ _ _ E2) as [Lt1 Lt2].
    apply (IH fuel h2 d vd gd (g' ++ R)); auto; try lia.
    + assert (N' : NoDup ((a :: c :: g1) ++ (d :: gd) ++ g3)) by exact N. apply nodup_right in N'. now apply nodup_left in N'.
    + intros y Hy Hg. destruct (Live y) as [X Y]; auto.
      { right. right. apply in_or_app. right. change (In y ((d :: gd) ++ g3)). apply in_or_app. auto. }
      split; [rewrite A2; auto|]. apply in_or_app. auto.
    + intros y Hy. destruct (Dead y Hy) as [X Y]. split; [|lia]. now apply Lt2.
Qed.
End Step.
