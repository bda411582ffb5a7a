(** Statements and programs. *)
From Coq Require Import Permutation.
From Verif Require Import Base JsonModel JsonSpec JsonProofs JsonRoundProofs JsonHeapModel JsonHeapSpec JsonHeapProofs JsonHeapOpsProofs JsonHeapNavProofs JsonHeapWalkProofs JsonHeapEnvProofs JsonHeapStepProofs.
Local Open Scope nat_scope.

Section Run.
Context {F : Type} (fzero : F) (D : doubles F).
Notation heap := (heap F).
Notation env := (@env F).
Notation E := (@E F).

(** an assignment to one location *)
Lemma E_modify (h h1 : heap) vars r L l b (f : heap -> outcome heap) w :
  E h vars r L -> at_ h vars l b ->
  (forall v g R, holds h b v g -> v = eget r l -> own h (b :: g ++ R) ->
     exists h' g', f h = Ok h' /\ holds h' b w g' /\ own h' (b :: g' ++ R) /\ agree R h h') ->
  exists h', f h = Ok h' /\ E h' vars (eput r l w) L /\ agree L h h'.
Proof.
  intros He T H. destruct (env_focus h vars r L l b He T) as (g & x & Hd & O & Re).
  destruct (H _ g (x ++ L) Hd eq_refl O) as (h' & g' & Ef & Hd' & O' & A'). exists h'. split; [exact Ef|]. split.
  - eapply Re; eauto. eapply agree_incl; eauto. intros y. rewrite in_app_iff. auto.
  - eapply agree_incl; eauto. intros y. rewrite in_app_iff. auto.
Qed.

Definition agrees (o : outcome (env * result F * bool)) (s : outcome (state F * result F)) (L : list addr) : Prop :=
  match o with
  | Ok (r, x, b) => exists h vars L', s = Ok ((h, vars), x) /\ E h vars r L' /\ if b then L' <> [] else L' = L
  | Err => s = Err | UB => s = UB | Fuel => s = Fuel
  end.

Lemma locate_cases h vars r L l : E h vars r L ->
  (valid r l = true /\ exists h' b, locate fzero h vars l = Ok (h', b) /\ E h' vars (etouch r l) L /\ agree L h h' /\ at_ h' vars l b)
  \/ (valid r l = false /\ locate fzero h vars l = UB).
Proof.
  intros He. destruct (valid r l) eqn:V; [left|right]; split; auto; [now apply locate_ok|]. eapply locate_bad; eauto.
Qed.

Lemma sim_build h vars r L k : E h vars r L -> agrees (meaning fzero D r (OBuild k)) (step fzero D (h, vars) (OBuild k)) L.
Proof.
  intros He. destruct He as (fp & R & O). pose proof (alloc_own h _ (CNode NNull) O) as O1. pose proof (alloc_agree h _ (Some (CNode NNull)) O) as A1.
  assert (Hd : holds (h ++ [Some (CNode NNull)]) (length h) JNull []) by (exists NNull; split; [apply look_app_new|constructor]).
  destruct (setType_ok fzero _ (length h) JNull [] (fp ++ L) k Hd O1) as (h1 & f1 & E1 & O2 & A2 & C).
  assert (Hd1 : holds h1 (length h) (initial fzero k) f1).
  { destruct C as [(<- & -> & ->)|(_ & Hd1 & _)]; auto. }
  simpl. rewrite E1. cbn [bind]. exists h1, (vars ++ [length h]), L. split; [reflexivity|]. split; [|reflexivity].
  eapply E_new; [|exact Hd1]. exists fp. split.
  - eapply reps_frame; eauto. intros x Hx. rewrite A2 by (apply in_or_app; auto). apply A1. apply in_or_app. auto.
  - eapply own_perm; [exact O2|]. pcount.
Qed.
Lemma sim_copynew h vars r L l : E h vars r L -> agrees (meaning fzero D r (OCopyNew l)) (step fzero D (h, vars) (OCopyNew l)) L.
Proof.
  intros He. simpl. destruct (locate_cases h vars r L l He) as [(V & h1 & b & E1 & He1 & A1 & T1)|(V & E1)]; rewrite V, E1; [cbn [bind]|reflexivity].
  destruct (env_focus h1 vars _ L l b He1 T1) as (g & x & Hd & O & _). rewrite eget_touch in Hd by (now apply valid_lt).
  destruct He1 as (fp & R & O1). destruct (new_copy_ok h1 b (eget r l) g (fp ++ L) Hd) as (h2 & t & gt & E2 & Ht & O2 & A2); auto.
  { intros y Hy. apply O1, O. change (In y ((b :: g) ++ x ++ L)). apply in_or_app. auto. }
  { eapply own_nodup; eauto. }
  rewrite E2. cbn [bind agrees]. exists h2, (vars ++ [t]), L. split; [reflexivity|]. split; [|reflexivity].
  eapply E_new; [|exact Ht]. exists fp. split.
  - eapply reps_frame; eauto. eapply agree_incl; eauto. intros y. rewrite in_app_iff. auto.
  - eapply own_perm; [exact O2|]. pcount.
Qed.
Lemma sim_movenew h vars r L l : E h vars r L -> agrees (meaning fzero D r (OMoveNew l)) (step fzero D (h, vars) (OMoveNew l)) L.
Proof.
  intros He. simpl. destruct (locate_cases h vars r L l He) as [(V & h1 & b & E1 & He1 & A1 & T1)|(V & E1)]; rewrite V, E1; [cbn [bind]|reflexivity].
  destruct (env_focus h1 vars _ L l b He1 T1) as (g & x & Hd & O & Re). rewrite eget_touch in Hd by (now apply valid_lt).
  destruct Hd as (n & Ln & Rn). unfold new_move, rd_node. rewrite Ln. cbn [bind alloc]. cbv beta iota zeta.
  pose proof (alloc_own h1 _ (CNode n) O) as O2. pose proof (alloc_agree h1 _ (Some (CNode n)) O) as A2.
  destruct (wr_ok (h1 ++ [Some (CNode n)]) b (length h1 :: g ++ x ++ L) (CNode NNull)) as (h2 & E2 & O3 & A3 & L3 & _).
  { eapply own_perm; [exact O2|]. constructor. }
  rewrite E2. cbn [bind agrees]. exists h2, (vars ++ [length h1]), L. split; [reflexivity|]. split; [|reflexivity].
  assert (Ag : agree (g ++ x ++ L) h1 h2).
  { intros y Hy. rewrite A3 by (now right). apply A2. now right. }
  apply E_new with (g := g).
  - rewrite <- (eput_touch r l) by (now apply valid_lt). apply (Re h2 JNull []).
    + eapply agree_incl; eauto. intros y. rewrite !in_app_iff. auto.
    + exists NNull. split; [exact L3|constructor].
    + eapply own_perm; [exact O3|]. pcount.
  - exists n. split; [rewrite A3 by (now left); apply look_app_new|]. eapply nrep_frame; eauto.
    eapply agree_incl; eauto. intros y. rewrite in_app_iff. auto.
Qed.
Lemma sim_assign h vars r L l s : E h vars r L -> agrees (meaning fzero D r (OAssign l s)) (step fzero D (h, vars) (OAssign l s)) L.
Proof.
  intros He. simpl. destruct (locate_cases h vars r L l He) as [(V & h1 & b & E1 & He1 & A1 & T1)|(V & E1)]; rewrite V, E1; [cbn [bind]|reflexivity].
  destruct (E_modify h1 h1 vars _ L l b (fun h => assign fzero h b s) (scalar s) He1 T1) as (h2 & E2 & He2 & _).
  { intros v g R Hd _ O. eapply assign_ok; eauto. }
  rewrite E2. cbn [bind agrees]. rewrite eput_touch in He2 by (now apply valid_lt). exists h2, vars, L. auto.
Qed.
Lemma sim_nullptr h vars r L l : E h vars r L -> agrees (meaning fzero D r (ONullptr l)) (step fzero D (h, vars) (ONullptr l)) L.
Proof.
  intros He. simpl. destruct (locate_cases h vars r L l He) as [(V & h1 & b & E1 & He1 & A1 & T1)|(V & E1)]; rewrite E1; reflexivity.
Qed.
Lemma sim_appendscal h vars r L l s : E h vars r L -> agrees (meaning fzero D r (OAppendScal l s)) (step fzero D (h, vars) (OAppendScal l s)) L.
Proof.
  intros He. simpl. destruct (locate_cases h vars r L l He) as [(V & h1 & b & E1 & He1 & A1 & T1)|(V & E1)]; rewrite V, E1; [cbn [bind]|reflexivity].
  rewrite <- (eget_touch r l) by (now apply valid_lt). destruct (env_focus h1 vars _ L l b He1 T1) as (g & x & Hd & O & Re).
  pose proof (append_scal_ok fzero h1 b _ g (x ++ L) s Hd O) as X.
  unfold appended in *. destruct (_ <? _)%Z; cbn [bind agrees] in *.
  - destruct X as (h2 & g2 & E2 & Hd2 & O2 & A2). rewrite E2. exists h2, vars, L. split; [reflexivity|]. split; [|reflexivity].
    rewrite <- (eput_touch r l) by (now apply valid_lt). eapply Re; eauto. eapply agree_incl; eauto. intros y. rewrite in_app_iff. auto.
  - now rewrite X.
Qed.
Lemma sim_ask h vars r L l q : E h vars r L -> agrees (meaning fzero D r (OAsk l q)) (step fzero D (h, vars) (OAsk l q)) L.
Proof.
  intros He. simpl. destruct (locate_cases h vars r L l He) as [(V & h1 & b & E1 & He1 & A1 & T1)|(V & E1)]; rewrite V, E1; [cbn [bind]|reflexivity].
  destruct (env_focus h1 vars _ L l b He1 T1) as (g & x & Hd & O & Re). rewrite eget_touch in Hd by (now apply valid_lt).
  rewrite (ask_ok fzero D h1 b _ g q Hd); [|eapply holds_len; eauto; eapply own_nodup; eauto]. cbn [bind agrees]. exists h1, vars, L. auto.
Qed.
Lemma holds_obj (h : heap) a vs f : holds h a (JObj vs) f -> exists c m f0, f = c :: f0 /\ look h a = Some (CNode (NObj c)) /\
  look h c = Some (CObj m) /\ map fst m = map fst vs /\ increasing (map fst vs) /\ reps h (map snd m) (map snd vs) f0.
Proof. intros (n & L & R). inversion R; subst. eauto 12. Qed.
Lemma const_key_index (h : heap) a vs f k : holds h a (JObj vs) f -> const_key h a k = index fzero h a (Key k).
Proof.
  intros Hd. apply holds_obj in Hd. destruct Hd as (c & m & f0 & -> & L & _).
  pose proof (setType_noop fzero h a (NObj c) L) as S. simpl in S. simpl. unfold const_key, index_key. rewrite S. reflexivity.
Qed.
Lemma const_key_other (h : heap) a v f k : holds h a v f -> kind_of_value v <> KObject -> const_key h a k = UB.
Proof. intros (n & L & R) K. unfold const_key, rd_node. rewrite L. cbn [bind]. inversion R; subst; try reflexivity. simpl in K. congruence. Qed.
Lemma sim_constkey h vars r L l k q : E h vars r L -> agrees (meaning fzero D r (OConstKey l k q)) (step fzero D (h, vars) (OConstKey l k q)) L.
Proof.
  intros He. simpl. destruct (locate_cases h vars r L l He) as [(V & h1 & b & E1 & He1 & A1 & T1)|(V & E1)]; rewrite V, E1; [cbn [bind]|reflexivity].
  rewrite <- (eget_touch r l) by (now apply valid_lt). destruct (env_focus h1 vars _ L l b He1 T1) as (g & x & Hd & O & Re).
  destruct (eget (etouch r l) l) as [| | | | | |m] eqn:Ev; cbn [agrees];
    try (rewrite (const_key_other h1 b _ g k Hd); [reflexivity|discriminate]).
  rewrite (const_key_index h1 b m g k Hd).
  destruct (index_ok fzero h1 b (JObj m) g (x ++ L) (Key k) Hd O eq_refl) as (h2 & d & g2 & E2 & Hd2 & O2 & A2 & C2 & _).
  rewrite E2. cbn [bind]. destruct (child_focus _ _ _ _ _ _ Hd2 C2) as (c & x1 & x2 & g3 & -> & Hd3 & _).
  rewrite get1_set1 in Hd3.
  rewrite (ask_ok fzero D h2 d _ g3 q Hd3).
  2:{ eapply holds_len; eauto. eapply (own_nodup h2 d). eapply own_perm; [exact O2|]. instantiate (1 := b :: c :: x1 ++ x2 ++ x ++ L). pcount. }
  cbn [bind]. exists h2, vars, L. split; [reflexivity|]. split; [|reflexivity]. rewrite <- (eput_touch r l) by (now apply valid_lt).
  eapply Re; [|exact Hd2|exact O2]. eapply agree_incl; eauto. intros y. rewrite in_app_iff. auto.
Qed.
Lemma reps_nth_none (h : heap) l vs f i : reps h l vs f -> nth_error l i = None -> nth_error vs i = None.
Proof. intros R N. apply nth_error_None. apply nth_error_None in N. rewrite <- (reps_length _ _ _ _ R). exact N. Qed.
Lemma sim_constidx h vars r L l i q : E h vars r L -> agrees (meaning fzero D r (OConstIdx l i q)) (step fzero D (h, vars) (OConstIdx l i q)) L.
Proof.
  intros He. cbn [meaning step]. destruct (locate_cases h vars r L l He) as [(V & h1 & b & E1 & He1 & A1 & T1)|(V & E1)]; rewrite V, E1; [cbn [bind]|reflexivity].
  destruct (env_focus h1 vars _ L l b He1 T1) as (g & x & Hd & O & Re). rewrite eget_touch in Hd by (now apply valid_lt).
  destruct (eget r l) as [| | | | |vs|] eqn:Ev;
    try (destruct Hd as (n & Ln & Rn); unfold const_idx, rd_node; rewrite Ln; cbn [bind]; inversion Rn; subst; reflexivity).
  pose proof (holds_arr _ _ _ _ Hd) as (c & l0 & f0 & -> & Ln & Lc & B & Rl). unfold const_idx, rd_node. rewrite Ln. cbn [bind].
  unfold rd_arr. rewrite Lc. cbn [bind]. pose proof (reps_length _ _ _ _ Rl) as Len.
  cbv zeta.
  pose proof (Z.mod_pos_bound i (2 ^ 32) eq_refl) as Bi. generalize dependent (i mod (2 ^ 32))%Z. clear i. intros i Bi. rewrite Len.
  destruct (i <? Z.of_nat (length vs))%Z eqn:Ei; [|reflexivity]. apply Z.ltb_lt in Ei.
  destruct (nth_error l0 (Z.to_nat i)) as [d|] eqn:Nd; [|apply nth_error_None in Nd; lia].
  unfold aget. rewrite (proj2 (Z.ltb_ge i 0)) by lia. rewrite Nd. cbn [bind].
  destruct (reps_split _ _ _ _ _ _ Rl Nd) as (v' & g' & f1 & f2 & -> & Nv' & Hd' & _).
  rewrite (nth_error_nth _ _ JNull Nv'), (ask_ok fzero D h1 d _ g' q Hd').
  2:{ eapply holds_len; eauto. eapply (own_nodup h1 d). eapply own_perm; [exact O|]. instantiate (1 := b :: c :: f1 ++ f2 ++ x ++ L). pcount. }
  cbn [bind agrees]. exists h1, vars, L. auto.
Qed.
Lemma sim_end h vars r L : E h vars r L -> agrees (meaning fzero D r OEnd) (step fzero D (h, vars) OEnd) L.
Proof.
  intros He. pose proof (E_length _ _ _ _ He) as Len. destruct He as (fp & R & O). simpl.
  destruct (rev vars) as [|a vs] eqn:Ev.
  - assert (vars = []) by (rewrite <- (rev_involutive vars), Ev; reflexivity). subst. destruct r; [reflexivity|discriminate].
  - assert (Hv : vars = rev vs ++ [a]) by (rewrite <- (rev_involutive vars), Ev; reflexivity).
    rewrite Hv in R. destruct (reps_app_inv _ _ _ _ _ R) as (r1 & r2 & f1 & f2 & -> & -> & R1 & R2).
    pose proof (reps_length _ _ _ _ R2) as L2. destruct r2 as [|v [|]]; try discriminate. apply reps_one in R2. destruct R2 as (g & -> & Hd).
    destruct (destroy_ok h a v g (f1 ++ L) Hd) as (h1 & E1 & O1 & A1); [eapply own_perm; [exact O|]; pcount|].
    rewrite E1. cbn [bind]. rewrite rev_app_distr. cbn [rev app agrees]. exists h1, (rev vs), L. split; [reflexivity|]. split; [|reflexivity].
    rewrite rev_involutive. exists f1. split; [|exact O1]. eapply reps_frame; eauto. eapply agree_incl; eauto. intros y. rewrite in_app_iff. auto.
Qed.

(** a change elsewhere keeps a path *)
Lemma walk_keep p : forall q (h h' : heap) a v f b d w k, holds h a v f -> NoDup (a :: f) -> walk h a p b -> walk h a q d ->
  relate p q = Apart -> holds h d w k -> (forall x, In x (a :: f) -> ~ In x (d :: k) -> look h' x = look h x) -> walk h' a p b.
Proof.
  induction p as [|s p IH]; intros [|t q] h h' a v f b d w k Hd N W W' Ea Hk Ag; simpl in Ea; try discriminate.
  destruct W as (a1 & C1 & W1). destruct W' as (a2 & C2 & W2). destruct (sel_eqb s t) eqn:Es.
  - apply sel_eqb_true in Es. subst t. rewrite (child_det _ _ _ _ _ C2 C1) in W2.
    destruct (child_focus _ _ _ _ _ _ Hd C1) as (c & x1 & x2 & g0 & -> & Hd1 & _).
    destruct (walk_focus h q a1 _ g0 d Hd1 W2) as (k' & y & P & Hk' & _). destruct (holds_det _ _ _ _ _ _ Hk Hk') as [_ <-].
    assert (N' : NoDup ((a1 :: g0) ++ a :: c :: x1 ++ x2)) by (eapply Permutation_NoDup; [|exact N]; pcount).
    assert (Out : forall z, In z (a :: c :: x1 ++ x2) -> ~ In z (d :: k)).
    { intros z Hz Hz'. apply (nodup_disj _ _ z N'); auto. eapply Permutation_in; [symmetry; exact P|]. change (In z ((d :: k) ++ y)). apply in_or_app. auto. }
    exists a1. split.
    + eapply (child_frame h h' a v _ s a1 Hd C1).
      * apply Ag; [now left|]. apply Out. now left.
      * intros c' f0 X. injection X as <- _. apply Ag; [right; now left|]. apply Out. right. now left.
    + eapply (IH q h h' a1 _ g0 b d w k); eauto; [now apply nodup_left in N'|].
      intros z Hz Hz'. apply Ag; auto. right. right. apply in_or_app. right. apply in_or_app. auto.
  - assert (Nf : NoDup f) by (now inversion N).
    destruct (children_apart _ _ _ _ _ _ _ _ Hd Nf C1 C2 Es) as (c & g0 & k0 & x & P & H1 & H2).
    destruct (walk_focus h q a2 _ k0 d H2 W2) as (k' & y & P2 & Hk' & _). destruct (holds_det _ _ _ _ _ _ Hk Hk') as [_ <-].
    assert (N' : NoDup ((d :: k) ++ a :: c :: (a1 :: g0) ++ x ++ y)).
    { eapply Permutation_NoDup; [|exact N]. rewrite P. transitivity ((a :: c :: a1 :: g0) ++ (a2 :: k0) ++ x); [pcount|]. rewrite P2. pcount. }
    destruct (child_focus _ _ _ _ _ _ Hd C1) as (c1 & x1 & x2 & g1 & Ef & Hd1 & _). destruct (holds_det _ _ _ _ _ _ H1 Hd1) as [_ <-].
    assert (Out : forall z, In z (a :: c :: (a1 :: g0) ++ x ++ y) -> ~ In z (d :: k)).
    { intros z Hz Hz'. apply (nodup_disj _ _ z N'); auto. }
    exists a1. split.
    + eapply (child_frame h h' a v _ s a1 Hd C1).
      * apply Ag; [now left|]. apply Out. now left.
      * intros c' f0 Ef'. assert (c' = c1) by congruence. subst c'. clear Ef'.
        apply Ag; [right; rewrite Ef; now left|]. intros I.
        destruct (child_focus _ _ _ _ _ _ Hd C2) as (c2 & y1 & y2 & k2 & Ef2 & Hk2 & _). destruct (holds_det _ _ _ _ _ _ H2 Hk2) as [_ <-].
        assert (c2 = c1) by congruence. subst c2. rewrite Ef2 in Nf. apply NoDup_cons_iff in Nf. destruct Nf as [Nf _]. apply Nf.
        apply in_or_app. right. apply in_or_app. left. eapply Permutation_in; [symmetry; exact P2|].
        change (In c1 ((d :: k) ++ y)). apply in_or_app. auto.
    + eapply walk_frame; eauto. intros z Hz. apply Ag.
      * right. eapply Permutation_in; [symmetry; exact P|]. right. apply in_or_app. auto.
      * apply Out. right. right. apply in_or_app. auto.
Qed.
Lemma at_keep (h h' : heap) vars r L l l' a b w k : E h vars r L -> at_ h vars l a -> at_ h vars l' b -> erelate l l' = Apart ->
  holds h b w k -> (forall fp x, reps h vars r fp -> In x fp -> ~ In x (b :: k) -> look h' x = look h x) -> at_ h' vars l a.
Proof.
  intros (fp & R & O) (a1 & N & W) (b1 & N' & W') Ea Hk Ag. assert (Nf : NoDup fp) by (destruct O as [X _]; now apply nodup_left in X).
  specialize (Ag fp). exists a1. split; [exact N|]. unfold erelate in Ea. destruct (fst l =? fst l') eqn:Ei.
  - apply Nat.eqb_eq in Ei. rewrite <- Ei in N'. assert (b1 = a1) by congruence. subst b1.
    destruct (reps_split _ _ _ _ _ _ R N) as (v & g0 & f1 & f2 & -> & Nv & Hd & Re).
    assert (Na : NoDup (a1 :: g0)).
    { assert (X : NoDup ((a1 :: g0) ++ f1 ++ f2)) by (eapply Permutation_NoDup; [|exact Nf]; pcount). now apply nodup_left in X. }
    eapply walk_keep; eauto. intros x Hx Hx'. apply Ag; auto. apply in_or_app. right. apply in_or_app. auto.
  - apply Nat.eqb_neq in Ei. destruct (vars_apart _ _ _ _ _ _ _ _ R Nf N N' Ei) as (g0 & k0 & x & P & Ha & Hb).
    destruct (walk_focus h _ _ _ _ _ Hb W') as (k' & z & P2 & Hk' & _). destruct (holds_det _ _ _ _ _ _ Hk Hk') as [_ <-].
    eapply walk_frame; eauto. intros y Hy. apply Ag; auto.
    + eapply Permutation_in; [symmetry; exact P|]. apply in_or_app. auto.
    + intros Hy'. assert (N2 : NoDup ((a1 :: g0) ++ (b1 :: k0) ++ x)) by (eapply Permutation_NoDup; [exact P|exact Nf]).
      apply (nodup_disj _ _ y N2 Hy). apply in_or_app. left. eapply Permutation_in; [symmetry; exact P2|].
      change (In y ((b :: k) ++ z)). apply in_or_app. auto.
Qed.

Lemma touch2_length left (r : env) l l' : length (touch2 left r l l') = length r.
Proof. unfold touch2, etouch. destruct left; now rewrite !eput_length. Qed.
Lemma clear_scalar (h : heap) a v f : holds h a v f -> owning v = false -> f = [] /\ clearData h a = Ok h.
Proof.
  intros (n & L & R) Ow. unfold clearData, rd_node. rewrite L. cbn [bind]. inversion R; subst; try discriminate; auto.
Qed.
Lemma rd_dead (h : heap) a : look h a = None -> rd_node h a = UB.
Proof. unfold rd_node. now intros ->. Qed.
Lemma copy_dead (h : heap) (a : addr) src : look h src = None -> copyData h src = UB.
Proof. intros L. unfold copyData. simpl. unfold rd_node. rewrite L. reflexivity. Qed.

Lemma sim_copy h vars r L o l l' : E h vars r L -> agrees (meaning fzero D r (OCopy o l l')) (step fzero D (h, vars) (OCopy o l l')) L.
Proof.
  intros He. cbn [meaning step]. destruct (valid r l && valid r l') eqn:V.
  2:{ rewrite (locate2_bad fzero (is_left o) h vars r L l l' He V). reflexivity. }
  apply andb_true_iff in V. destruct V as [V V']. cbv zeta.
  set (r2 := touch2 (is_left o) r l l'). destruct (erelate l l') eqn:Er.
  - destruct (locate2_ok fzero (is_left o) h vars r L l l' He V V') as (h1 & a & b & E1 & He1 & A1 & Ta & Tb); [congruence|].
    rewrite E1. cbn [bind]. destruct (at_same _ _ _ _ _ _ Ta Tb Er) as [-> ->].
    destruct (env_focus h1 vars _ L l' b He1 Ta) as (g & x & Hd & O & Re). fold r2 in Hd, Re.
    destruct (owning (eget r2 l')) eqn:Ow; cbn [agrees].
    + destruct (clearData_ok h1 b _ g (x ++ L) Hd O) as (h2 & E2 & O2 & A2 & Dd). unfold copy_assign. rewrite E2. cbn [bind].
      pose proof (clearData_later _ _ _ E2) as [Lt _].
      unfold copyData. rewrite (copy_torn h1 b _ g Hd Ow [] (S (length h2)) h2 b (eget r2 l') g (b :: x ++ L)); auto.
      * reflexivity.
      * pose proof (holds_len _ _ _ _ Hd (own_nodup _ _ _ _ O)). lia.
      * destruct O as [N _]. change (b :: g ++ x ++ L) with ((b :: g) ++ x ++ L) in N. now apply nodup_left in N.
      * intros z [<-|Hz] Hz'; [split; [apply A2|]; now left|contradiction].
      * intros z Hz. split; auto. eapply Nat.lt_le_trans; [|exact Lt]. eapply own_lt; [exact O|]. right. apply in_or_app. auto.
    + destruct (clear_scalar _ _ _ _ Hd Ow) as [-> _].
      destruct (copy_assign_ok h1 b _ [] (x ++ L) b _ [] Hd O Hd) as (h2 & g2 & E2 & Hd2 & O2 & A2); [intros y [<-|[]]; now left|constructor|].
      rewrite E2. cbn [bind]. exists h2, vars, L. split; [reflexivity|]. split; [|reflexivity].
      eapply Re; eauto. eapply agree_incl; eauto. intros y. rewrite in_app_iff. auto.
  - destruct (locate2_ok fzero (is_left o) h vars r L l l' He V V') as (h1 & a & b & E1 & He1 & A1 & Ta & Tb); [congruence|].
    rewrite E1. cbn [bind]. destruct (at_above _ _ _ _ _ _ Ta Tb Er) as (s & q & _ & W).
    destruct (env_focus h1 vars _ L l a He1 Ta) as (g & x & Hd & O & Re).
    destruct (clearData_ok h1 a _ g (x ++ L) Hd O) as (h2 & E2 & O2 & A2 & Dd). unfold copy_assign. rewrite E2. cbn [bind agrees].
    destruct (walk_in h1 (s :: q) a _ g b Hd W) as [I _]; [discriminate| |].
    { destruct O as [N _]. change (a :: g ++ x ++ L) with ((a :: g) ++ x ++ L) in N. now apply nodup_left in N. }
    rewrite (copy_dead h2 a b); auto.
  - destruct (locate2_ok fzero (is_left o) h vars r L l l' He V V') as (h1 & a & b & E1 & He1 & A1 & Ta & Tb); [congruence|].
    rewrite E1. cbn [bind]. destruct (at_below _ _ _ _ _ _ Ta Tb Er) as (s & q & _ & W).
    destruct (env_focus h1 vars _ L l a He1 Ta) as (g & x & Hd & O & Re). fold r2 in Hd, Re.
    destruct (env_focus h1 vars _ L l' b He1 Tb) as (k & y & Hb & Ob & _). fold r2 in Hb.
    destruct (owning (eget r2 l)) eqn:Ow; cbn [agrees].
    + destruct (clearData_ok h1 a _ g (x ++ L) Hd O) as (h2 & E2 & O2 & A2 & Dd). unfold copy_assign. rewrite E2. cbn [bind].
      unfold copyData. rewrite (copy_torn h1 a _ g Hd Ow (s :: q) (S (length h2)) h2 b (eget r2 l') k (a :: x ++ L)); auto.
      * pose proof (clearData_later _ _ _ E2) as [Lt _]. pose proof (holds_len _ _ _ _ Hb (own_nodup _ _ _ _ Ob)). lia.
      * destruct Ob as [N _]. change (b :: k ++ y ++ L) with ((b :: k) ++ y ++ L) in N. now apply nodup_left in N.
      * intros z Hz Hz'. assert (I : In z (a :: x ++ L)).
        { assert (X : In z (a :: g ++ x ++ L)). { apply O, Ob. change (In z ((b :: k) ++ y ++ L)). apply in_or_app. auto. }
          destruct X as [<-|X]; [now left|]. apply in_app_iff in X. right. tauto. }
        split; [apply A2|]; exact I.
      * intros z Hz. split; auto. pose proof (clearData_later _ _ _ E2) as [Lt _]. eapply Nat.lt_le_trans; [|exact Lt].
        eapply own_lt; [exact O|]. right. apply in_or_app. auto.
    + destruct (clear_scalar _ _ _ _ Hd Ow) as [-> _].
      destruct (copy_assign_ok h1 a _ [] (x ++ L) b _ k Hd O Hb) as (h2 & g2 & E2 & Hd2 & O2 & A2).
      { intros z Hz. apply O, Ob. change (In z ((b :: k) ++ y ++ L)). apply in_or_app. auto. }
      { eapply own_nodup; eauto. }
      rewrite E2. cbn [bind]. exists h2, vars, L. split; [reflexivity|]. split; [|reflexivity].
      eapply Re; eauto. eapply agree_incl; eauto. intros z. rewrite in_app_iff. auto.
  - destruct (locate2_ok fzero (is_left o) h vars r L l l' He V V') as (h1 & a & b & E1 & He1 & A1 & Ta & Tb); [congruence|].
    rewrite E1. cbn [bind agrees]. destruct (env_apart h1 vars _ L l l' a b He1 Ta Tb Er) as (g & k & y & Ha & Hb & Oab).
    destruct (env_focus h1 vars _ L l a He1 Ta) as (g' & x & Hd & O & Re). destruct (holds_det _ _ _ _ _ _ Ha Hd) as [_ <-]. fold r2 in Ha, Hb, Hd, Re.
    assert (Nk : NoDup k).
    { destruct Oab as [N _]. apply nodup_right in N. apply nodup_left in N. now inversion N. }
    destruct (copy_assign_ok h1 a _ g (x ++ L) b _ k Hd O Hb) as (h2 & g2 & E2 & Hd2 & O2 & A2); auto.
    { intros z Hz. right. assert (X : In z (a :: g ++ x ++ L)).
      { apply O, Oab. apply in_or_app. right. apply in_or_app. auto. }
      change (In z ((a :: g) ++ x ++ L)) in X. apply in_app_iff in X. destruct X as [X|X]; [|exact X]. exfalso.
      destruct Oab as [N _]. apply (nodup_disj _ _ z N X). apply in_or_app. auto. }
    rewrite E2. cbn [bind]. exists h2, vars, L. split; [reflexivity|]. split; [|reflexivity].
    eapply Re; eauto. eapply agree_incl; eauto. intros z. rewrite in_app_iff. auto.
  - destruct (locate2_clash fzero (is_left o) h vars r L l l' He V V' Er) as (h1 & a & b & E1 & He1 & Cl).
    rewrite E1. cbn [bind agrees]. destruct (is_left o).
    + unfold copy_assign, clearData. rewrite rd_dead by apply Cl. reflexivity.
    + destruct Cl as [Cl Ta]. destruct (env_focus h1 vars _ L l a He1 Ta) as (g & x & Hd & O & Re).
      destruct (clearData_ok h1 a _ g (x ++ L) Hd O) as (h2 & E2 & O2 & A2 & Dd). unfold copy_assign. rewrite E2. cbn [bind].
      rewrite (copy_dead h2 a b); auto. apply (own_dead h2 (a :: x ++ L)); auto. intros I.
      assert (X : look h1 b <> None) by (apply O; destruct I as [<-|I]; [now left|right; apply in_or_app; auto]). congruence.
Qed.

Lemma sim_move h vars r L o l l' : E h vars r L -> agrees (meaning fzero D r (OMove o l l')) (step fzero D (h, vars) (OMove o l l')) L.
Proof.
  intros He. cbn [meaning step]. destruct (valid r l && valid r l') eqn:V.
  2:{ rewrite (locate2_bad fzero (is_left o) h vars r L l l' He V). reflexivity. }
  apply andb_true_iff in V. destruct V as [V V']. cbv zeta.
  set (r2 := touch2 (is_left o) r l l'). destruct (erelate l l') eqn:Er.
  - destruct (locate2_ok fzero (is_left o) h vars r L l l' He V V') as (h1 & a & b & E1 & He1 & A1 & Ta & Tb); [congruence|].
    rewrite E1. cbn [bind agrees]. destruct (at_same _ _ _ _ _ _ Ta Tb Er) as [-> ->].
    destruct (env_focus h1 vars _ L l' b He1 Ta) as (g & x & Hd & O & Re). fold r2 in Hd, Re.
    destruct (clearData_ok h1 b _ g (x ++ L) Hd O) as (h2 & E2 & O2 & A2 & Dd). unfold move_assign. rewrite E2. cbn [bind].
    destruct Hd as (n & Ln & Rn). unfold rd_node. rewrite (A2 b) by (now left). rewrite Ln. cbn [bind].
    destruct (wr_ok h2 b (x ++ L) (CNode n) O2) as (h3 & E3 & O3 & A3 & L3 & _). rewrite E3. cbn [bind].
    destruct (wr_ok h3 b (x ++ L) (CNode NNull) O3) as (h4 & E4 & O4 & A4 & L4 & _). rewrite E4. cbn [bind].
    exists h4, vars, L. split; [reflexivity|]. split; [|reflexivity]. apply (Re h4 JNull []).
    + intros y Hy. assert (Hy' : In y (x ++ L)) by (apply in_or_app; auto). rewrite A4, A3, A2; auto. now right.
    + exists NNull. split; [exact L4|constructor].
    + exact O4.
  - destruct (locate2_ok fzero (is_left o) h vars r L l l' He V V') as (h1 & a & b & E1 & He1 & A1 & Ta & Tb); [congruence|].
    rewrite E1. cbn [bind]. destruct (at_above _ _ _ _ _ _ Ta Tb Er) as (s & q & _ & W).
    destruct (env_focus h1 vars _ L l a He1 Ta) as (g & x & Hd & O & Re).
    destruct (clearData_ok h1 a _ g (x ++ L) Hd O) as (h2 & E2 & O2 & A2 & Dd). unfold move_assign. rewrite E2. cbn [bind agrees].
    destruct (walk_in h1 (s :: q) a _ g b Hd W) as [I _]; [discriminate| |].
    { destruct O as [N _]. change (a :: g ++ x ++ L) with ((a :: g) ++ x ++ L) in N. now apply nodup_left in N. }
    rewrite rd_dead; auto.
  - destruct (locate2_ok fzero (is_left o) h vars r L l l' He V V') as (h1 & a & b & E1 & He1 & A1 & Ta & Tb); [congruence|].
    rewrite E1. cbn [bind agrees]. destruct (at_below _ _ _ _ _ _ Ta Tb Er) as (s & q & _ & W).
    destruct (env_focus h1 vars _ L l' b He1 Tb) as (k & y & Hb & Ob & Re). fold r2 in Hb, Re.
    destruct (walk_focus h1 (s :: q) b _ k a Hb W) as (g & z & P & Ha & Iz & _). specialize (Iz ltac:(discriminate)).
    apply in_split in Iz. destruct Iz as (z1 & z2 & ->).
    assert (O : own h1 (a :: g ++ b :: z1 ++ z2 ++ y ++ L)).
    { eapply own_perm; [exact Ob|]. transitivity ((b :: k) ++ y ++ L); [reflexivity|]. rewrite P. pcount. }
    destruct (clearData_ok h1 a _ g _ Ha O) as (h2 & E2 & O2 & A2 & Dd). unfold move_assign. rewrite E2. cbn [bind].
    destruct Hb as (n & Ln & Rn). unfold rd_node. rewrite (A2 b) by (right; now left). rewrite Ln. cbn [bind].
    destruct (wr_ok h2 a _ (CNode n) O2) as (h3 & E3 & O3 & A3 & L3 & _). rewrite E3. cbn [bind].
    destruct (wr_ok h3 b (a :: z1 ++ z2 ++ y ++ L) (CNode NNull)) as (h4 & E4 & O4 & A4 & L4 & _).
    { eapply own_perm; [exact O3|]. constructor. }
    rewrite E4. cbn [bind]. exists h4, vars, (a :: z1 ++ z2 ++ L). split; [reflexivity|]. split; [|discriminate].
    apply (Re h4 JNull []).
    + intros x Hx. assert (Hx' : In x (z1 ++ z2 ++ y ++ L)) by (rewrite !in_app_iff; auto).
      rewrite A4 by (now right). rewrite A3 by (now right). apply A2. right. now right.
    + exists NNull. split; [exact L4|constructor].
    + eapply own_perm; [exact O4|]. pcount.
  - destruct (locate2_ok fzero (is_left o) h vars r L l l' He V V') as (h1 & a & b & E1 & He1 & A1 & Ta & Tb); [congruence|].
    rewrite E1. cbn [bind agrees]. fold r2 in He1. destruct (env_apart h1 vars _ L l l' a b He1 Ta Tb Er) as (g & k & y & Ha & Hb & Oab).
    assert (Oa : own h1 (a :: g ++ (b :: k) ++ y ++ L)) by exact Oab.
    destruct (clearData_ok h1 a _ g _ Ha Oa) as (h2 & E2 & O2 & A2 & Dd). unfold move_assign. rewrite E2. cbn [bind].
    pose proof Hb as (n & Ln & Rn). unfold rd_node. rewrite (A2 b) by (right; now left). rewrite Ln. cbn [bind].
    destruct (wr_ok h2 a _ (CNode n) O2) as (h3 & E3 & O3 & A3 & L3 & _). rewrite E3. cbn [bind].
    destruct (wr_ok h3 b (a :: k ++ y ++ L) (CNode NNull)) as (h4 & E4 & O4 & A4 & L4 & _).
    { eapply own_perm; [exact O3|]. constructor. }
    rewrite E4. cbn [bind]. exists h4, vars, L. split; [reflexivity|]. split; [|reflexivity].
    (* the same in another order: first the source, whose content is set aside *)
    destruct (env_focus h1 vars _ L l' b He1 Tb) as (k' & x' & Hb' & Ob & Re'). destruct (holds_det _ _ _ _ _ _ Hb Hb') as [_ <-].
    destruct (wr_ok h1 b (k ++ x' ++ L) (CNode NNull) Ob) as (hv & Ev & Ov & Av & Lv & _).
    assert (Hev : E hv vars (eput r2 l' JNull) (k ++ L)).
    { apply (Re' hv JNull []).
      - eapply agree_incl; [exact Av|]. intros w. rewrite !in_app_iff. auto.
      - exists NNull. split; [exact Lv|constructor].
      - eapply own_perm; [exact Ov|]. pcount. }
    assert (Av' : forall w, w <> b -> look hv w = look h1 w).
    { intros w Hw. destruct (in_dec Nat.eq_dec w (k ++ x' ++ L)) as [I|I]; [now apply Av|].
      rewrite (own_dead hv (b :: k ++ x' ++ L)), (own_dead h1 (b :: k ++ x' ++ L)); auto; intros [X|X]; [congruence|contradiction|congruence|contradiction]. }
    assert (Tv : at_ hv vars l a).
    { eapply (at_keep h1 hv vars r2 L l l' a b _ k); eauto. intros fp w _ _ Hw. apply Av'. intros ->. apply Hw. now left. }
    assert (Nab : NoDup ((a :: g) ++ (b :: k) ++ y ++ L)) by apply Oab.
    assert (Hav : holds hv a (eget r2 l) g).
    { eapply holds_frame; [exact Ha|]. intros w Hw. apply Av'. intros ->. apply (nodup_disj _ _ b Nab Hw). now left. }
    destruct (env_focus hv vars _ _ l a Hev Tv) as (g' & x & Hav' & Oav & Rea). destruct (holds_det _ _ _ _ _ _ Hav Hav') as [_ <-].
    assert (Oy : own hv ((a :: g) ++ (b :: k) ++ y ++ L)).
    { split; [exact Nab|]. intros w. destruct (Nat.eq_dec w b) as [->|Nw].
      - rewrite Lv. split; [intros _; apply in_or_app; right; now left|discriminate].
      - rewrite Av' by assumption. apply Oab. }
    assert (Px : Permutation x (b :: y)).
    { apply NoDup_Permutation.
      - destruct Oav as [N _]. inversion N; subst. apply nodup_right in H2. now apply nodup_left in H2.
      - apply nodup_right in Nab. assert (N2 : NoDup ((b :: y) ++ k ++ L)) by (eapply Permutation_NoDup; [|exact Nab]; pcount). now apply nodup_left in N2.
      - assert (Q : Permutation ((a :: g) ++ (k ++ L) ++ x) ((a :: g) ++ (k ++ L) ++ b :: y)).
        { apply NoDup_Permutation.
          - eapply Permutation_NoDup; [|exact (proj1 Oav)]. pcount.
          - eapply Permutation_NoDup; [|exact (proj1 Oy)]. pcount.
          - intros w. transitivity (look hv w <> None).
            + rewrite (proj2 Oav w). split; intros X; (eapply Permutation_in; [|exact X]); pcount.
            + rewrite (proj2 Oy w). split; intros X; (eapply Permutation_in; [|exact X]); pcount. }
        apply Permutation_app_inv_l in Q. apply Permutation_app_inv_l in Q. intros w. split; intros X; (eapply Permutation_in; [|exact X]); auto. now symmetry. }
    assert (A4' : agree (k ++ y ++ L) h1 h4).
    { intros w Hw. rewrite A4 by (now right). rewrite A3 by (now right). apply A2. right. now right. }
    apply (Rea h4 (eget r2 l') k L).
    + intros w Hw. assert (Hw' : In w (b :: y)) by (eapply Permutation_in; [exact Px|exact Hw]). destruct Hw' as [<-|Hw'].
      * congruence.
      * rewrite A4' by (rewrite !in_app_iff; auto). symmetry. apply Av'. intros ->.
        apply nodup_right in Nab. apply NoDup_cons_iff in Nab. destruct Nab as [Nb _]. apply Nb. rewrite !in_app_iff. auto.
    + exists n. split; [rewrite A4 by (now left); exact L3|]. eapply nrep_frame; [exact Rn|]. eapply agree_incl; [exact A4'|].
      intros w. rewrite in_app_iff. auto.
    + eapply own_perm; [exact O4|]. rewrite Px. pcount.
  - destruct (locate2_clash fzero (is_left o) h vars r L l l' He V V' Er) as (h1 & a & b & E1 & He1 & Cl).
    rewrite E1. cbn [bind agrees]. destruct (is_left o).
    + unfold move_assign, clearData. rewrite rd_dead by apply Cl. reflexivity.
    + destruct Cl as [Cl Ta]. destruct (env_focus h1 vars _ L l a He1 Ta) as (g & x & Hd & O & Re).
      destruct (clearData_ok h1 a _ g (x ++ L) Hd O) as (h2 & E2 & O2 & A2 & Dd). unfold move_assign. rewrite E2. cbn [bind].
      rewrite rd_dead; auto. apply (own_dead h2 (a :: x ++ L)); auto. intros I.
      assert (X : look h1 b <> None) by (apply O; destruct I as [<-|I]; [now left|right; apply in_or_app; auto]). congruence.
Qed.

(** append of a copy held in a temporary *)
Lemma append_temp h vars r L l a t w gt : E h vars r (t :: gt ++ L) -> holds h t w gt -> at_ h vars l a ->
  match appended (eget r l) w with
  | Ok x => exists h', append_obj fzero h a t = Ok h' /\ E h' vars (eput r l x) L
  | _ => append_obj fzero h a t = Fuel
  end.
Proof.
  intros He Ht Ta. destruct (env_focus h vars _ _ l a He Ta) as (g & x & Hd & O & Re).
  pose proof (append_obj_ok fzero h a _ g (x ++ L) t w gt Hd Ht) as X.
  unfold appended in *. destruct (_ <? _)%Z.
  - destruct X as (h' & f' & E1 & Hd' & O' & A'); [eapply own_perm; [exact O|]; pcount|].
    exists h'. split; [exact E1|]. eapply Re; eauto. eapply agree_incl; eauto. intros y. rewrite in_app_iff. auto.
  - apply X. eapply own_perm; [exact O|]. pcount.
Qed.
Lemma new_temp h vars r L l b : E h vars r L -> at_ h vars l b ->
  exists h' t gt, new_copy h b = Ok (h', t) /\ E h' vars r (t :: gt ++ L) /\ holds h' t (eget r l) gt /\
    (forall l a, at_ h vars l a -> at_ h' vars l a).
Proof.
  intros He Tb. destruct (env_focus h vars _ L l b He Tb) as (g & x & Hd & O & _). destruct He as (fp & R & O1).
  destruct (new_copy_ok h b (eget r l) g (fp ++ L) Hd) as (h2 & t & gt & E2 & Ht & O2 & A2); auto.
  { intros y Hy. apply O1, O. change (In y ((b :: g) ++ x ++ L)). apply in_or_app. auto. }
  { eapply own_nodup; eauto. }
  assert (A3 : agree fp h h2) by (eapply agree_incl; eauto; intros y; rewrite in_app_iff; auto).
  exists h2, t, gt. split; [exact E2|]. split; [|split; [exact Ht|]].
  - exists fp. split; [eapply reps_frame; eauto|]. eapply own_perm; [exact O2|]. pcount.
  - intros l0 a (a1 & N & W). exists a1. split; [exact N|]. destruct (reps_split _ _ _ _ _ _ R N) as (v & g0 & f1 & f2 & -> & Nv & Hd0 & _).
    eapply walk_frame; eauto. eapply agree_incl; [exact A3|]. intros y Hy. apply in_or_app. right. apply in_or_app. auto.
Qed.
Lemma sim_append2 (left : bool) h vars r L l l' : E h vars r L ->
  agrees (if valid r l && valid r l' then
            match erelate l l' with
            | Clash => UB
            | _ => let r := touch2 left r l l' in x <- appended (eget r l) (eget r l') ;; Ok (eput r l x, RNone, false)
            end
          else UB)
    (' (h, a, b) <- locate2 fzero left h vars l l' ;; ' (h, t) <- new_copy h b ;; h <- append_obj fzero h a t ;; Ok ((h, vars), RNone)) L.
Proof.
  intros He. destruct (valid r l && valid r l') eqn:V.
  2:{ rewrite (locate2_bad fzero left h vars r L l l' He V). reflexivity. }
  apply andb_true_iff in V. destruct V as [V V'].
  assert (Main : erelate l l' <> Clash -> agrees (let r := touch2 left r l l' in x <- appended (eget r l) (eget r l') ;; Ok (eput r l x, RNone, false))
    (' (h, a, b) <- locate2 fzero left h vars l l' ;; ' (h, t) <- new_copy h b ;; h <- append_obj fzero h a t ;; Ok ((h, vars), RNone)) L).
  { intros Nc. destruct (locate2_ok fzero left h vars r L l l' He V V' Nc) as (h1 & a & b & E1 & He1 & A1 & Ta & Tb).
    rewrite E1. cbn [bind]. destruct (new_temp h1 vars _ L l' b He1 Tb) as (h2 & t & gt & E2 & He2 & Ht & K). rewrite E2. cbn [bind].
    pose proof (append_temp h2 vars _ L l a t _ gt He2 Ht (K l a Ta)) as X. cbv zeta. unfold appended in *.
    destruct (_ <? _)%Z; cbn [bind agrees].
    - destruct X as (h3 & E3 & He3). rewrite E3. cbn [bind]. exists h3, vars, L. auto.
    - now rewrite X. }
  destruct (erelate l l') eqn:Er; try (apply Main; discriminate).
  destruct (locate2_clash fzero left h vars r L l l' He V V' Er) as (h1 & a & b & E1 & He1 & Cl). rewrite E1. cbn [bind agrees].
  destruct left.
  - destruct Cl as (Cl & Lt & Tb). destruct (new_temp h1 vars _ L l' b He1 Tb) as (h2 & t & gt & E2 & _). rewrite E2. cbn [bind].
    unfold append_obj, setType. rewrite rd_dead; [reflexivity|].
    unfold new_copy in E2. apply bind_ok in E2. destruct E2 as ([h3 n] & E3 & E2). injection E2 as <- _.
    apply copy_later in E3. destruct E3 as [E3 E4]. rewrite look_app_old by lia. auto.
  - destruct Cl as [Cl _]. unfold new_copy. rewrite (copy_dead h1 b b Cl). reflexivity.
Qed.
Lemma sim_append h vars r L o l l' : E h vars r L -> agrees (meaning fzero D r (OAppend o l l')) (step fzero D (h, vars) (OAppend o l l')) L.
Proof.
  intros He. destruct o; [apply (sim_append2 true h vars r L l l' He)| |apply (sim_append2 false h vars r L l l' He)].
  cbn [meaning step]. destruct (locate_cases h vars r L l' He) as [(V' & h1 & b & E1 & He1 & A1 & Tb)|(V' & E1)]; rewrite V', E1.
  2:{ rewrite andb_false_r. reflexivity. }
  cbn [bind]. rewrite andb_true_r. destruct (new_temp h1 vars _ L l' b He1 Tb) as (h2 & t & gt & E2 & He2 & Ht & _). rewrite E2. cbn [bind].
  destruct (locate_cases h2 vars _ _ l He2) as [(V & h3 & a & E3 & He3 & A3 & Ta)|(V & E3)]; rewrite valid_touch in V; rewrite V, E3; [|reflexivity].
  cbn [bind]. assert (Ht3 : holds h3 t (eget (etouch r l') l') gt).
  { eapply holds_frame; eauto. eapply agree_incl; eauto. intros y [<-|Hy]; [now left|]. right. apply in_or_app. auto. }
  pose proof (append_temp h3 vars _ L l a t _ gt He3 Ht3 Ta) as X. cbv zeta. unfold appended in *.
  destruct (_ <? _)%Z; cbn [bind agrees].
  - destruct X as (h4 & E4 & He4). rewrite E4. cbn [bind]. exists h4, vars, L. auto.
  - now rewrite X.
Qed.

(** initializer lists *)
Lemma temps_ok l : forall h vars r L, E h vars r L ->
  match arg_values r l with
  | Ok (r', vs) => exists h' ts tf, temporaries fzero h vars l = Ok (h', ts) /\ E h' vars r' (tf ++ L) /\ reps h' ts vs tf /\ agree L h h'
  | Err => False | Fuel => False | UB => temporaries fzero h vars l = UB
  end.
Proof.
  induction l as [|x l IH]; intros h vars r L He.
  - simpl. exists h, [], []. repeat split; auto using agree_refl. constructor.
  - assert (Step : forall h1 a v g r1, E h1 vars r1 (a :: g ++ L) -> holds h1 a v g -> agree L h h1 ->
      match (' (r, vs) <- arg_values r1 l ;; Ok (r, v :: vs)) with
      | Ok (r', vs) => exists h' ts tf, (' (h, ts) <- temporaries fzero h1 vars l ;; Ok (h, a :: ts)) = Ok (h', ts) /\ E h' vars r' (tf ++ L) /\ reps h' ts vs tf /\ agree L h h'
      | Err => False | Fuel => False | UB => (' (h, ts) <- temporaries fzero h1 vars l ;; Ok (h, a :: ts)) = UB
      end).
    { intros h1 a v g r1 He1 Hd A1. specialize (IH h1 vars r1 _ He1). destruct (arg_values r1 l) as [[r2 vs]| | |]; cbn [bind]; auto.
      - destruct IH as (h2 & ts & tf & E2 & He2 & R2 & A2). rewrite E2. cbn [bind]. exists h2, (a :: ts), ((a :: g) ++ tf).
        split; [reflexivity|]. split; [|split].
        + eapply E_perm; [exact He2|]. pcount.
        + change (a :: ts) with ([a] ++ ts). change (v :: vs) with ([v] ++ vs). apply reps_app; auto. apply reps_one. exists g. split; [reflexivity|].
          eapply holds_frame; eauto. eapply agree_incl; eauto. intros y [<-|Hy]; [now left|]. right. apply in_or_app. auto.
        + intros y Hy. rewrite A2, A1; auto. right. apply in_or_app. auto.
      - now rewrite IH. }
    simpl temporaries. simpl arg_values. destruct x as [s|x].
    + destruct He as (fp & R & O). destruct (construct_ok h s _ O) as (h1 & n & g & E1 & R1 & O1 & A1). rewrite E1.
      pose proof (alloc_own h1 _ (CNode n) O1) as O2. pose proof (alloc_agree h1 _ (Some (CNode n)) O1) as A2.
      cbn [bind alloc]. apply (Step (h1 ++ [Some (CNode n)]) (length h1) (scalar s) g r).
      * exists fp. split.
        -- eapply reps_frame; eauto. intros y Hy. rewrite A2, A1; auto; rewrite ?in_app_iff; auto.
        -- eapply own_perm; [exact O2|]. pcount.
      * exists n. split; [apply look_app_new|]. eapply nrep_frame; eauto. eapply agree_incl; eauto. intros y. rewrite in_app_iff. auto.
      * intros y Hy. rewrite A2, A1; auto; rewrite ?in_app_iff; auto.
    + destruct (locate_cases h vars r L x He) as [(V & h1 & b & E1 & He1 & A1 & Tb)|(V & E1)]; rewrite V, E1; [|reflexivity].
      cbn [bind]. pose proof He1 as (fp & R1 & O1). destruct (env_focus h1 vars _ L x b He1 Tb) as (g0 & x0 & Hd0 & O0 & _).
      destruct (new_copy_ok h1 b _ g0 (fp ++ L) Hd0) as (h2 & t & gt & E2 & Ht & O2 & A2); auto.
      { intros y Hy. apply O1, O0. change (In y ((b :: g0) ++ x0 ++ L)). apply in_or_app. auto. }
      { eapply own_nodup; eauto. }
      rewrite E2. cbn [bind]. cbv zeta. apply (Step h2 t _ gt (etouch r x)); auto.
      * exists fp. split; [eapply reps_frame; eauto; eapply agree_incl; eauto; intros y; rewrite in_app_iff; auto|]. eapply own_perm; [exact O2|]. pcount.
      * intros y Hy. rewrite A2, A1; auto; rewrite ?in_app_iff; auto.
Qed.
Lemma key_text_ok (h : heap) t v g : holds h t v g -> key_text h t = Ok (toString v).
Proof.
  intros (n & L & R). unfold key_text, rd_node. rewrite L. cbn [bind]. inversion R; subst; try reflexivity. unfold rd_str. rewrite H. reflexivity.
Qed.
Lemma init_ok N : forall ts (h : heap) z m f vs tf R, length ts <= N -> holds h z (JObj m) f -> reps h ts vs tf -> own h (z :: f ++ tf ++ R) ->
  match pairs m vs with
  | Ok m' => exists h' f', init_loop fzero h z ts = Ok h' /\ holds h' z (JObj m') f' /\ own h' (z :: f' ++ tf ++ R) /\ agree (tf ++ R) h h'
  | Err => False | Fuel => False | UB => init_loop fzero h z ts = UB
  end.
Proof.
  induction N as [|N IH]; intros ts h z m f vs tf R Ln Hz Rt O.
  - destruct ts; [|simpl in Ln; lia]. apply reps_nil_inv in Rt. destruct Rt as [-> ->]. exists h, f. auto using agree_refl.
  - destruct ts as [|t [|t' ts]].
    + apply reps_nil_inv in Rt. destruct Rt as [-> ->]. exists h, f. auto using agree_refl.
    + pose proof (reps_length _ _ _ _ Rt) as X. destruct vs as [|v [|]]; try discriminate. reflexivity.
    + apply reps_cons_inv in Rt. destruct Rt as (nk & k & g1 & vs1 & tf1 & -> & -> & Lk & Rk & Rt).
      apply reps_cons_inv in Rt. destruct Rt as (nv & v & g2 & vs2 & tf2 & -> & -> & Lv & Rv & Rt).
      change (pairs m (k :: v :: vs2)) with (pairs (store m (toString k) v) vs2). cbn [init_loop].
      assert (Hk : holds h t k g1) by (now exists nk). assert (Hv : holds h t' v g2) by (now exists nv).
      rewrite (key_text_ok _ _ _ _ Hk). cbn [bind]. change (index_key fzero h z (toString k)) with (index fzero h z (Key (toString k))).
      set (T := (t :: g1) ++ (t' :: g2) ++ tf2) in *.
      assert (ET : t :: g1 ++ t' :: g2 ++ tf2 = T) by reflexivity. rewrite ET in *. clear ET.
      destruct (index_ok fzero h z (JObj m) f (T ++ R) (Key (toString k)) Hz) as (h1 & b & f1 & E1 & Hz1 & O1 & A1 & C1 & _); auto.
      rewrite E1. cbn [bind]. destruct (child_focus _ _ _ _ _ _ Hz1 C1) as (c & x1 & x2 & g3 & -> & Hb & Re).
      assert (Iv : incl (t' :: g2) T) by (intros y Hy; unfold T; rewrite !in_app_iff; auto).
      assert (Hv1 : holds h1 t' v g2) by (eapply holds_frame; eauto; eapply agree_incl; eauto; intros y Hy; apply in_or_app; auto).
      destruct (copy_assign_ok h1 b _ g3 (z :: c :: x1 ++ x2 ++ T ++ R) t' v g2 Hb) as (h2 & g4 & E2 & Hb2 & O2 & A2); auto.
      { eapply own_perm; [exact O1|]. pcount. }
      { intros y Hy. right. right. right. rewrite !in_app_iff. apply Iv in Hy. auto. }
      { apply (own_nodup h t' g2 ((t :: g1) ++ tf2 ++ z :: f ++ R)). eapply own_perm; [exact O|]. unfold T. pcount. }
      rewrite E2. cbn [bind].
      assert (Hz2 : holds h2 z (JObj (store m (toString k) v)) (c :: x1 ++ (b :: g4) ++ x2)).
      { change (JObj (store m (toString k) v)) with (set1 (JObj m) (Key (toString k)) v).
        rewrite <- (set1_set1 (JObj m) (Key (toString k)) (get1 (JObj m) (Key (toString k))) v). apply Re; auto.
        eapply agree_incl; [exact A2|]. intros y. simpl. rewrite !in_app_iff. intuition. }
      assert (A3 : agree (T ++ R) h h2).
      { intros y Hy. rewrite A2, A1; auto. right. right. rewrite !in_app_iff in *. tauto. }
      specialize (IH ts h2 z _ _ vs2 tf2 ((t :: g1) ++ (t' :: g2) ++ R) ltac:(simpl in Ln; lia) Hz2).
      assert (Rt2 : reps h2 ts vs2 tf2).
      { eapply reps_frame; eauto. eapply agree_incl; [exact A3|]. intros y Hy. unfold T. rewrite !in_app_iff. auto. }
      specialize (IH Rt2). destruct (pairs (store m (toString k) v) vs2) as [m'| | |].
      * destruct IH as (h3 & f3 & E3 & Hz3 & O3 & A4); [eapply own_perm; [exact O2|]; unfold T; pcount|].
        exists h3, f3. split; [exact E3|]. split; [exact Hz3|]. split; [eapply own_perm; [exact O3|]; unfold T; pcount|].
        intros y Hy. rewrite A4, A3; auto. unfold T in Hy. rewrite !in_app_iff in *. tauto.
      * apply IH. eapply own_perm; [exact O2|]; unfold T; pcount.
      * apply IH. eapply own_perm; [exact O2|]; unfold T; pcount.
      * apply IH. eapply own_perm; [exact O2|]; unfold T; pcount.
Qed.
Lemma sim_init h vars r L l : E h vars r L -> agrees (meaning fzero D r (OInit l)) (step fzero D (h, vars) (OInit l)) L.
Proof.
  intros He. destruct l as [|x l].
  - pose proof He as (fp & R & O). pose proof (alloc_own h _ (CNode NNull) O) as O1. pose proof (alloc_agree h _ (Some (CNode NNull)) O) as A1.
    exists (h ++ [Some (CNode NNull)]), (vars ++ [length h]), L. split; [reflexivity|]. split; [|reflexivity].
    apply E_new with (g := []); [|exists NNull; split; [apply look_app_new|constructor]]. exists fp. split.
    + eapply reps_frame; eauto. eapply agree_incl; [exact A1|]. intros y Hy. apply in_or_app. auto.
    + eapply own_perm; [exact O1|]. pcount.
  - cbn [meaning step]. pose proof (temps_ok (x :: l) h vars r L He) as X. destruct (arg_values r (x :: l)) as [[r1 vs]| | |]; try contradiction.
    2:{ rewrite X. reflexivity. }
    destruct X as (h1 & ts & tf & E1 & He1 & Rt & _). rewrite E1. cbn [bind]. destruct He1 as (fp & R & O).
    pose proof (alloc_own h1 _ (CNode NNull) O) as O1. pose proof (alloc_agree h1 _ (Some (CNode NNull)) O) as A1. cbn [alloc]. cbv beta iota zeta.
    assert (Hd : holds (h1 ++ [Some (CNode NNull)]) (length h1) JNull []) by (exists NNull; split; [apply look_app_new|constructor]).
    destruct (setType_ok fzero _ (length h1) JNull [] (fp ++ tf ++ L) KObject Hd O1) as (h2 & f2 & E2 & O2 & A2 & C).
    rewrite E2. cbn [bind]. destruct C as [(K & _)|(_ & Hd2 & _)]; [discriminate|]. simpl in Hd2.
    assert (A3 : agree (fp ++ tf ++ L) h1 h2) by (intros y Hy; rewrite A2, A1; auto).
    pose proof (init_ok (length ts) ts h2 (length h1) [] f2 vs tf (fp ++ L) (le_n _) Hd2) as X.
    assert (Rt2 : reps h2 ts vs tf) by (eapply reps_frame; eauto; eapply agree_incl; eauto; intros y; rewrite !in_app_iff; auto).
    specialize (X Rt2). destruct (pairs [] vs) as [m| | |]; cbn [bind agrees].
    + destruct X as (h3 & f3 & E3 & Hd3 & O3 & A4); [eapply own_perm; [exact O2|]; pcount|]. rewrite E3. cbn [bind].
      destruct (destroy_all ts h3 vs tf (length h1 :: f3 ++ fp ++ L)) as (h4 & E4 & O4 & A5).
      { eapply reps_frame; eauto. eapply agree_incl; [exact A4|]. intros y. rewrite !in_app_iff. auto. }
      { eapply own_perm; [exact O3|]. pcount. }
      rewrite E4. cbn [bind]. exists h4, (vars ++ [length h1]), L. split; [reflexivity|]. split; [|reflexivity].
      apply E_new with (g := f3).
      * exists fp. split; [|eapply own_perm; [exact O4|]; pcount]. eapply reps_frame; eauto. intros y Hy.
        rewrite A5, A4, A3; auto; rewrite ?in_app_iff; auto. right. rewrite !in_app_iff. auto.
      * eapply holds_frame; eauto. eapply agree_incl; [exact A5|]. intros y [<-|Hy]; [now left|]. right. rewrite in_app_iff. auto.
    + destruct X. eapply own_perm; [exact O2|]; pcount.
    + rewrite X; [reflexivity|]. eapply own_perm; [exact O2|]; pcount.
    + destruct X. eapply own_perm; [exact O2|]; pcount.
Qed.

(** * Programs *)
Lemma sim h vars r L o : E h vars r L -> agrees (meaning fzero D r o) (step fzero D (h, vars) o) L.
Proof.
  intros He. destruct o; [apply sim_build|apply sim_copynew|apply sim_movenew|apply sim_init|apply sim_assign|apply sim_nullptr|apply sim_copy
    |apply sim_move|apply sim_appendscal|apply sim_append|apply sim_ask|apply sim_constkey|apply sim_constidx|apply sim_end]; exact He.
Qed.
Lemma sim_run os : forall h vars r L, E h vars r L ->
  match means fzero D r os with
  | Ok (r', xs, b) => exists h' vars' L', run fzero D (h, vars) os = Ok ((h', vars'), xs) /\ E h' vars' r' L' /\
      (b = false -> L' = L) /\ (b = true -> L' <> []) /\ (L <> [] -> L' <> [])
  | Err => run fzero D (h, vars) os = Err | UB => run fzero D (h, vars) os = UB | Fuel => run fzero D (h, vars) os = Fuel
  end.
Proof.
  induction os as [|o os IH]; intros h vars r L He.
  - simpl. exists h, vars, L. repeat split; auto. discriminate.
  - cbn [means run]. pose proof (sim h vars r L o He) as X. unfold agrees in X. destruct (meaning fzero D r o) as [[[r1 x] b]| | |]; cbn [bind].
    + destruct X as (h1 & vars1 & L1 & E1 & He1 & Lb). rewrite E1. cbn [bind]. specialize (IH h1 vars1 r1 L1 He1).
      destruct (means fzero D r1 os) as [[[r2 xs] b2]| | |]; cbn [bind]; try (now rewrite IH).
      destruct IH as (h2 & vars2 & L2 & E2 & He2 & B1 & B2 & B3). rewrite E2. cbn [bind]. exists h2, vars2, L2. split; [reflexivity|]. split; [exact He2|].
      destruct b, b2; simpl; repeat split; auto; try discriminate; try congruence; intros; try (apply B3; congruence); try (apply B2; reflexivity).
      rewrite B1; auto.
    + now rewrite X.
    + now rewrite X.
    + now rewrite X.
Qed.
Lemma reps_rev (h : heap) l : forall vs f, reps h l vs f -> exists f', reps h (rev l) (rev vs) f' /\ Permutation f f'.
Proof.
  induction l as [|a l IH]; intros vs f R.
  - apply reps_nil_inv in R. destruct R as [-> ->]. exists []. split; constructor.
  - apply reps_cons_inv in R. destruct R as (n & v & f1 & vs' & f2 & -> & -> & H1 & H2 & H3). destruct (IH _ _ H3) as (f' & R' & P).
    exists (f' ++ (a :: f1)). split; [|rewrite P; pcount]. simpl. apply reps_app; auto. apply reps_one. exists f1. split; auto. now exists n.
Qed.
Lemma finish_ok h vars r L : E h vars r L -> exists h', finish (h, vars) = Ok h' /\ own h' L.
Proof.
  intros (fp & R & O). destruct (reps_rev h vars r fp R) as (f' & R' & P).
  destruct (destroy_all (rev vars) h (rev r) f' L R') as (h' & E1 & O1 & _); [eapply own_perm; [exact O|]; now rewrite P|].
  exists h'. auto.
Qed.
Lemma E_empty : E ([] : heap) [] [] [].
Proof. exists []. split; [constructor|]. split; [constructor|]. intros x. unfold look. destruct x; simpl; intuition. Qed.
End Run.
