(** The trie refines the set: single operations, histories, several tries. *)
From Verif Require Import Base TrieModel TrieSpec TrieProofs TrieOpsProofs TrieMoveProofs.
Local Open Scope Z_scope.

Lemma memb_spec w l : memb w l = true <-> In w l.
Proof. unfold memb. destruct (in_dec word_dec w l); intuition congruence. Qed.
Lemma memb_false w l : memb w l = false <-> ~ In w l.
Proof. unfold memb. destruct (in_dec word_dec w l); intuition congruence. Qed.

Section Adapter.
Context (f : ascii -> outcome Z) (sigma : ascii -> Prop) (AD : adapter f sigma).

Definition a_code (c : ascii) : Z := match f c with Ok k => k | _ => 0 end.
Definition a_alpha (c : ascii) : Prop := sigma c \/ c = endChar.
Lemma a_range c : a_alpha c -> 1 <= a_code c <= 27.
Proof.
  destruct AD as (E & _ & R & _). unfold a_code. intros [H| ->]; [|rewrite E; lia]. destruct (R c H) as (k & -> & K). lia.
Qed.
Lemma a_letter c : sigma c -> 2 <= a_code c.
Proof. destruct AD as (_ & _ & R & _). unfold a_code. intros H. destruct (R c H) as (k & -> & K). lia. Qed.
Lemma a_end : a_code endChar = 1.
Proof. unfold a_code. now rewrite (proj1 AD). Qed.
Lemma a_inj a b : a_alpha a -> a_alpha b -> a_code a = a_code b -> a = b.
Proof.
  intros [A| ->] [B| ->] E; try reflexivity.
  - destruct AD as (_ & _ & R & J). apply J; auto. unfold a_code in E. destruct (R a A) as (k & Ea & _). destruct (R b B) as (k' & Eb & _).
    rewrite Ea, Eb in *. congruence.
  - pose proof (a_letter a A). rewrite a_end in E. lia.
  - pose proof (a_letter b B). rewrite a_end in E. lia.
Qed.
#[local] Instance a_alphabet : Alphabet :=
  {| code := a_code; alpha := a_alpha; alpha_end := or_intror eq_refl; code_end := a_end; code_range := a_range; code_inj := a_inj |}.

Lemma f_ok ch : alpha ch -> f ch = Ok (code ch).
Proof. cbn. unfold a_code. destruct AD as (E & _ & R & _). intros [H| ->]; [|now rewrite E]. destruct (R ch H) as (k & -> & _). reflexivity. Qed.
Lemma sigma_letter w : Forall sigma w -> Forall letter w.
Proof.
  apply Forall_impl. intros c H. split; [now left|]. intros ->. now apply (proj1 (proj2 AD)).
Qed.
Lemma letter_sigma c : letter c -> sigma c.
Proof. intros [[H|H] N]; [assumption|contradiction]. Qed.

Notation HAS t h := (has (Bt t) (Ct t) (Tt t) h).
Record Rep (t : trie) (X : list bytes) : Prop := {
  r_good : Good t (-1);
  r_nodup : NoDup X;
  r_words : Forall (Forall sigma) X;
  r_has : forall s, HAS t (-1) s <-> exists w, In w X /\ s = w ++ [endChar];
  r_size : size t = Z.of_nat (length X) }.

Lemma rep_has t X w : Rep t X -> HAS t (-1) (w ++ [endChar]) <-> In w X.
Proof.
  intros R. rewrite (r_has _ _ R). split; [|eauto]. intros (v & I & E). apply app_inj_tail in E as [-> _]. assumption.
Qed.
Lemma root_ok t X : Rep t X -> path (Bt t) (Ct t) 0 [] /\ 0 <= Bt t 0.
Proof. intros R. split; [constructor|]. apply (i_root _ _ _ _ _ _ (g_inv _ _ (r_good _ _ R))). Qed.

Lemma contain_ok t X w : Rep t X -> Forall sigma w -> contain f t w = Ok (memb w X).
Proof.
  intros R W. destruct (root_ok t X R) as [P0 B0].
  destruct (retrieve_ok f f f_ok f_ok t (r_good _ _ R) (w ++ [endChar]) 0 [] P0 B0) as (b & E & H); [now apply term_word, sigma_letter|].
  unfold contain, retrieve. rewrite E. f_equal. cbn [app] in H. rewrite (rep_has t X w R), <- memb_spec in H.
  destruct b, (memb w X); intuition congruence.
Qed.
Lemma insert_ok t X w : Rep t X -> Forall sigma w -> exists t', insert f f t w = Ok t' /\ Rep t' (set_step X (Insert w)).
Proof.
  intros R W. destruct (root_ok t X R) as [P0 B0]. unfold insert. rewrite (contain_ok t X w R W). cbn [bind set_step].
  destruct (memb w X) eqn:M; [exists t; auto|]. apply memb_false in M.
  destruct (insert_loop_ok f f f_ok f_ok t (r_good _ _ R) (w ++ [endChar]) 0 [] P0 B0) as (t' & -> & G & S & H).
  { now apply term_word, sigma_letter. } { cbn [app]. now rewrite (rep_has t X w R). }
  cbn [bind]. eexists. split; [reflexivity|]. destruct R as [RG RN RW RH RS]. constructor.
  - destruct G as [g1 g2 g3 g4]. now constructor.
  - now constructor.
  - now constructor.
  - intros s. change (HAS (with_size t' (size t' + 1)) (-1) s) with (HAS t' (-1) s). rewrite H, RH. cbn [app In]. split.
    + intros [(v & I & ->)| ->]; eauto.
    + intros (v & [<-|I] & ->); eauto.
  - cbn [with_size TrieModel.size length]. rewrite S, RS. lia.
Qed.
Lemma remove_filter (X : list bytes) w : NoDup X ->
  NoDup (filter (fun v => if word_dec v w then false else true) X) /\
  (forall v, In v (filter (fun v => if word_dec v w then false else true) X) <-> In v X /\ v <> w).
Proof.
  intros N. split; [now apply NoDup_filter|]. intros v. rewrite filter_In. destruct (word_dec v w); intuition congruence.
Qed.
Lemma filter_absent (X : list bytes) w : ~ In w X -> filter (fun v => if word_dec v w then false else true) X = X.
Proof.
  induction X as [|a X IH]; intros H; [reflexivity|]. cbn [filter]. destruct (word_dec a w) as [->|]; [exfalso; apply H; now left|].
  f_equal. apply IH. firstorder.
Qed.
Lemma filter_length (X : list bytes) w : NoDup X -> In w X ->
  length X = S (length (filter (fun v => if word_dec v w then false else true) X)).
Proof.
  induction X as [|a X IH]; intros N H; [destruct H|]. inversion N as [|? ? NI N']; subst. cbn [filter length].
  destruct (word_dec a w) as [->|E].
  - now rewrite filter_absent.
  - cbn [length]. f_equal. apply IH; [assumption|]. destruct H; [contradiction|assumption].
Qed.
Lemma remove_present t X w : Rep t X -> Forall sigma w -> In w X -> exists t', remove f t w = Ok t' /\ Rep t' (set_step X (Remove w)).
Proof.
  intros R W I. destruct (root_ok t X R) as [P0 B0]. unfold remove.
  destruct (remove_loop_ok f f f_ok f_ok t (r_good _ _ R) (w ++ [endChar]) 0 [] P0 B0 (term_word _ (sigma_letter _ W))) as [H _].
  cbn [app] in H. destruct H as (t' & -> & G & S & H & _); [now apply (rep_has t X w R)|]. cbn [bind].
  eexists. split; [reflexivity|]. destruct R as [RG RN RW RH RS]. destruct (remove_filter X w RN) as [F1 F2]. constructor.
  - destruct G as [g1 g2 g3 g4]. now constructor.
  - exact F1.
  - apply Forall_forall. intros v Hv. apply F2 in Hv as [Hv _]. eapply Forall_forall in RW; eassumption.
  - intros s. change (HAS (with_size t' (size t' - 1)) (-1) s) with (HAS t' (-1) s). rewrite H, RH. cbn [set_step]. split.
    + intros [(v & Iv & ->) N]. exists v. split; [|reflexivity]. apply F2. split; [assumption|]. intros ->. now apply N.
    + intros (v & Iv & ->). apply F2 in Iv as [Iv N]. split; [eauto|]. intros E. apply app_inj_tail in E as [E _]. now apply N.
  - cbn [with_size TrieModel.size set_step]. rewrite S, RS, (filter_length X w RN I). lia.
Qed.
Lemma remove_absent t X w : Rep t X -> Forall sigma w -> ~ In w X -> remove f t w = Ok t \/ remove f t w = UB.
Proof.
  intros R W I. destruct (root_ok t X R) as [P0 B0]. unfold remove.
  destruct (remove_loop_ok f f f_ok f_ok t (r_good _ _ R) (w ++ [endChar]) 0 [] P0 B0 (term_word _ (sigma_letter _ W))) as [_ H].
  destruct H as [->| ->]; [cbn [app]; now rewrite (rep_has t X w R)|left; reflexivity|right; reflexivity].
Qed.

Lemma empty_rep : exists t, mkTrie = Ok t /\ Rep t [].
Proof.
  eexists. split; [reflexivity|]. 
  set (t := Trie _ _ _ _ _ _).
  assert (C0 : forall x, Ct t x = -1).
  { intros x. unfold Ct, at_, t. destruct (x <? 0); [reflexivity|]. cbn [check]. unfold anew. apply nth_repeat. }
  assert (B0 : Bt t 0 = 0) by reflexivity.
  constructor.
  - constructor.
    + constructor; try (intros x; rewrite C0; congruence).
      * rewrite C0, B0. lia.
      * cbn [tailList pos]. split; [constructor|]. split; [intros p []|cbn; lia].
    + reflexivity.
    + intros x H. rewrite C0 in H. congruence.
    + intros x H. rewrite C0 in H. congruence.
  - constructor.
  - constructor.
  - intros s. split; [|intros (w & [] & _)]. intros (x & w1 & w2 & _ & _ & L & _). rewrite C0 in L. congruence.
  - reflexivity.
Qed.

Definition good_run (t : trie) (X : list bytes) (ops : list op) (r : outcome (trie * list bool)) : Prop :=
  (exists t', r = Ok (t', answers X ops) /\ Rep t' (set_run X ops)) \/ (r = UB /\ ~ legal X ops).
Lemma step_ok t X o : Rep t X -> Forall sigma (op_word o) ->
  (exists t', step f t o = Ok (t', answers X [o]) /\ Rep t' (set_step X o)) \/ (step f t o = UB /\ exists w, o = Remove w /\ ~ In w X).
Proof.
  intros R W. destruct o as [w|w|w]; cbn [op_word step answers] in *.
  - left. destruct (insert_ok t X w R W) as (t' & -> & R'). exists t'. split; [reflexivity|exact R'].
  - destruct (in_dec word_dec w X) as [I|I].
    + left. destruct (remove_present t X w R W I) as (t' & -> & R'). exists t'. split; [reflexivity|exact R'].
    + destruct (remove_absent t X w R W I) as [->| ->]; [left|right; eauto]. exists t. split; [reflexivity|]. cbn [set_step]. now rewrite filter_absent.
  - left. rewrite (contain_ok t X w R W). cbn. eauto.
Qed.
Lemma answers_cons X o ops : answers X (o :: ops) = answers X [o] ++ answers (set_step X o) ops.
Proof. destruct o; reflexivity. Qed.
Lemma run_ok : forall ops t X, Rep t X -> over sigma ops -> good_run t X ops (run f t ops).
Proof.
  induction ops as [|o ops IH]; intros t X R W; cbn [run].
  - left. exists t. auto.
  - inversion W as [|? ? W1 W2]; subst. destruct (step_ok t X o R W1) as [(t1 & -> & R1)|[-> (w & -> & N)]]; cbn [bind].
    + destruct (IH t1 _ R1 W2) as [(t2 & -> & R2)|[-> L]]; cbn [bind]; [left|right].
      * exists t2. split; [|assumption]. do 2 f_equal. symmetry. apply answers_cons.
      * split; [reflexivity|]. cbn [legal]. intros [_ Q]. contradiction.
    + right. split; [reflexivity|]. cbn [legal]. tauto.
Qed.
Lemma client_ok ops : over sigma ops -> 
  (exists t, client f ops = Ok (t, answers [] ops) /\ Rep t (set_run [] ops)) \/ (client f ops = UB /\ ~ legal [] ops).
Proof. intros W. destruct empty_rep as (t & E & R). unfold client. rewrite E. cbn [bind]. now apply run_ok. Qed.

(** ** Several tries *)
Definition WRep (W : world) (L : list (list bytes)) : Prop :=
  (w_tries W = [] \/ w_static W = f) /\ Forall2 (fun o X => fst o = f /\ Rep (snd o) X) (w_tries W) L.
Lemma forall2_nth {A B} (P : A -> B -> Prop) l l' i b : Forall2 P l l' -> nth_error l' i = Some b ->
  exists a, nth_error l i = Some a /\ P a b.
Proof. intros H. revert i. induction H as [|x y l l' Pxy H IH]; intros [|i]; cbn; try discriminate; [intros [= <-]; eauto|apply IH]. Qed.
Lemma forall2_upd {A B} (P : A -> B -> Prop) l l' i a b : Forall2 P l l' -> P a b -> Forall2 P (upd l i a) (upd l' i b).
Proof. intros H Q. revert i. induction H as [|x y l l' Pxy H IH]; intros [|i]; cbn; constructor; auto. Qed.
Lemma wrun_ok : forall ops W L, WRep W L -> wlegal f sigma L ops ->
  exists W', wrun W ops = Ok (W', wanswers L ops) /\ WRep W' (sets_run L ops).
Proof.
  induction ops as [|o ops IH]; intros W L R LG; [exists W; auto|]. destruct LG as [LO LG]. cbn [wrun].
  destruct o as [g|i o].
  - subst g. destruct empty_rep as (t & E & RT). cbn [wstep]. rewrite E. cbn [bind].
    destruct (IH (World f (w_tries W ++ [(f, t)])) (L ++ [[]])) as (W' & -> & R').
    + destruct R as [_ R]. split; [now right|]. cbn [w_tries]. apply Forall2_app; [assumption|]. constructor; [|constructor]. split; [reflexivity|exact RT].
    + exact LG.
    + cbn [bind]. exists W'. auto.
  - destruct LO as [WO LO]. destruct (nth_error L i) as [X|] eqn:EL; [|contradiction].
    destruct R as [RS R]. destruct (forall2_nth _ _ _ _ _ R EL) as ([g t] & ET & EG & RT). cbn [fst snd] in EG, RT. subst g.
    destruct RS as [RS|RS]; [rewrite RS in ET; destruct i; discriminate|].
    cbn [wstep]. rewrite ET, RS. change (step2 f f t o) with (step f t o).
    destruct (step_ok t X o RT WO) as [(t' & -> & R')|[_ (w & -> & N)]]; [|contradiction]. cbn [bind].
    assert (EQ : sets_step L (On i o) = upd L i (set_step X o)) by (cbn [sets_step]; now rewrite EL).
    destruct (IH (World f (upd (w_tries W) i (f, t'))) (upd L i (set_step X o))) as (W' & -> & R2).
    + split; [now right|]. cbn [w_tries]. apply forall2_upd; auto.
    + now rewrite <- EQ.
    + cbn [bind]. exists W'. split.
      * do 2 f_equal. destruct o as [w|w|w]; cbn [wanswers answers app]; rewrite ?EQ, ?EL; try reflexivity. cbn [set_step]. f_equal.
        f_equal. clear -EL. revert i EL. induction L as [|a L IH]; intros [|i]; cbn; try discriminate; [now intros [= ->]|]. intros H. f_equal. auto.
      * cbn [sets_run]. now rewrite EQ.
Qed.
End Adapter.

Lemma lower_adapter : adapter mapChar lower.
Proof.
  unfold adapter, lower. split; [reflexivity|]. split; [vm_compute; intros [H _]; now apply H|]. 
  assert (K : forall c, 97 <= charZ c <= 122 -> mapChar c = Ok (charZ c - 95)).
  { intros c H. unfold mapChar. destruct (Ascii.eqb_spec c endChar) as [->|N].
    - vm_compute in H. destruct H as [H _]. now contradiction H.
    - destruct (Z.ltb_spec (charZ c) 97); [lia|]. destruct (Z.ltb_spec 122 (charZ c)); [lia|]. cbn [orb]. f_equal. lia. }
  split.
  - intros c H. exists (charZ c - 95). rewrite K by assumption. split; [reflexivity|lia].
  - intros a b A B. rewrite !K by assumption. intros E.
    assert (E' : charZ a - 95 = charZ b - 95) by (inversion E; reflexivity). apply byteZ_inj.
    clear - E' A B. unfold charZ in *. pose proof (byteZ_range a). pose proof (byteZ_range b).
    destruct (Z.ltb_spec (byteZ a) 128), (Z.ltb_spec (byteZ b) 128); lia.
Qed.
