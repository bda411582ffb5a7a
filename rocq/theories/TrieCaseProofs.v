(** Facts about particular tries and inputs, used by the property file. *)
From Verif Require Import Base TrieModel TrieSpec TrieProofs TrieOpsProofs TrieMoveProofs TrieSetProofs TrieIterProofs.
Local Open Scope Z_scope.

(** ** The set of a history in terms of the last operation on a word *)
Lemma set_run_last ops w : In w (set_run [] ops) <-> exists a b, ops = a ++ Insert w :: b /\ ~ In (Remove w) b.
Proof.
  assert (G : forall ops X, In w (set_run X ops) <-> (In w X /\ ~ In (Remove w) ops) \/ exists a b, ops = a ++ Insert w :: b /\ ~ In (Remove w) b).
  { clear ops. induction ops as [|o ops IH]; intros X; cbn [set_run].
    - split; [intros H; left; auto|intros [[H _]|([|? ?] & b & E & _)]; [assumption|discriminate|discriminate]].
    - rewrite IH. clear IH.
      assert (TL : (exists a b, o :: ops = a ++ Insert w :: b /\ ~ In (Remove w) b) <->
                   (o = Insert w /\ ~ In (Remove w) ops) \/ exists a b, ops = a ++ Insert w :: b /\ ~ In (Remove w) b).
      { split.
        - intros ([|x a] & b & E & N); injection E as -> ->; [left; auto|right; eauto].
        - intros [[-> N]|(a & b & -> & N)]; [exists [], ops; auto|exists (o :: a), b; auto]. }
      rewrite TL. cbn [In]. destruct o as [v|v|v]; cbn [set_step].
      + destruct (memb v X) eqn:M; [apply memb_spec in M|]; destruct (word_dec v w) as [->|N]; cbn [In]; split; intros H;
          repeat match goal with H : _ \/ _ |- _ => destruct H | H : _ /\ _ |- _ => destruct H end; try congruence; auto.
        all: try (left; split; [|intros [Q|Q]; [discriminate|contradiction]]; assumption).
        all: try (match goal with H : Insert _ = Insert _ |- _ => injection H as -> end; auto).
        all: try (left; split; [auto|tauto]).
      + rewrite filter_In. destruct (word_dec w v) as [->|N]; split; intros H;
          repeat match goal with H : _ \/ _ |- _ => destruct H | H : _ /\ _ |- _ => destruct H end; try congruence; auto.
        all: try (exfalso; match goal with H : ~ (_ \/ _) |- _ => apply H; now left end).
        all: left; repeat split; auto; intros [Q|Q]; try contradiction; injection Q as Q; congruence.
      + split; intros H; repeat match goal with H : _ \/ _ |- _ => destruct H | H : _ /\ _ |- _ => destruct H end; try discriminate; auto.
        all: left; (split; [assumption|]); intros Q; try (destruct Q as [Q|Q]; [discriminate|contradiction]); tauto. }
  rewrite G. split; [intros [[[] _]|H]; assumption|auto].
Qed.
Lemma set_run_nodup ops : NoDup (set_run [] ops).
Proof.
  assert (G : forall ops X, NoDup X -> NoDup (set_run X ops)); [|apply G; constructor].
  clear ops. induction ops as [|o ops IH]; intros X N; [assumption|]. cbn [set_run]. apply IH. destruct o as [v|v|v]; cbn [set_step].
  - destruct (memb v X) eqn:M; [assumption|]. apply memb_false in M. now constructor.
  - now apply NoDup_filter.
  - assumption.
Qed.

(** ** Characters outside the map *)
Section Foreign.
Context (f : ascii -> outcome Z) (sigma : ascii -> Prop) (AD : adapter f sigma).
#[local] Hint Extern 0 Alphabet => exact (a_alphabet f sigma AD) : typeclass_instances.

Lemma term_letters s c u v : term s -> s = u ++ c :: v -> c = endChar \/ sigma c.
Proof.
  intros T. revert u. induction T as [|a s L T IH]; intros u E.
  - destruct u as [|? [|? ?]]; try discriminate. injection E as <-. now left.
  - destruct u as [|b u]; injection E as E1 E2; [subst; right; now apply (letter_sigma f sigma AD)|]. now apply (IH u).
Qed.
Lemma retrieve_foreign t c v : Good t (-1) -> ~ sigma c -> c <> endChar -> f c = Err ->
  forall u n w, path (Bt t) (Ct t) n w -> 0 <= Bt t n -> Forall sigma u ->
  retrieve_loop f t n (u ++ c :: v) = Ok false \/ retrieve_loop f t n (u ++ c :: v) = Err.
Proof.
  intros G NS NE FE. pose proof (g_inv _ _ G) as I. induction u as [|a u IH]; intros n w P B W; cbn [app retrieve_loop].
  - rewrite FE. now right.
  - inversion W as [|? ? W1 W2]; subst. assert (LA : letter a) by (pose proof (sigma_letter f sigma AD _ W) as L; now inversion L).
    rewrite (f_ok f sigma AD a (proj1 LA)). cbn [bind]. pose proof (path_nonneg I _ _ P). rewrite (path_base t (-1) n w G P) by lia. cbn [bind].
    pose proof (code_range a (proj1 LA)). rewrite igetc_at by lia. cbn [bind]. fold (Ct t (Bt t n + code a)).
    destruct (Z.eqb_spec (Ct t (Bt t n + code a)) n) as [E|E]; cbn [negb]; [|now left].
    rewrite igetc_at by lia. cbn [bind]. fold (Bt t (Bt t n + code a)). assert (L : Ct t (Bt t n + code a) <> -1) by lia.
    destruct (i_kind _ _ _ _ _ _ I _ a L ltac:(lia) (proj1 LA)) as [_ K]; [now rewrite E|]. specialize (K (proj2 LA)).
    destruct (Z.ltb_spec (Bt t (Bt t n + code a)) (-1)) as [Q|Q].
    + destruct K as [K|[_ TM]]; [lia|]. destruct (u ++ c :: v) as [|d r] eqn:EQ; [destruct u; discriminate|].
      rewrite (live_base t (-1) _ G L) by lia. cbn [bind]. pose proof (g_tail _ _ G _ L ltac:(lia) Q). rewrite tgetc_at by lia. cbn [bind].
      fold (Tt t (- Bt t (Bt t n + code a) - 2)). destruct (list_eq_dec _ _ _) as [Q2|Q2]; [|now left]. exfalso.
      destruct (term_letters _ c u v TM); [congruence|contradiction|contradiction].
    + destruct K as [K|[K _]]; [|lia]. apply (IH _ (w ++ [a])); auto. exact (child_path t n w a P (proj1 LA) E).
Qed.
Lemma contain_foreign t X u c v : Rep f sigma AD t X -> Forall sigma u -> ~ sigma c -> c <> endChar -> f c = Err ->
  contain f t (u ++ c :: v) = Ok false \/ contain f t (u ++ c :: v) = Err.
Proof.
  intros R W NS NE FE. destruct (root_ok f sigma AD t X R) as [P0 B0]. unfold contain, retrieve. rewrite <- app_assoc. cbn [app].
  apply (retrieve_foreign t c (v ++ [endChar]) (r_good _ _ _ _ _ R) NS NE FE u 0 [] P0 B0 W).
Qed.
End Foreign.

(** ** Removal from an empty trie *)
Lemma lower_code c : lower c -> mapChar c = Ok (charZ c - 95).
Proof.
  intros H. unfold lower in H. unfold mapChar. destruct (Ascii.eqb_spec c endChar) as [->|N].
  - vm_compute in H. destruct H as [H _]. now contradiction H.
  - destruct (Z.ltb_spec (charZ c) 97); [lia|]. destruct (Z.ltb_spec 122 (charZ c)); [lia|]. cbn [orb]. f_equal. lia.
Qed.
Lemma remove_empty w : Forall lower w ->
  client mapChar [Remove w] = UB <-> exists c v, w = c :: v /\ 121 <= charZ c.
Proof.
  intros W. destruct w as [|c w].
  - split; [intros H; vm_compute in H; discriminate|intros (c & v & E & _); discriminate].
  - inversion W as [|? ? W1 _]; subst. unfold client. set (e := Trie (0 :: repeat (-1) 25) (repeat (-1) 26) [] 0 [] 0).
    change mkTrie with (Ok e). cbn [bind run step remove].
    unfold remove. cbn [app remove_loop]. rewrite lower_code by assumption. cbn [bind]. change (iget (base e) 0) with (Ok 0). cbn [bind]. rewrite Z.add_0_l.
    unfold lower in W1. destruct (Z_lt_dec (charZ c - 95) 26) as [L|L].
    + change (check e) with (repeat (-1) 26). rewrite iget_at by (rewrite repeat_length; lia). cbn [bind]. unfold at_. destruct (_ <? 0); [|rewrite nth_repeat];
      (split; [discriminate|intros (c' & v & E & Q); injection E as <- <-; lia]).
    + replace (iget (check e) (charZ c - 95)) with (@UB Z).
      * split; [intros _; exists c, w; split; [reflexivity|lia]|reflexivity].
      * symmetry. unfold iget, get, aget. destruct (Z.ltb_spec (charZ c - 95) 0); [lia|].
        replace (nth_error (check e) (Z.to_nat (charZ c - 95))) with (@None Z); [reflexivity|]. symmetry. apply nth_error_None.
        change (length (check e)) with 26%nat. lia.
Qed.

(** ** Iteration that does not end *)
Definition aba : bytes := ["a"; "b"; "a"]%char.
Definition abb : bytes := ["a"; "b"; "b"]%char.
Definition loop_trie : trie := match client mapChar [Insert aba; Insert abb] with Ok (t, _) => t | _ => Trie [] [] [] 0 [] 0 end.
Definition dead_trie : trie := match client mapChar [Insert aba; Insert abb; Remove aba; Remove abb] with Ok (t, _) => t | _ => Trie [] [] [] 0 [] 0 end.
Definition it_a := Iter 3 3 [-2; 2; 3; 2] false.
Definition it_b := Iter 3 4 [-3; 3; 3; 2] false.
Lemma next_more fu t it it' : it_next fu t it = Ok it' -> forall g, (fu <= g)%nat -> it_next g t it = Ok it'.
Proof.
  unfold it_next. intros E g L. destruct (it_end it); [assumption|].
  destruct (it_buffer it) as [|x [|y b]]; cbn [bind] in *; try discriminate.
  - destruct (visit fu t (it_n it) (it_offset it) []) as [r| | |] eqn:V; cbn [bind] in E; try discriminate.
    rewrite (visit_more _ _ _ _ _ _ V g L). exact E.
  - destruct (visit fu t (it_n it) (it_offset it) b) as [r| | |] eqn:V; cbn [bind] in E; try discriminate.
    rewrite (visit_more _ _ _ _ _ _ V g L). exact E.
Qed.
Lemma loop_iterate fuel : (100 <= fuel)%nat -> it_begin fuel loop_trie = Ok it_a /\ forall k,
  (exists l, iterate k fuel mapInt loop_trie it_a = Ok (l, false) /\ length l = k) /\
  (exists l, iterate k fuel mapInt loop_trie it_b = Ok (l, false) /\ length l = k).
Proof.
  intros L. split.
  - apply (next_more 100); [vm_compute; reflexivity|assumption].
  - assert (N1 : it_next fuel loop_trie it_a = Ok it_b) by (apply (next_more 100); [vm_compute; reflexivity|assumption]).
    assert (N2 : it_next fuel loop_trie it_b = Ok it_a) by (apply (next_more 100); [vm_compute; reflexivity|assumption]).
    assert (D1 : it_deref mapInt loop_trie it_a = Ok aba) by (vm_compute; reflexivity).
    assert (D2 : it_deref mapInt loop_trie it_b = Ok abb) by (vm_compute; reflexivity).
    induction k as [|k [(l1 & E1 & L1) (l2 & E2 & L2)]]; [split; exists []; split; reflexivity|].
    assert (ST : forall it s it', it_end it = false -> it_deref mapInt loop_trie it = Ok s -> it_next fuel loop_trie it = Ok it' ->
      iterate (S k) fuel mapInt loop_trie it = ('(l, e) <- iterate k fuel mapInt loop_trie it' ;; Ok (s :: l, e))).
    { intros it s it' H1 H2 H3. cbn [iterate]. rewrite H1, H2. cbn [bind]. rewrite H3. reflexivity. }
    split.
    + exists (aba :: l2). rewrite (ST it_a aba it_b eq_refl D1 N1), E2. cbn. auto.
    + exists (abb :: l1). rewrite (ST it_b abb it_a eq_refl D2 N2), E1. cbn. auto.
Qed.
Lemma dead_begin fuel : it_begin fuel dead_trie = Fuel.
Proof.
  assert (C : forall fu, visit fu dead_trie 2 3 [2] = Fuel).
  { induction fu as [fu IH] using (well_founded_induction lt_wf).
    destruct (Nat.lt_ge_cases fu 29) as [L|L].
    - do 29 (destruct fu as [|fu]; [vm_compute; reflexivity|]). lia.
    - replace fu with (29 + (fu - 29))%nat by lia. transitivity (visit (fu - 29) dead_trie 2 3 [2]); [|apply IH; lia].
      generalize (fu - 29)%nat. intros g. vm_compute. reflexivity. }
  unfold it_begin, it_next. cbn [it_end it_buffer bind it_n it_offset].
  do 4 (destruct fuel as [|fuel]; [vm_compute; reflexivity|]).
  replace (visit (S (S (S (S fuel)))) dead_trie 0 1 []) with (visit fuel dead_trie 2 3 [2]); [now rewrite C|].
  vm_compute. reflexivity.
Qed.
