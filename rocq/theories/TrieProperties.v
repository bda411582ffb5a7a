(** Properties C47-C51, C75 and C76: the trie. *)
From Verif Require Import Base TrieModel TrieSpec TrieSetProofs TrieIterProofs TrieCaseProofs.
From Coq Require Import Sorting.Sorted Sorting.Permutation.
Local Open Scope Z_scope.

Definition w_ab : bytes := ["a"; "b"]%char.
Definition w_ac : bytes := ["a"; "c"]%char.
Definition w_b : bytes := ["b"]%char.
Definition history : list op :=
  [Insert w_ab; Insert w_ac; Insert w_b; Contain w_ac; Remove w_ac; Contain w_ac; Insert []; Insert ["c"; "a"]%char; Contain w_ab; Contain []].
Lemma history_lower : over lower history.
Proof. repeat constructor; vm_compute; discriminate. Qed.

(** ** C47 *)
Theorem C47_set_semantics : forall f sigma ops, adapter f sigma -> over sigma ops -> legal [] ops ->
  exists t, client f ops = Ok (t, answers [] ops) /\
    forall w, Forall sigma w -> exists b, contain f t w = Ok b /\
      (b = true <-> exists before after, ops = before ++ Insert w :: after /\ ~ In (Remove w) after).
Proof.
  intros f sigma ops AD W L. destruct (client_ok f sigma AD ops W) as [(t & E & R)|[_ N]]; [|contradiction].
  exists t. split; [assumption|]. intros w Ww. exists (memb w (set_run [] ops)). split; [now apply (contain_ok f sigma AD)|].
  rewrite memb_spec. apply set_run_last.
Qed.
Theorem C47_default_map : adapter mapChar lower.
Proof. exact lower_adapter. Qed.
Theorem C47_answers : forall ops a b w, ops = a ++ Contain w :: b ->
  exists l r, answers [] ops = l ++ (if memb w (set_run [] a) then true else false) :: r /\ length l = length (filter (fun o => match o with Contain _ => true | _ => false end) a).
Proof.
  intros ops a b w ->. generalize (@nil bytes) as X. induction a as [|o a IH]; intros X.
  - exists [], (answers X b). cbn. now destruct (memb w X).
  - cbn [app]. destruct (IH (set_step X o)) as (l & r & E & L). destruct o as [v|v|v]; cbn [answers set_run filter length]; rewrite ?E.
    + exists l, r. auto.
    + exists l, r. auto.
    + exists (memb v X :: l), r. cbn [set_step] in E. rewrite E. cbn [length app]. auto.
Qed.
Example C47_example : over lower history /\ legal [] history /\
  omap snd (client mapChar history) = Ok [true; false; true; true].
Proof. split; [exact history_lower|]. split; [cbn; intuition auto|vm_compute; reflexivity]. Qed.
Print Assumptions C47_set_semantics.
Print Assumptions C47_default_map.
Print Assumptions C47_answers.

(** ** C48 *)
Theorem C48_size : forall f sigma ops t a, adapter f sigma -> over sigma ops -> client f ops = Ok (t, a) ->
  exists words, NoDup words /\ size t = Z.of_nat (length words) /\
    forall w, In w words <-> exists before after, ops = before ++ Insert w :: after /\ ~ In (Remove w) after.
Proof.
  intros f sigma ops t a AD W E. destruct (client_ok f sigma AD ops W) as [(t' & E' & R)|[E' _]]; rewrite E in E'; [|discriminate].
  injection E' as <- _. exists (set_run [] ops). split; [apply set_run_nodup|]. split; [apply (r_size _ _ _ _ _ R)|]. intros w. apply set_run_last.
Qed.
Example C48_example : omap (fun r => size (fst r)) (client mapChar history) = Ok 4.
Proof. vm_compute. reflexivity. Qed.
Print Assumptions C48_size.

(** ** C49 *)
Theorem C49_safety : forall f sigma ops, adapter f sigma -> over sigma ops ->
  (exists t, client f ops = Ok (t, answers [] ops)) \/ (client f ops = UB /\ ~ legal [] ops).
Proof.
  intros f sigma ops AD W. destruct (client_ok f sigma AD ops W) as [(t & E & _)|H]; [left; eauto|now right].
Qed.
(** removing from a trie into which nothing was inserted *)
Theorem C49_remove_from_empty : forall w, Forall lower w ->
  (client mapChar [Remove w] = UB <-> exists c v, w = c :: v /\ (c = "y"%char \/ c = "z"%char)).
Proof.
  intros w W. rewrite (remove_empty w W). split.
  - intros (c & v & -> & H). inversion W as [|? ? W1 _]; subst. exists c, v. split; [reflexivity|]. unfold lower in W1.
    assert (K : charZ c = 121 \/ charZ c = 122) by lia. clear -K. revert K. unfold charZ, byteZ.
    destruct c as [[] [] [] [] [] [] [] []]; vm_compute; intros [K|K]; try discriminate; auto.
  - intros (c & v & -> & H). exists c, v. split; [reflexivity|]. destruct H as [->| ->]; vm_compute; discriminate.
Qed.
Theorem C49_remove_absent_refuted : exists ops, over lower ops /\ client mapChar ops = UB.
Proof. exists [Remove ["z"]%char]. split; [repeat constructor; vm_compute; discriminate|vm_compute; reflexivity]. Qed.
Example C49_example : (exists t, client mapChar (history ++ [Remove ["b"; "b"]%char]) = Ok (t, [true; false; true; true])) /\
  ~ legal [] (history ++ [Remove ["b"; "b"]%char]).
Proof. split; [eexists; vm_compute; reflexivity|]. cbn. intuition discriminate. Qed.
Print Assumptions C49_safety.
Print Assumptions C49_remove_from_empty.
Print Assumptions C49_remove_absent_refuted.

(** ** C50 *)
Theorem C50_iteration_sound : forall f sigma mi fuel k ops t a, adapter f sigma -> (forall c n, sigma c -> f c = Ok n -> mi n = c) ->
  over sigma ops -> client f ops = Ok (t, a) ->
  match it <- it_begin fuel t ;; iterate k fuel mi t it with
  | Ok (l, _) => forall w, In w l -> exists before after, ops = before ++ Insert w :: after /\ ~ In (Remove w) after
  | Fuel => True
  | _ => False
  end.
Proof.
  intros f sigma mi fuel k ops t a AD MI W E. pose proof (iterate_words f sigma AD mi fuel k ops t a MI W E) as H.
  destruct (bind _ _) as [[l e]| | |]; auto. intros w Hw. apply set_run_last. now apply H.
Qed.
Theorem C50_default_inverse : forall c n, lower c -> mapChar c = Ok n -> mapInt n = c.
Proof.
  intros c n L E. rewrite (lower_code c L) in E. injection E as <-. unfold lower in L. revert L.
  destruct c as [[] [] [] [] [] [] [] []]; vm_compute; intros [L1 L2]; try reflexivity; try (now contradiction L1); try (now contradiction L2).
Qed.
Theorem C50_iteration_complete : forall f sigma mi fuel ops t a, adapter f sigma -> (forall c n, sigma c -> f c = Ok n -> mi n = c) ->
  over sigma ops -> spread ops -> client f ops = Ok (t, a) -> (28 < fuel)%nat ->
  exists it l, it_begin fuel t = Ok it /\ iterate (length l) fuel mi t it = Ok (l, true) /\
    StronglySorted (before f) l /\ NoDup l /\
    forall w, In w l <-> exists before after, ops = before ++ Insert w :: after /\ ~ In (Remove w) after.
Proof.
  intros f sigma mi fuel ops t a AD MI W SP E FU.
  destruct (spread_iterate f sigma AD mi fuel ops t a MI W SP FU E) as (it & l & H1 & H2 & H3 & H4).
  exists it, l. split; [assumption|]. split; [assumption|]. split; [assumption|]. split.
  - eapply Permutation_NoDup; [apply Permutation_sym; exact H4|]. apply set_run_nodup.
  - intros w. rewrite <- set_run_last. split; apply Permutation_in; [assumption|now apply Permutation_sym].
Qed.
Theorem C50_complete_refuted : exists ops t a l w, over lower ops /\ client mapChar ops = Ok (t, a) /\
  (it <- it_begin 200 t ;; iterate 10 200 mapInt t it) = Ok (l, true) /\ contain mapChar t w = Ok true /\ ~ In w l.
Proof.
  exists [Insert w_ab; Insert w_ac; Insert w_b]. do 2 eexists. exists [w_ab; w_ac], w_b.
  split; [repeat constructor; vm_compute; discriminate|]. split; [vm_compute; reflexivity|]. split; [vm_compute; reflexivity|]. split; [vm_compute; reflexivity|].
  cbn. unfold w_ab, w_ac, w_b. intuition discriminate.
Qed.
Theorem C50_termination_refuted : exists ops t a, over lower ops /\ client mapChar ops = Ok (t, a) /\ size t = 2 /\
  forall fuel k, (100 <= fuel)%nat -> exists l, (it <- it_begin fuel t ;; iterate k fuel mapInt t it) = Ok (l, false) /\ length l = k.
Proof.
  exists [Insert aba; Insert abb], loop_trie, []. split; [repeat constructor; vm_compute; discriminate|]. split; [vm_compute; reflexivity|].
  split; [reflexivity|]. intros fuel k FU. destruct (loop_iterate fuel FU) as [-> H]. cbn [bind]. apply H.
Qed.
Theorem C50_begin_refuted : exists ops t a, over lower ops /\ client mapChar ops = Ok (t, a) /\ size t = 0 /\ forall fuel, it_begin fuel t = Fuel.
Proof.
  exists [Insert aba; Insert abb; Remove aba; Remove abb], dead_trie, []. split; [repeat constructor; vm_compute; discriminate|].
  split; [vm_compute; reflexivity|]. split; [reflexivity|]. apply dead_begin.
Qed.
Example C50_example :
  let ops := [Insert ["c"; "x"]%char; Insert ["a"; "b"; "c"]%char; Insert []; Insert ["z"]%char; Insert ["b"; "b"]%char; Remove ["z"]%char] in
  over lower ops /\ spread ops /\
  (r <- client mapChar ops ;; it <- it_begin 29 (fst r) ;; iterate 4 29 mapInt (fst r) it) = Ok ([[]; ["a"; "b"; "c"]; ["b"; "b"]; ["c"; "x"]]%char, true).
Proof.
  cbv zeta. split; [repeat constructor; vm_compute; discriminate|]. split; [|vm_compute; reflexivity].
  intros v w. cbn [In]. intros [E|[E|[E|[E|[E|[E|[]]]]]]] [F|[F|[F|[F|[F|[F|[]]]]]]]; try discriminate; injection E as <-; injection F as <-; intros H; try discriminate H; reflexivity.
Qed.
Print Assumptions C50_iteration_sound.
Print Assumptions C50_default_inverse.
Print Assumptions C50_iteration_complete.
Print Assumptions C50_complete_refuted.
Print Assumptions C50_termination_refuted.
Print Assumptions C50_begin_refuted.

(** ** C51 *)
Definition none : world := World mapChar [].
Theorem C51_same_map_independent : forall f sigma ops st, adapter f sigma -> wlegal f sigma [] ops ->
  exists W, wrun (World st []) ops = Ok (W, wanswers [] ops) /\
    Forall2 (fun o X => size (snd o) = Z.of_nat (length X) /\
      (w_static W = f) /\ forall w, Forall sigma w -> contain (w_static W) (snd o) w = Ok (memb w X)) (w_tries W) (sets_run [] ops).
Proof.
  intros f sigma ops st AD L. destruct (wrun_ok f sigma AD ops (World st []) []) as (W & E & RS & R); [split; [now left|constructor]|assumption|].
  exists W. split; [assumption|]. destruct RS as [RS|RS].
  - rewrite RS in *. inversion R. constructor.
  - rewrite RS. clear -R. induction R as [|o X tr L [_ H] R IH]; constructor; [|assumption].
    split; [apply (r_size _ _ _ _ _ H)|]. split; [reflexivity|]. intros w Ww. now apply (contain_ok f sigma AD).
Qed.
(** the alphabet with a and b exchanged *)
Definition mapSwap (c : ascii) : outcome Z :=
  if Ascii.eqb c "a" then mapChar "b" else if Ascii.eqb c "b" then mapChar "a" else mapChar c.
Theorem C51_other_map_refuted : exists g, adapter g lower /\
  omap snd (wrun none [New mapChar; On 0 (Insert ["a"]%char); On 0 (Contain ["a"]%char); On 0 (Contain ["b"]%char);
                       New g; On 0 (Contain ["a"]%char); On 0 (Contain ["b"]%char)]) = Ok [true; false; false; true].
Proof.
  exists mapSwap. split; [|vm_compute; reflexivity].
  unfold adapter. split; [reflexivity|]. split; [exact (proj1 (proj2 lower_adapter))|]. split.
  - intros c L. unfold mapSwap. destruct (Ascii.eqb_spec c "a"); [exists 3; cbv; split; [reflexivity|split; discriminate]|].
    destruct (Ascii.eqb_spec c "b"); [exists 2; cbv; split; [reflexivity|split; discriminate]|]. now apply (proj1 (proj2 (proj2 lower_adapter))).
  - pose proof (proj2 (proj2 (proj2 lower_adapter))) as J. intros a b A B. unfold mapSwap.
    assert (LA : lower "a") by (vm_compute; split; discriminate). assert (LB : lower "b") by (vm_compute; split; discriminate).
    destruct (Ascii.eqb_spec a "a") as [->|]; destruct (Ascii.eqb_spec b "a") as [->|]; try reflexivity.
    + destruct (Ascii.eqb_spec b "b") as [->|]; [discriminate|]. intros E. apply J in E; auto. congruence.
    + destruct (Ascii.eqb_spec a "b") as [->|]; [discriminate|]. intros E. apply J in E; auto; congruence.
    + destruct (Ascii.eqb_spec a "b") as [->|]; destruct (Ascii.eqb_spec b "b") as [->|]; try reflexivity; intros E; apply J in E; auto; congruence.
Qed.
Example C51_example :
  let ops := [New mapChar; New mapChar; On 0 (Insert w_ab); On 1 (Insert w_ac); On 1 (Contain w_ab); On 0 (Contain w_ab); On 0 (Remove w_ab); On 1 (Contain w_ac)] in
  wlegal mapChar lower [] ops /\ omap snd (wrun none ops) = Ok [false; true; true].
Proof.
  cbv zeta. split; [|vm_compute; reflexivity].
  cbn. repeat split; auto; try (repeat constructor; vm_compute; discriminate).
Qed.
Print Assumptions C51_same_map_independent.
Print Assumptions C51_other_map_refuted.

(** ** C75: more than 27 codes *)
Definition map28 (c : ascii) : outcome Z :=
  if Ascii.eqb c endChar then Ok 1
  else if (charZ c <? 97) || (123 <? charZ c) then Err else Ok (charZ c - 97 + 2).
(** [map28] meets the documented requirements (Trie.h:83-91): codes 1, 2, ..., 28 *)
Theorem C75_large_alphabet_refuted : exists (f : ascii -> outcome Z) (sigma : ascii -> Prop) (ops : list op) t a (w : bytes),
  (f endChar = Ok 1 /\ (forall c, sigma c -> exists k, f c = Ok k /\ 2 <= k <= 28) /\ (forall a b, sigma a -> sigma b -> f a = f b -> a = b)) /\
  over sigma ops /\ client f ops = Ok (t, a) /\ In (Insert w) ops /\ ~ In (Remove w) ops /\ contain f t w = Ok false.
Proof.
  pose (sg := fun c => 97 <= charZ c <= 123).
  assert (K : forall c, sg c -> map28 c = Ok (charZ c - 95)).
  { intros c H. unfold sg in H. unfold map28. destruct (Ascii.eqb_spec c endChar) as [->|N].
    - vm_compute in H. destruct H as [H _]. now contradiction H.
    - destruct (Z.ltb_spec (charZ c) 97); [lia|]. destruct (Z.ltb_spec 123 (charZ c)); [lia|]. cbn [orb]. f_equal. lia. }
  exists map28, sg, (map Insert [["{"; "a"]; ["{"; "b"]; ["a"; "{"]; ["a"; "a"]; ["a"; "b"]; ["b"; "{"]; ["b"; "a"]]%char).
  do 2 eexists. exists ["{"; "a"]%char. split; [|split; [|split; [vm_compute; reflexivity|split; [now left|split; [cbn; intuition discriminate|vm_compute; reflexivity]]]]].
  - split; [reflexivity|]. split.
    + intros c H. exists (charZ c - 95). rewrite K by assumption. unfold sg in H. split; [reflexivity|lia].
    + intros a b A B. rewrite !K by assumption. intros E. inversion E as [E']. clear -E' A B. unfold sg in *. apply byteZ_inj. unfold charZ in *.
      pose proof (byteZ_range a). pose proof (byteZ_range b). destruct (Z.ltb_spec (byteZ a) 128), (Z.ltb_spec (byteZ b) 128); lia.
  - repeat constructor; vm_compute; discriminate.
Qed.
Print Assumptions C75_large_alphabet_refuted.

(** ** C76: characters outside the alphabet *)
Theorem C76_first_foreign : forall f t c w, f c = Err ->
  contain f t (c :: w) = Err /\ insert f f t (c :: w) = Err /\ remove f t (c :: w) = Err.
Proof. intros f t c w E. unfold insert, contain, remove, retrieve. cbn [app retrieve_loop remove_loop]. rewrite E. auto. Qed.
Theorem C76_contain_foreign : forall f sigma ops t a u c v, adapter f sigma -> over sigma ops -> client f ops = Ok (t, a) ->
  Forall sigma u -> ~ sigma c -> c <> endChar -> f c = Err ->
  contain f t (u ++ c :: v) = Ok false \/ contain f t (u ++ c :: v) = Err.
Proof.
  intros f sigma ops t a u c v AD W E Wu NS NE FE. destruct (client_ok f sigma AD ops W) as [(t' & E' & R)|[E' _]]; rewrite E in E'; [|discriminate].
  injection E' as <- _. now apply (contain_foreign f sigma AD t (set_run [] ops)).
Qed.
(** inserting a word with a capital letter is accepted; a later valid insertion then fails *)
Theorem C76_insert_foreign_refuted : exists w, ~ Forall lower w /\
  omap snd (client mapChar [Insert w; Contain w]) = Ok [true] /\ client mapChar [Insert w; Insert w_ab] = Err.
Proof.
  exists ["a"; "A"]%char. split; [|split; vm_compute; reflexivity].
  intros H. inversion H as [|? ? _ H2]. inversion H2 as [|? ? H3 _]. vm_compute in H3. destruct H3 as [H3 _]. now apply H3.
Qed.
(** the end mark inside a word makes another word appear *)
Theorem C76_end_mark_refuted : omap snd (client mapChar [Contain []; Insert [endChar]; Contain []]) = Ok [false; true].
Proof. vm_compute. reflexivity. Qed.
Example C76_example : mapChar "A" = Err /\ ~ lower "A" /\
  omap snd (client mapChar [Insert w_ab; Contain ["a"; "A"]%char]) = Ok [false] /\ omap snd (client mapChar [Insert w_ab; Insert w_ac; Contain ["a"; "A"]%char]) = Err.
Proof. split; [reflexivity|]. split; [vm_compute; intros [H _]; now apply H|]. split; vm_compute; reflexivity. Qed.
Print Assumptions C76_first_foreign.
Print Assumptions C76_contain_foreign.
Print Assumptions C76_insert_foreign_refuted.
Print Assumptions C76_end_mark_refuted.
