(** Property C118: the memory of a trie. *)
From Verif Require Import Base TrieModel TrieSpec TrieProofs TrieOpsProofs TrieSetProofs TrieMemSpec TrieMemProofs.
Local Open Scope Z_scope.

Lemma mapChar_le c n : mapChar c = Ok n -> n <= 27.
Proof.
  unfold mapChar. destruct (Ascii.eqb c endChar); [intros [= <-]; lia|].
  destruct (Z.ltb_spec (charZ c) 97); [discriminate|]. destruct (Z.ltb_spec 122 (charZ c)); [discriminate|]. cbn. intros [= <-]. lia.
Qed.
Lemma cycles_over k w : Forall lower w -> over lower (cycles k w).
Proof. intros W. induction k; cbn [cycles]; constructor; [exact W|constructor; [exact W|exact IHk]]. Qed.
Lemma cycles_legal k w : legal [] (cycles k w) /\ set_run [] (cycles k w) = [].
Proof.
  assert (S : set_step [w] (Remove w) = []) by (cbn; destruct (word_dec w w); [reflexivity|contradiction]).
  induction k as [|k IH]; cbn [cycles]; [split; reflexivity|]. cbn [legal set_run]. change (set_step [] (Insert w)) with [w]. rewrite S. cbn [In]. tauto.
Qed.

(** no operation makes any of the three arrays shorter *)
Theorem C118_never_shrinks : forall f t o t' ans, step f t o = Ok (t', ans) ->
  (length (base t) <= length (base t'))%nat /\ (length (check t) <= length (check t'))%nat /\ (length (tail t) <= length (tail t'))%nat.
Proof. intros f t o t' ans H. exact (step_mono f t o t' ans H). Qed.

(** whatever a client does, the memory is at most linear in the text it inserted: 54 cells
    per character and per call, one kept string per call, no more characters than were passed *)
Theorem C118_linear : forall f ops t ans, (forall c n, f c = Ok n -> n <= 27) -> client f ops = Ok (t, ans) ->
  Z.of_nat (length (base t)) <= 27 + 54 * (letters ops + inserts ops) /\
  Z.of_nat (length (check t)) <= 27 + 54 * (letters ops + inserts ops) /\
  Z.of_nat (length (tail t)) <= inserts ops /\ chars (tail t) <= letters ops.
Proof.
  intros f ops t ans F H. destruct (client_bnd f F ops t ans H) as [(B1 & B2 & _) (T1 & T2 & T3 & _)]. repeat (split; [lia|]). lia.
Qed.
Theorem C118_default : forall c n, mapChar c = Ok n -> n <= 27.
Proof. exact mapChar_le. Qed.

(** a word inserted and removed [k] times leaves [k] strings of its length behind in an empty trie *)
Theorem C118_removed_words_stay : forall w k, Forall lower w ->
  exists t, client mapChar (cycles k w) = Ok (t, []) /\ size t = 0 /\ (forall v, Forall lower v -> contain mapChar t v = Ok false) /\
    Z.of_nat (length (tail t)) = Z.of_nat k /\ chars (tail t) = Z.of_nat k * Z.of_nat (length w).
Proof.
  intros w k W. destruct (client_ok mapChar lower lower_adapter (cycles k w) (cycles_over k w W)) as [(t & E & R)|[_ N]];
    [|exfalso; apply N, cycles_legal].
  assert (K : exists ch rest i, w ++ [endChar] = ch :: rest /\ mapChar ch = Ok i /\ 1 <= i <= 27 /\ length rest = length w).
  { destruct w as [|ch w]; [exists endChar, [], 1; repeat split; lia|]. inversion W as [|? ? L _]; subst.
    exists ch, (w ++ [endChar]). pose proof (proj1 (proj2 (proj2 lower_adapter))) as A. destruct (A ch L) as (i & Ei & Hi). exists i.
    split; [reflexivity|]. split; [exact Ei|]. split; [lia|]. rewrite app_length. cbn. lia. }
  destruct K as (ch & rest & i & Ew & Ei & Hi & Hl). destruct (empty_new (length rest)) as (t0 & E0 & P0).
  destruct (cycles_run mapChar w ch rest i Ew Ei Hi k t0 0 P0) as (t' & RR & P).
  unfold client in E. rewrite E0 in E. cbn [bind] in E. rewrite RR in E. injection E as E1 E2. subst t'. rename t into t'.
  exists t'. destruct (cycles_legal k w) as [_ S]. rewrite S in R. split; [unfold client; rewrite E0; exact RR|].
  split; [exact (r_size _ _ _ _ _ R)|]. split.
  - intros v V. rewrite (contain_ok mapChar lower lower_adapter t' [] v R V). reflexivity.
  - rewrite <- Hl. split; [exact (e_tail _ _ _ P)|exact (e_chars _ _ _ P)].
Qed.

(** so no function of the contents bounds the memory *)
Theorem C118_little_space_refuted : forall bound : nat -> Z, exists ops t, over lower ops /\ legal [] ops /\
  client mapChar ops = Ok (t, []) /\ set_run [] ops = [] /\ bound (length (set_run [] ops)) < Z.of_nat (length (tail t)) /\
  bound (length (set_run [] ops)) < chars (tail t).
Proof.
  intros bound. set (w := ["a"]%char). set (k := Z.to_nat (Z.max 0 (bound 0%nat) + 1)).
  assert (W : Forall lower w) by (repeat constructor; vm_compute; discriminate).
  destruct (C118_removed_words_stay w k W) as (t & E & _ & _ & T & C). destruct (cycles_legal k w) as [L S].
  exists (cycles k w), t. rewrite S. cbn [length]. split; [now apply cycles_over|]. split; [exact L|]. split; [exact E|]. split; [reflexivity|].
  change (Z.of_nat (length w)) with 1 in C. unfold k in *. clear - T C. lia.
Qed.

Definition mem_ops : list op := [Insert ["a"; "b"]; Insert ["a"; "c"]; Remove ["a"; "b"]; Insert []; Insert ["a"; "b"; "d"]; Contain ["a"; "c"]]%char.
Example C118_example :
  (forall c n, mapChar c = Ok n -> n <= 27) /\ Forall lower ["q"; "r"]%char /\ letters mem_ops = 7 /\ inserts mem_ops = 4 /\
  match client mapChar mem_ops with
  | Ok (t, a) => a = [true] /\ Z.of_nat (length (base t)) = 26 /\ Z.of_nat (length (check t)) = 26 /\ length (tail t) = 4%nat /\ chars (tail t) = 4
  | _ => False
  end /\
  match client mapChar (cycles 3 ["q"; "r"]%char) with
  | Ok (t, _) => size t = 0 /\ tail t = [["r"; endChar]; ["r"; endChar]; ["r"; endChar]]%char
  | _ => False
  end.
Proof.
  split; [exact mapChar_le|]. split; [repeat constructor; vm_compute; discriminate|]. split; [reflexivity|]. split; [reflexivity|].
  split; vm_compute; repeat split; reflexivity.
Qed.
Print Assumptions C118_never_shrinks.
Print Assumptions C118_linear.
Print Assumptions C118_default.
Print Assumptions C118_removed_words_stay.
Print Assumptions C118_little_space_refuted.
Print Assumptions C118_example.
