(** Property C121: the work done by the operations of a trie. *)
From Verif Require Import Base TrieModel TrieSpec TrieProofs TrieOpsProofs TrieSetProofs TrieMemSpec TrieMemProofs TrieCostModel TrieCostSpec TrieCostProofs.
Local Open Scope Z_scope.

Lemma letters_app a b : letters (a ++ b) = letters a + letters b.
Proof. induction a as [|o a IH]; cbn [app letters]; [lia|]. destruct o; lia. Qed.
Lemma inserts_app a b : inserts (a ++ b) = inserts a + inserts b.
Proof. induction a as [|o a IH]; cbn [app inserts]; [lia|]. destruct o; lia. Qed.
Lemma client_snoc f ops t ans o t' ans' : client f ops = Ok (t, ans) -> step f t o = Ok (t', ans') -> client f (ops ++ [o]) = Ok (t', ans ++ ans').
Proof.
  unfold client. destruct mkTrie as [t0| | |]; cbn; try discriminate. revert t0 ans. induction ops as [|p ops IH]; intros t0 ans; cbn [run app].
  - intros [= -> <-] S. rewrite S. cbn. now rewrite app_nil_r.
  - destruct (step f t0 p) as [[t1 a]| | |]; cbn; try discriminate. destruct (run f t1 ops) as [[t2 b]| | |] eqn:R; cbn; try discriminate.
    intros [= -> <-] S. rewrite (IH t1 b R S). cbn. now rewrite app_assoc.
Qed.

(** the counted operations are the operations *)
Theorem C121_counts : forall f ops, erase (clientC f ops) = client f ops.
Proof. exact er_client. Qed.

(** [contain] and [remove] look at a number of cells that depends on the word only, whatever
    the trie holds and however large it is; they copy the word twice and one kept string *)
Theorem C121_contain : forall f t w b cells copied, containC f t w = Ok (b, (cells, copied)) ->
  cells <= 3 * Z.of_nat (length w) + 4 /\ copied <= 2 * Z.of_nat (length w) + 2 + longest (tail t).
Proof. intros f t w b x y H. apply (contain_cost f f) in H. lia. Qed.
Theorem C121_remove : forall f t w t' cells copied, removeC f t w = Ok (t', (cells, copied)) ->
  cells <= 3 * Z.of_nat (length w) + 6 /\ copied <= 2 * Z.of_nat (length w) + 2 + longest (tail t).
Proof. intros f t w b x y H. apply (removeC_cost f f) in H. lia. Qed.

(** [insert] may search the whole array for each character *)
Theorem C121_insert : forall f ops t ans w t' cells copied, (forall c n, f c = Ok n -> n <= 27) -> client f ops = Ok (t, ans) ->
  insertC f f t w = Ok (t', (cells, copied)) ->
  let total := letters ops + inserts ops + Z.of_nat (length w) + 1 in
  cells <= (Z.of_nat (length w) + 30) * (54 * total + 39) + 2466 /\ copied <= 7 * Z.of_nat (length w) + 7 + 4 * letters ops.
Proof.
  intros f ops t ans w t' x y F C H total. pose proof (er_ok _ _ _ _ (er_insertC f f t w) H) as I.
  assert (S : step f t (Insert w) = Ok (t', [])) by (cbn [step]; rewrite I; reflexivity).
  destruct (client_bnd f F _ _ _ (client_snoc f ops t ans _ _ _ C S)) as [(_ & B2 & _) _]. rewrite letters_app, inserts_app in B2. cbn [letters inserts] in B2.
  destruct (client_bnd f F _ _ _ C) as [_ (_ & _ & T3 & _)]. pose proof (longest_chars (tail t)). apply insertC_cost in H. destruct H as (_ & H1 & H2). unfold clen in H1.
  split; [|lia]. eapply Z.le_trans; [exact (proj2 H1)|]. apply Z.add_le_mono_r. apply Z.mul_le_mono_nonneg_l; [lia|]. subst total. lia.
Qed.

(** and does: two words of [n] and [n + 1] letters cost at least n*n/2 accesses *)
Definition long (n : nat) : list op := [Insert (repeat "a" n); Insert (repeat "a" n ++ ["b"])]%char.
Theorem C121_quadratic : forall n, exists t cells copied, clientC mapChar (long n) = Ok ((t, []), (cells, copied)) /\
  Z.of_nat n * Z.of_nat n <= 2 * cells.
Proof.
  intros n. assert (LA : lower "a"%char) by (vm_compute; split; discriminate). assert (LB : lower "b"%char) by (vm_compute; split; discriminate).
  assert (FR : Forall lower (repeat "a"%char n)) by (apply Forall_forall; intros c I; apply repeat_spec in I; now subst c).
  assert (O : over lower (long n)).
  { repeat constructor; cbn [op_word]; [exact FR|]. apply Forall_app. split; [exact FR|]. now constructor. }
  destruct (client_ok mapChar lower lower_adapter (long n) O) as [(t & E & R)|[_ N]]; [|exfalso; apply N; cbn; auto].
  change (answers [] (long n)) with (@nil bool) in E. pose proof E as E'. rewrite <- er_client in E'. apply er_back in E'. destruct E' as (x & y & E').
  exists t, x, y. split; [exact E'|]. destruct n as [|m].
  - change (Z.of_nat 0) with 0. assert (0 <= x); [|lia]. clear - E'. unfold clientC in E'. vm_compute in E'. injection E' as _ <- _. lia.
  - destruct (first_insert (repeat "a"%char m)) as (t0 & x0 & y0 & M & I & X0 & _). unfold clientC, long in E'. rewrite M in E'.
    cst E' t00 A0. cbn [runC stepC] in E'. cst E' ta A1. cst A1 t1 A2. change (repeat "a"%char (S m)) with ("a"%char :: repeat "a"%char m) in *. rewrite I in A2.
    injection A2 as <- <- <-. cfin A1. subst ta. cbn [fst snd] in E'. cst E' tb A3. cfin E'. cst A3 tc A4. cst A4 t2 A5. cfin A4. cst A3 td A6. cfin A3. cfin A6.
    cbn [app] in A5. apply second_insert in A5. rewrite Nat2Z.inj_succ. unfold Z.succ. lia.
Qed.
Theorem C121_insert_linear_refuted : forall k, exists ops t cells copied, over lower ops /\
  clientC mapChar ops = Ok ((t, []), (cells, copied)) /\ k * (letters ops + inserts ops) < cells.
Proof.
  intros k. set (K := Z.max 0 k). set (n := Z.to_nat (4 * K + 8)). destruct (C121_quadratic n) as (t & x & y & E & Q). exists (long n), t, x, y.
  split; [|split; [exact E|]].
  - assert (FR : Forall lower (repeat "a"%char n)) by (apply Forall_forall; intros c I; apply repeat_spec in I; subst c; vm_compute; split; discriminate).
    repeat constructor; cbn [op_word]; [exact FR|]. apply Forall_app. split; [exact FR|]. constructor; [vm_compute; split; discriminate|constructor].
  - unfold long. cbn [letters inserts]. rewrite app_length, !repeat_length. cbn [length]. rewrite Nat2Z.inj_add.
    assert (N : Z.of_nat n = 4 * K + 8) by (unfold n, K; lia). rewrite N in *. change (Z.of_nat 1) with 1.
    assert (K1 : k * (4 * K + 8 + (4 * K + 8 + 1 + 0) + (1 + (1 + 0))) <= K * (4 * K + 8 + (4 * K + 8 + 1 + 0) + (1 + (1 + 0)))) by (apply Z.mul_le_mono_nonneg_r; unfold K; lia).
    eapply Z.le_lt_trans; [exact K1|]. assert (0 <= K) by (unfold K; lia). clearbody K. clear - Q H. nia.
Qed.
(** one lookup of two letters copies as much as a single earlier word was long *)
Theorem C121_copies_refuted : forall k, exists ops t ans b cells copied, over lower ops /\ client mapChar ops = Ok (t, ans) /\
  containC mapChar t ["a"; "c"]%char = Ok (b, (cells, copied)) /\ k < copied.
Proof.
  intros k. set (n := Z.to_nat (Z.max 0 k)). destruct (first_insert (repeat "b"%char n)) as (t0 & x0 & y0 & M & I & _ & _).
  destruct (second_contain (repeat "b"%char n ++ [endChar]) "a"%char ["c"%char] eq_refl ltac:(discriminate)) as (b & C & _).
  exists [Insert ("a"%char :: repeat "b"%char n)], (single (repeat "b"%char n ++ [endChar])), [], b. eexists _, _. split; [|split; [|split; [exact C|]]].
  - repeat constructor; try (vm_compute; discriminate). apply Forall_forall. intros c J. apply repeat_spec in J. subst c. vm_compute. split; discriminate.
  - unfold client. rewrite M. cbn [bind run step]. pose proof (er_ok _ _ _ _ (er_insertC mapChar mapChar t0 _) I) as E. rewrite E. reflexivity.
  - rewrite app_length, repeat_length. cbn [length]. unfold n. lia.
Qed.

(** the work of three calls after a few insertions, and of [long 5] *)
Definition cost_ops : list op := [Insert ["a"; "b"]; Insert ["a"; "c"]; Insert ["b"]; Remove ["a"; "b"]]%char.
Example C121_example :
  (forall c n, mapChar c = Ok n -> n <= 27) /\ letters cost_ops = 5 /\ inserts cost_ops = 3 /\
  match client mapChar cost_ops with
  | Ok (t, _) => longest (tail t) = 1 /\ containC mapChar t ["a"; "c"]%char = Ok (true, (7, 5)) /\ omap snd (removeC mapChar t ["a"; "c"]%char) = Ok (9, 5) /\
      omap snd (insertC mapChar mapChar t ["a"; "c"; "d"]%char) = Ok (24, 16)
  | _ => False
  end /\
  omap snd (clientC mapChar (long 5)) = Ok (55, 64).
Proof.
  split; [|vm_compute; repeat split; reflexivity]. intros c n. unfold mapChar. destruct (Ascii.eqb c endChar); [intros [= <-]; lia|].
  destruct (Z.ltb_spec (charZ c) 97); [discriminate|]. destruct (Z.ltb_spec 122 (charZ c)); [discriminate|]. cbn. intros [= <-]. lia.
Qed.
Print Assumptions C121_counts.
Print Assumptions C121_contain.
Print Assumptions C121_remove.
Print Assumptions C121_insert.
Print Assumptions C121_quadratic.
Print Assumptions C121_insert_linear_refuted.
Print Assumptions C121_copies_refuted.
Print Assumptions C121_example.
