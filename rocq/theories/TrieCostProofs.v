(** The work of the operations of a trie. *)
From Verif Require Import Base TrieModel TrieSpec TrieProofs TrieOpsProofs TrieMemSpec TrieMemProofs TrieCostModel TrieCostSpec.
Local Open Scope Z_scope.

(** ** forgetting the counters gives the model back *)
Lemma er_andthen {A B} (m : counted A) (k : A -> counted B) : erase (andthen m k) = a <- erase m ;; erase (k a).
Proof. unfold erase, andthen. destruct m as [[a [x y]]| | |]; cbn; try reflexivity. destruct (k a) as [[b [x' y']]| | |]; reflexivity. Qed.
Lemma er_free {A} (m : outcome A) : erase (free m) = m. Proof. destruct m; reflexivity. Qed.
Lemma er_one {A} (m : outcome A) : erase (one m) = m. Proof. destruct m; reflexivity. Qed.
Lemma er_made m : erase (made m) = m. Proof. destruct m; reflexivity. Qed.
Lemma er_stored {A} s (m : outcome A) : erase (stored s m) = m. Proof. destruct m; reflexivity. Qed.
Lemma er_ret {A} (a : A) : erase (ret a) = Ok a. Proof. reflexivity. Qed.
Lemma bind_ext {A B} (m m' : outcome A) (k k' : A -> outcome B) : m = m' -> (forall a, m = Ok a -> k a = k' a) -> bind m k = bind m' k'.
Proof. intros <- H. destruct m; cbn; auto. Qed.
Lemma bind_id {A} (m : outcome A) : (x <- m ;; Ok x) = m. Proof. destruct m; reflexivity. Qed.
Ltac er := repeat first [rewrite er_andthen | rewrite er_free | rewrite er_one | rewrite er_made | rewrite er_stored | rewrite er_ret | progress cbn [bind]].
Ltac nx := first [reflexivity | apply bind_ext; [|intros; er]].

Section Maps.
Context (smap omap : ascii -> outcome Z).
Lemma er_retrieve t l : forall n, erase (retrieve_loopC smap t n l) = retrieve_loop smap t n l.
Proof.
  induction l as [|ch rest IH]; intros n; cbn [retrieve_loopC retrieve_loop]; [reflexivity|]. er.
  nx; [reflexivity|]. nx; [reflexivity|]. nx; [reflexivity|]. destruct (negb _); [reflexivity|]. er. nx; [reflexivity|].
  destruct (_ <? -1); [|apply IH]. destruct rest; [reflexivity|]. er. nx; [reflexivity|]. nx; reflexivity.
Qed.
Lemma er_all_free c q l : erase (all_freeC c q l) = all_free c q l.
Proof. induction l as [|j l IH]; cbn [all_freeC all_free]; [reflexivity|]. er. nx; [reflexivity|]. destruct (_ =? _); [apply IH|reflexivity]. Qed.
Lemma er_avail f c l : forall q, erase (avail_loopC f c q l) = avail_loop f c q l.
Proof.
  induction f as [|f IH]; intros q; cbn [avail_loopC avail_loop]; [reflexivity|]. er. rewrite er_all_free. nx; [reflexivity|].
  destruct a; [reflexivity|apply IH].
Qed.
Lemma er_check t l : erase (checkAvailableC t l) = checkAvailable t l. Proof. apply er_avail. Qed.
Lemma er_arcs k t n bn : forall i, erase (arcs_loopC k t n bn i) = arcs_loop k t n bn i.
Proof. induction k as [|k IH]; intros i; cbn [arcs_loopC arcs_loop]; [reflexivity|]. er. nx; [reflexivity|]. rewrite IH. nx; reflexivity. Qed.
Lemma er_out t n : erase (outArcsC t n) = outArcs t n.
Proof. unfold outArcsC, outArcs. er. nx; [reflexivity|]. apply er_arcs. Qed.
Lemma er_setTail t n x r : erase (setTailC t n x r) = setTail t n x r.
Proof. unfold setTailC, setTail. destruct (nextTail t). er. nx; [reflexivity|]. nx; reflexivity. Qed.
Lemma er_chain l : forall t x, erase (chain_loopC smap t x l) = chain_loop smap t x l.
Proof.
  induction l as [|c l IH]; intros t x; cbn [chain_loopC chain_loop]; [reflexivity|]. er. nx; [reflexivity|]. rewrite er_check.
  nx; [reflexivity|]. nx; [reflexivity|]. nx; [reflexivity|]. nx; [reflexivity|]. apply IH.
Qed.
Lemma er_split t x r : erase (split_leafC smap omap t x r) = split_leaf smap omap t x r.
Proof.
  unfold split_leafC, split_leaf. er. nx; [reflexivity|]. nx; [reflexivity|]. rewrite er_chain. nx; [reflexivity|]. destruct a1 as [t1 x1]. er.
  nx; [reflexivity|]. nx; [reflexivity|]. nx; [reflexivity|]. nx; [reflexivity|]. rewrite er_check. nx; [reflexivity|]. nx; [reflexivity|]. 
  nx; [|]. { destruct (Ascii.eqb _ _); er; nx; reflexivity. }
  nx; [reflexivity|]. nx; [|reflexivity]. match goal with |- erase (if ?c then _ else _) = _ => destruct c end; er; [reflexivity|].
  match goal with |- context [nextTail ?u] => destruct (nextTail u) end. er. nx; reflexivity.
Qed.
Lemma er_reparent l : forall t o n, erase (reparent_loopC t o n l) = reparent_loop t o n l.
Proof. induction l as [|c l IH]; intros t o n; cbn [reparent_loopC reparent_loop]; [reflexivity|]. er. nx; [reflexivity|]. nx; [reflexivity|]. apply IH. Qed.
Lemma er_move l : forall t a b o, erase (move_loopC t a b o l) = move_loop t a b o l.
Proof.
  induction l as [|c l IH]; intros t a b o; cbn [move_loopC move_loop]; [reflexivity|]. er. do 5 (nx; [reflexivity|]).
  nx; [|]. { destruct (_ >? -1); er; [|reflexivity]. rewrite er_out. nx; [reflexivity|]. apply er_reparent. }
  nx; [reflexivity|]. nx; [reflexivity|]. apply IH.
Qed.
Lemma er_resolve t n x i r : erase (resolve_conflictC t n x i r) = resolve_conflict t n x i r.
Proof.
  unfold resolve_conflictC, resolve_conflict. er. rewrite er_out. nx; [reflexivity|]. nx; [reflexivity|]. rewrite er_out. nx; [reflexivity|].
  nx; [|]. { destruct (Nat.ltb _ _); er. - rewrite er_check. nx; reflexivity. - rewrite H0. cbn [bind]. er. rewrite er_check. nx; reflexivity. }
  destruct a2 as [[nm ml] nb]. er. nx; [reflexivity|]. nx; [reflexivity|]. rewrite er_move. nx; [reflexivity|]. destruct a4 as [t2 no]. er.
  nx; [reflexivity|]. nx; [|reflexivity]. destruct (i =? 1); er; [reflexivity|]. destruct (nextTail t2). er. nx; reflexivity.
Qed.
Lemma er_insert l : forall t n, erase (insert_loopC smap omap t n l) = insert_loop smap omap t n l.
Proof.
  induction l as [|ch rest IH]; intros t n; cbn [insert_loopC insert_loop]; [reflexivity|]. er. nx; [reflexivity|]. nx; [reflexivity|]. nx; [reflexivity|].
  destruct (_ =? -1); er; [apply er_setTail|]. nx; [reflexivity|]. destruct (_ =? n); er.
  - nx; [reflexivity|]. destruct (_ <? -1); er; [apply er_split|]. rewrite H2. cbn [bind]. apply IH.
  - rewrite H2. cbn [bind]. apply er_resolve.
Qed.
Lemma er_remove l : forall t n, erase (remove_loopC smap t n l) = remove_loop smap t n l.
Proof.
  induction l as [|ch rest IH]; intros t n; cbn [remove_loopC remove_loop]; er; [nx; reflexivity|]. nx; [reflexivity|]. nx; [reflexivity|]. nx; [reflexivity|].
  destruct (negb _); [reflexivity|]. er. nx; [reflexivity|]. destruct (_ <? -1); [|apply IH]. er. rewrite H2. cbn [bind]. er. nx; [reflexivity|].
  destruct (list_eq_dec _ _ _); [|reflexivity]. er. nx; [reflexivity|]. nx; reflexivity.
Qed.
Lemma er_containC t w : erase (containC smap t w) = contain smap t w.
Proof. unfold containC, contain. er. apply er_retrieve. Qed.
Lemma er_insertC t w : erase (insertC smap omap t w) = insert smap omap t w.
Proof. unfold insertC, insert. er. rewrite er_containC. nx; [reflexivity|]. destruct a; [reflexivity|]. er. rewrite er_insert. nx; reflexivity. Qed.
Lemma er_removeC t w : erase (removeC smap t w) = remove smap t w.
Proof. unfold removeC, remove. er. rewrite er_remove. nx; [reflexivity|]. destruct a. reflexivity. Qed.
End Maps.
Lemma er_step f t o : erase (stepC f t o) = step f t o.
Proof. destruct o; cbn [stepC step]; er; rewrite ?er_insertC, ?er_removeC, ?er_containC; nx; reflexivity. Qed.
Lemma er_run f ops : forall t, erase (runC f t ops) = run f t ops.
Proof.
  induction ops as [|o ops IH]; intros t; cbn [runC run]; [reflexivity|]. er. rewrite er_step. nx; [reflexivity|]. destruct a as [t1 a]. cbn [fst snd].
  rewrite IH. nx; [reflexivity|]. destruct a0. reflexivity.
Qed.
Lemma er_client f ops : erase (clientC f ops) = client f ops.
Proof. unfold clientC, client. er. nx; [reflexivity|]. apply er_run. Qed.
Lemma er_ok {A} (m : counted A) m' a c : erase m = m' -> m = Ok (a, c) -> m' = Ok a.
Proof. intros <- ->. reflexivity. Qed.

(** ** inversion *)
Lemma cinv {A B} (m : counted A) (k : A -> counted B) b x y : andthen m k = Ok (b, (x, y)) ->
  exists a x1 y1 x2 y2, m = Ok (a, (x1, y1)) /\ k a = Ok (b, (x2, y2)) /\ x = x1 + x2 /\ y = y1 + y2.
Proof.
  unfold andthen. destruct m as [[a [x1 y1]]| | |]; cbn; try discriminate. destruct (k a) as [[b' [x2 y2]]| | |] eqn:E; cbn; try discriminate.
  intros [= <- <- <-]. exists a, x1, y1, x2, y2. auto.
Qed.
Lemma one_inv {A} (m : outcome A) a x y : one m = Ok (a, (x, y)) -> m = Ok a /\ x = 1 /\ y = 0.
Proof. destruct m; cbn; try discriminate. intros [= <- <- <-]. auto. Qed.
Lemma free_inv {A} (m : outcome A) a x y : free m = Ok (a, (x, y)) -> m = Ok a /\ x = 0 /\ y = 0.
Proof. destruct m; cbn; try discriminate. intros [= <- <- <-]. auto. Qed.
Lemma made_inv m a x y : made m = Ok (a, (x, y)) -> m = Ok a /\ x = 0 /\ y = Z.of_nat (length a).
Proof. destruct m; cbn; try discriminate. intros [= <- <- <-]. auto. Qed.
Lemma stored_inv {A} s (m : outcome A) a x y : stored s m = Ok (a, (x, y)) -> m = Ok a /\ x = 0 /\ y = Z.of_nat (length s).
Proof. destruct m; cbn; try discriminate. intros [= <- <- <-]. auto. Qed.
Lemma ret_inv {A} (b a : A) x y : ret b = Ok (a, (x, y)) -> a = b /\ x = 0 /\ y = 0.
Proof. unfold ret. intros [= <- <- <-]. auto. Qed.
Lemma Ok_inj {A} (a b : A) : Ok a = Ok b -> a = b. Proof. congruence. Qed.
(** take one step of a computation in [H] apart *)
Ltac cst H a E := apply cinv in H; let x1 := fresh "x" in let y1 := fresh "y" in let x2 := fresh "x" in let y2 := fresh "y" in
  let E1 := fresh "X" in let E2 := fresh "Y" in
  destruct H as (a & x1 & y1 & x2 & y2 & E & H & E1 & E2);
  try (first [apply one_inv in E | apply free_inv in E | apply made_inv in E | apply stored_inv in E];
       let E3 := fresh "X" in let E4 := fresh "Y" in destruct E as (E & E3 & E4); try (match type of E with Ok _ = _ => apply Ok_inj in E; subst a end)).
Ltac cfin H := first [apply one_inv in H | apply free_inv in H | apply made_inv in H | apply stored_inv in H | apply ret_inv in H];
  let E3 := fresh "X" in let E4 := fresh "Y" in destruct H as (H & E3 & E4).

Lemma longest_in s l : In s l -> Z.of_nat (length s) <= longest l.
Proof. induction l as [|a l IH]; cbn; [tauto|]. fold (longest l). intros [->|I]; [lia|]. apply IH in I. lia. Qed.
Lemma longest_nonneg l : 0 <= longest l.
Proof. destruct l; cbn; [lia|]. fold (longest l). induction l; cbn; [lia|]. fold (longest l). lia. Qed.
Lemma longest_chars l : longest l <= chars l.
Proof. induction l; cbn; [lia|]. fold (longest l) (chars l). pose proof (chars_nonneg l). lia. Qed.
Lemma tgetc_len a p s : tgetc a p = Ok s -> Z.of_nat (length s) <= longest a.
Proof.
  unfold tgetc, getWithCheck. destruct (_ <? _); intros H; [|injection H as <-; cbn; apply longest_nonneg].
  apply aget_inv in H. now apply longest_in.
Qed.
Lemma aget_len (a : list bytes) p s : aget a p = Ok s -> Z.of_nat (length s) <= longest a.
Proof. intros H. apply aget_inv in H. now apply longest_in. Qed.

Section Bounds.
Context (smap omap : ascii -> outcome Z).

Lemma retrieve_cost t l : forall n b x y, retrieve_loopC smap t n l = Ok (b, (x, y)) ->
  0 <= x <= 3 * Z.of_nat (length l) + 1 /\ 0 <= y <= Z.of_nat (length l) + longest (tail t).
Proof.
  pose proof (longest_nonneg (tail t)) as L.
  induction l as [|ch rest IH]; intros n b x y H; cbn [retrieve_loopC] in H; [cfin H; cbn; lia|]. cbn [length].
  cst H i E1. cst H bn E2. cst H c E3. destruct (negb _); [cfin H; lia|]. cst H b1 E4. destruct (_ <? -1).
  - destruct rest as [|r rest]; [cfin H; lia|]. cst H b2 E5. cst H s E6. cst H r0 E7. cfin H. apply tgetc_len in E6. cbn [length] in *. lia.
  - apply IH in H. lia.
Qed.
Lemma contain_cost t w b x y : containC smap t w = Ok (b, (x, y)) ->
  0 <= x <= 3 * Z.of_nat (length w) + 4 /\ 0 <= y <= 2 * Z.of_nat (length w) + 2 + longest (tail t).
Proof. unfold containC. intros H. cst H s E. apply retrieve_cost in H. rewrite app_length in *. cbn [length] in *. lia. Qed.

Lemma remove_cost l : forall t n r x y, remove_loopC smap t n l = Ok (r, (x, y)) ->
  0 <= x <= 3 * Z.of_nat (length l) + 3 /\ 0 <= y <= Z.of_nat (length l) + longest (tail t).
Proof.
  induction l as [|ch rest IH]; intros t n r x y H; cbn [remove_loopC] in H; pose proof (longest_nonneg (tail t)) as L; [cst H t1 E; cfin H; cbn; lia|]. cbn [length].
  cst H i E1. cst H bn E2. cst H c E3. destruct (negb _); [cfin H; lia|]. cst H b1 E4. destruct (_ <? -1).
  - cst H b2 E5. cst H s E6. cst H r0 E7. apply tgetc_len in E6. destruct (list_eq_dec _ _ _); [|cfin H; lia]. cst H t1 E8. cst H t2 E9. cfin H. lia.
  - apply IH in H. lia.
Qed.
Lemma removeC_cost t w r x y : removeC smap t w = Ok (r, (x, y)) ->
  0 <= x <= 3 * Z.of_nat (length w) + 6 /\ 0 <= y <= 2 * Z.of_nat (length w) + 2 + longest (tail t).
Proof.
  unfold removeC. intros H. cst H s E. cst H tr E2. destruct tr as [t1 r1]. cfin H. apply remove_cost in E2. rewrite app_length in *. cbn [length] in *. lia.
Qed.

Lemma all_free_cost c q l : forall b x y, all_freeC c q l = Ok (b, (x, y)) -> 0 <= x <= Z.of_nat (length l) /\ y = 0.
Proof.
  induction l as [|j l IH]; intros b x y H; cbn [all_freeC] in H; [cfin H; cbn; lia|]. cbn [length]. cst H v E. destruct (_ =? _); [apply IH in H|cfin H]; lia.
Qed.
Lemma avail_cost f c l : forall q r x y, avail_loopC f c q l = Ok (r, (x, y)) -> 0 <= x <= Z.of_nat f * Z.of_nat (length l) /\ y = 0.
Proof.
  induction f as [|f IH]; intros q r x y H; cbn [avail_loopC] in H; [discriminate|]. cst H b E. apply all_free_cost in E.
  rewrite Nat2Z.inj_succ. assert (0 <= Z.of_nat f * Z.of_nat (length l)) by (apply Z.mul_nonneg_nonneg; lia).
  destruct b; [cfin H|apply IH in H]; lia.
Qed.
Lemma check_cost t l r x y : checkAvailableC t l = Ok (r, (x, y)) -> 0 <= x <= (Z.of_nat (length (check t)) + 1) * Z.of_nat (length l) /\ y = 0.
Proof. unfold checkAvailableC. intros H. apply avail_cost in H. rewrite Nat2Z.inj_succ in H. lia. Qed.
Lemma arcs_cost k t n bn : forall i l x y, arcs_loopC k t n bn i = Ok (l, (x, y)) -> x = Z.of_nat k /\ y = 0 /\ Z.of_nat (length l) <= Z.of_nat k.
Proof.
  induction k as [|k IH]; intros i l x y H; cbn [arcs_loopC] in H; [cfin H; subst; cbn; lia|]. cst H c E. cst H r E2. apply IH in E2. cfin H. subst l.
  destruct (c =? n); cbn [length]; lia.
Qed.
Lemma out_cost t n l x y : outArcsC t n = Ok (l, (x, y)) -> x = 28 /\ y = 0 /\ Z.of_nat (length l) <= 27.
Proof. unfold outArcsC. intros H. cst H b E. apply arcs_cost in H. lia. Qed.

Definition clen (t : trie) : Z := Z.of_nat (length (check t)).
Lemma setTail_cost t n z r t' x y : setTailC t n z r = Ok (t', (x, y)) -> x = 2 /\ y = Z.of_nat (length r).
Proof. unfold setTailC. destruct (nextTail t). intros H. cst H t1 E1. cst H t2 E2. cfin H. lia. Qed.
Lemma chain_cost l : forall t z t' z' x y, chain_loopC smap t z l = Ok ((t', z'), (x, y)) -> clen t <= clen t' /\
  0 <= x <= Z.of_nat (length l) * (clen t' + 4) /\ y = 0.
Proof.
  induction l as [|c l IH]; intros t z t' z' x y H.
  - cbn [chain_loopC] in H. cfin H. injection H as <- <-. cbn. lia.
  - pose proof (er_ok _ _ _ _ (er_chain smap (c :: l) t z) H) as M. apply chain_mono in M. cbn [chain_loopC] in H. cst H j E1. cst H a E2. cst H t1 E3. cst H t2 E4. cst H b E5.
    apply IH in H. apply check_cost in E2. cbn [length] in E2. apply setb_mono in E3. apply setc_mono in E4. unfold mono, clen in *. cbn [length].
    rewrite Nat2Z.inj_succ. set (K := Z.of_nat (length (check t'))) in *. set (n := Z.of_nat (length l)) in *. 
    destruct H as (H1 & H2 & H3). split; [lia|]. split; [|lia]. replace (Z.succ n * (K + 4)) with (n * (K + 4) + K + 4) by ring. lia.
Qed.
Lemma skipn_len {A} k (l : list A) : Z.of_nat (length (skipn k l)) <= Z.of_nat (length l).
Proof. rewrite skipn_length. lia. Qed.
Lemma common_len a b : Z.of_nat (length (common a b)) <= Z.of_nat (length a) /\ Z.of_nat (length (common a b)) <= Z.of_nat (length b).
Proof. revert b. induction a as [|c a IH]; intros [|d b]; cbn; try lia. destruct (Ascii.eqb c d); cbn; [|lia]. specialize (IH b). lia. Qed.
Lemma prefix_len a b : Z.of_nat (length (commonPrefix a b)) <= Z.of_nat (length a).
Proof.
  unfold commonPrefix. destruct (Nat.ltb_spec (length b) (length a)).
  - pose proof (common_len b a). destruct (Nat.eqb _ _); [destruct (Nat.eqb _ _); cbn; lia|lia].
  - pose proof (common_len a b). destruct (Nat.eqb _ _); [destruct (Nat.eqb _ _); cbn; lia|lia].
Qed.
Lemma split_cost t z r t' x y : split_leafC smap omap t z r = Ok (t', (x, y)) -> clen t <= clen t' /\
  0 <= x <= (Z.of_nat (length r) + 2) * (clen t' + 4) + 6 /\ 0 <= y <= 4 * Z.of_nat (length r) + 3 * longest (tail t).
Proof.
  intros H. unfold split_leafC in H. cst H b E1. cst H s E2. cst H r0 E3. cst H p E4. cst H tn E5. destruct tn as [t1 z1].
  pose proof (aget_len _ _ _ E2) as LS. pose proof (prefix_len r s) as LP.
  cst H ct E6. cst H vt E7. cst H cn E8. cst H vn E9. cst H q E10. cst H t2 E11. cst H t3 E12. cst H t4 E13. cst H t5 E14. cfin H.
  apply chain_cost in E5. destruct E5 as (K1 & K2 & K3). apply check_cost in E10. cbn [length] in E10.
  apply setb_mono in E11. apply setc_mono in E13. apply setc_mono in H.
  match type of E12 with _ = Ok (_, (?a, ?b)) => assert (M12 : mono t2 t3 /\ a = 1 /\ 0 <= b <= 2 * longest (tail t)) end.
  { pose proof (skipn_len (S (length (commonPrefix r s))) s) as SL. destruct (Ascii.eqb ct endChar).
    - cst E12 t6 F1. cfin E12. subst t3. apply setb_mono in F1. unfold mono in *. cbn [base check tail]. lia.
    - cst E12 t6 F1. cst E12 s1 F2. cfin E12. apply setb_mono in F1. apply sett_mono in E12. unfold mono, bytes in *. lia. }
  match type of E14 with _ = Ok (_, (?a, ?b)) => assert (M14 : mono t4 t5 /\ a = 1 /\ 0 <= b <= 2 * Z.of_nat (length r)) end.
  { pose proof (skipn_len (S (length (commonPrefix r s))) r) as SL. destruct (Ascii.eqb cn endChar).
    - cfin E14. apply setb_mono in E14. unfold mono in *. lia.
    - destruct (nextTail t4) as [t6 p6] eqn:N. apply nextTail_mono in N. cst E14 t7 F1. cst E14 s1 F2. cfin E14. apply setb_mono in F1. apply sett_mono in E14. unfold mono in *. lia. }
  clear E12 E14. unfold mono, clen in *. set (K := Z.of_nat (length (check t'))) in *. set (K1' := Z.of_nat (length (check t1))) in *.
  assert (KK : K1' <= K) by lia. split; [lia|]. split; [|lia].
  assert (Z.of_nat (length (commonPrefix r s)) * (K1' + 4) <= Z.of_nat (length r) * (K + 4)) by (apply Z.mul_le_mono_nonneg; lia).
  rewrite Z.mul_add_distr_r. lia.
Qed.
Lemma reparent_cost l : forall t o n t' x y, reparent_loopC t o n l = Ok (t', (x, y)) -> clen t <= clen t' /\ x = 2 * Z.of_nat (length l) /\ y = 0.
Proof.
  induction l as [|c l IH]; intros t o n t' x y H; cbn [reparent_loopC] in H; [cfin H; subst t'; cbn; lia|]. cbn [length]. cst H b E1. cst H t1 E2. apply IH in H. apply setc_mono in E2.
  unfold mono, clen in *. lia.
Qed.
Lemma move_cost l : forall t a b o t' o' x y, move_loopC t a b o l = Ok ((t', o'), (x, y)) -> clen t <= clen t' /\ 0 <= x <= 89 * Z.of_nat (length l) /\ y = 0.
Proof.
  induction l as [|c l IH]; intros t a b o t' o' x y H; cbn [move_loopC] in H; [cfin H; injection H as <- <-; cbn; lia|]. cbn [length].
  cst H b1 E1. cst H t1 E2. cst H c1 E3. cst H t2 E4. cst H b2 E5. cst H t3 E6. cst H t4 E7. cst H t5 E8. apply IH in H.
  apply setb_mono in E2, E7. apply setc_mono in E4, E8.
  match type of E6 with _ = Ok (_, (?u, ?v)) => assert (M6 : clen t2 <= clen t3 /\ 0 <= u <= 82 /\ v = 0) end.
  { destruct (_ >? -1).
    - cst E6 ll F1. apply out_cost in F1. apply reparent_cost in E6. lia.
    - cfin E6. subst t3. lia. }
  unfold mono, clen in *. lia.
Qed.
Lemma resolve_cost t n z i r t' x y : resolve_conflictC t n z i r = Ok (t', (x, y)) -> clen t <= clen t' /\
  0 <= x <= 28 * (clen t' + 1) + 2466 /\ 0 <= y <= 2 * Z.of_nat (length r).
Proof.
  intros H. unfold resolve_conflictC in H. cst H ln E1. cst H m E2. cst H lc E3. cst H nmb E4. destruct nmb as [[nm ml] nb]. cst H tb E5. cst H t1 E6.
  cst H tn E7. destruct tn as [t2 no]. cst H b E8. cst H t3 E9. cfin H. apply out_cost in E1. apply out_cost in E3. apply move_cost in E7. apply setb_mono in E6. apply setc_mono in H.
  match type of E4 with _ = Ok (_, (?u, ?v)) => assert (M4 : Z.of_nat (length ml) <= 27 /\ 0 <= u <= 1 + (clen t + 1) * 28 /\ v = 0) end.
  { assert (C0 : 0 <= clen t) by (unfold clen; lia). destruct (Nat.ltb _ _).
    - cst E4 nb1 F1. cfin E4. injection E4 as -> -> ->. apply check_cost in F1. rewrite app_length in F1. cbn [length] in F1. fold (clen t) in F1.
      assert ((clen t + 1) * Z.of_nat (length ln + 1) <= (clen t + 1) * 28) by (apply Z.mul_le_mono_nonneg_l; lia). lia.
    - cst E4 m1 F0. cst E4 nb1 F1. cfin E4. injection E4 as -> -> ->. apply check_cost in F1. fold (clen t) in F1.
      assert ((clen t + 1) * Z.of_nat (length lc) <= (clen t + 1) * 28) by (apply Z.mul_le_mono_nonneg_l; lia). lia. }
  match type of E9 with _ = Ok (_, (?u, ?v)) => assert (M9 : clen t2 <= clen t3 /\ u = 1 /\ 0 <= v <= 2 * Z.of_nat (length r)) end.
  { destruct (i =? 1).
    - cfin E9. apply setb_mono in E9. unfold mono, clen in *. lia.
    - destruct (nextTail t2) as [t6 p6] eqn:N. apply nextTail_mono in N. cst E9 t7 F1. cst E9 s1 F2. cfin E9. apply setb_mono in F1. apply sett_mono in E9. unfold mono, clen in *. lia. }
  clear E4 E9. unfold mono, clen in *. lia.
Qed.
Lemma insert_loop_cost l : forall t n t' x y, insert_loopC smap omap t n l = Ok (t', (x, y)) -> clen t <= clen t' /\
  0 <= x <= (Z.of_nat (length l) + 28) * (clen t' + 9) + 2466 /\ 0 <= y <= 4 * Z.of_nat (length l) + 3 * longest (tail t).
Proof.
  assert (P : forall t' k, 0 <= k -> 0 <= k * (clen t' + 9)) by (intros; apply Z.mul_nonneg_nonneg; unfold clen; lia).
  induction l as [|ch rest IH]; intros t n t' x y H; cbn [insert_loopC] in H; pose proof (longest_nonneg (tail t)) as L0.
  - cfin H. subst t'. specialize (P t 28). cbn [length]. lia.
  - cbn [length]. assert (C0 : 0 <= clen t') by (unfold clen; lia).
    cst H i E1. cst H bn E2. cst H c E3. rewrite Nat2Z.inj_succ. set (k := Z.of_nat (length rest)) in *. assert (k0 : 0 <= k) by lia.
    pose proof (P t' k k0) as PK. replace ((Z.succ k + 28) * (clen t' + 9)) with (k * (clen t' + 9) + 29 * (clen t' + 9)) by ring.
    destruct (_ =? -1).
    + cst H s F. pose proof (er_ok _ _ _ _ (er_setTail t n (bn + i) rest) H) as M. apply setTail_mono in M. apply setTail_cost in H. unfold mono in M. unfold clen in *. lia.
    + cst H c1 E4. destruct (_ =? n).
      * cst H b E5. destruct (_ <? -1).
        -- apply split_cost in H. fold k in H. replace ((k + 2) * (clen t' + 4)) with (k * (clen t' + 9) - 5 * k + 2 * (clen t' + 4)) in H by ring. lia.
        -- cst H c2 E6. apply IH in H. rewrite Z.mul_add_distr_r in H. lia.
      * cst H c2 E6. apply resolve_cost in H. fold k in H. lia.
Qed.
Lemma insertC_cost t w t' x y : insertC smap omap t w = Ok (t', (x, y)) -> clen t <= clen t' /\
  0 <= x <= (Z.of_nat (length w) + 30) * (clen t' + 12) + 2466 /\ 0 <= y <= 7 * Z.of_nat (length w) + 7 + 4 * longest (tail t).
Proof.
  unfold insertC. intros H. assert (C0 : 0 <= clen t') by (unfold clen; lia). pose proof (longest_nonneg (tail t)) as L0.
  cst H c E1. apply contain_cost in E1. 
  assert (W : 0 <= Z.of_nat (length w) * (clen t' + 12)) by (apply Z.mul_nonneg_nonneg; lia).
  destruct c.
  - cfin H. subst t'. rewrite Z.mul_add_distr_r. assert (3 * Z.of_nat (length w) <= Z.of_nat (length w) * (clen t + 12)) by (rewrite Z.mul_comm; apply Z.mul_le_mono_nonneg_l; lia). lia.
  - cst H s E2. cst H t1 E3. cfin H. subst t'. apply insert_loop_cost in E3. rewrite app_length in E3. cbn [length] in E3. rewrite Nat2Z.inj_add in E3. rewrite app_length in *. cbn [length] in *.
    change (clen (with_size t1 (size t1 + 1))) with (clen t1) in *. set (k := Z.of_nat (length w)) in *.
    replace ((k + Z.of_nat 1 + 28) * (clen t1 + 9)) with ((k + 30) * (clen t1 + 12) - 3 * (k + 30) - (clen t1 + 9)) in E3 by (change (Z.of_nat 1) with 1; ring). lia.
Qed.
End Bounds.

(** ** a single word in a new trie *)
Definition single (rest : bytes) : trie :=
  Trie (0 :: -1 :: -2 :: repeat (-1) 23) (-1 :: -1 :: 0 :: repeat (-1) 23) [rest] 1 [] 1.
Lemma er_back {A} (m : counted A) a : erase m = Ok a -> exists x y, m = Ok (a, (x, y)).
Proof. destruct m as [[a' [x y]]| | |]; cbn; try discriminate. intros [= ->]. eauto. Qed.
Lemma first_insert r : exists t0 x y, mkTrie = Ok t0 /\ insertC mapChar mapChar t0 ("a"%char :: r) = Ok (single (r ++ [endChar]), (x, y)) /\ 0 <= x /\ 0 <= y.
Proof.
  assert (E : forall t0, mkTrie = Ok t0 -> insert mapChar mapChar t0 ("a"%char :: r) = Ok (single (r ++ [endChar]))).
  { intros t0 E. vm_compute in E. injection E as <-. cbv - [app endChar]. reflexivity. }
  assert (M : exists t0, mkTrie = Ok t0) by (vm_compute; eauto). destruct M as [t0 M].
  specialize (E t0 M). rewrite <- er_insertC in E. apply er_back in E. destruct E as (x & y & E). exists t0, x, y. split; [exact M|]. split; [exact E|].
  apply insertC_cost in E. lia.
Qed.
Lemma second_contain s c r : mapChar c = Ok 2 -> r <> [] ->
  exists b, containC mapChar (single s) (c :: r) = Ok (b, (4, Z.of_nat (length r) + 2 + (Z.of_nat (length s) + (Z.of_nat (length r) + 1)))) /\
    (b = true <-> s = r ++ [endChar]).
Proof.
  intros C N. unfold containC. cbn [app]. assert (E : exists d v, r ++ [endChar] = d :: v) by (destruct r as [|d r]; [contradiction|]; now exists d, (r ++ [endChar])).
  assert (L : Z.of_nat (length (r ++ [endChar])) = Z.of_nat (length r) + 1) by (rewrite app_length; cbn; lia).
  destruct E as (d & v & E). rewrite E in *. unfold made at 1. cbn [bind]. unfold andthen at 1. cbn [bind retrieve_loopC]. rewrite C.
  exists (if list_eq_dec ascii_dec s (d :: v) then true else false). split; [|destruct (list_eq_dec _ _ _); split; congruence].
  unfold free, one, andthen, made, ret. cbn [bind]. change (iget (base (single s)) 0) with (Ok 0). cbn [bind].
  change (igetc (check (single s)) (0 + 2)) with (Ok 0). cbn [bind]. change (negb (0 =? 0)) with false. cbv iota.
  change (igetc (base (single s)) (0 + 2)) with (Ok (-2)). cbn [bind]. change (-2 <? -1) with true. cbv iota.
  change (iget (base (single s)) (0 + 2)) with (Ok (-2)). cbn [bind]. change (tgetc (tail (single s)) (- -2 - 2)) with (Ok s). cbn [bind].
  f_equal. f_equal. cbn [length] in *. f_equal. unfold bytes in *. lia.
Qed.

(** ** the chain of nodes for a long common prefix *)
Lemma avail_one f c j : forall q r x y, 0 <= q + j -> avail_loopC f c q [j] = Ok (r, (x, y)) ->
  q <= r /\ x = r - q + 1 /\ at_ c (r + j) = -1 /\ forall k, q <= k < r -> at_ c (k + j) <> -1.
Proof.
  induction f as [|f IH]; intros q r x y P H; cbn [avail_loopC] in H; [discriminate|]. cst H b E. cbn [all_freeC] in E. cst E v F. rewrite igetc_at in F by assumption. apply Ok_inj in F.
  destruct (Z.eqb_spec v (-1)) as [V|V].
  - cfin E. subst b. cfin H. subst r. split; [lia|]. split; [lia|]. split; [congruence|]. intros k K. lia.
  - cfin E. subst b. apply IH in H; [|lia]. destruct H as (H1 & H2 & H4 & H3). split; [lia|]. split; [lia|]. split; [exact H4|]. intros k K.
    destruct (Z.eq_dec k q) as [->|]; [congruence|apply H3; lia].
Qed.
Definition packed (t : trie) (z : Z) : Prop := forall y, 2 <= y <= z -> at_ (check t) y <> -1.
Lemma chain_lower m : forall t z t' z' x y, 2 <= z -> packed t z -> chain_loopC mapChar t z (repeat "a"%char m) = Ok ((t', z'), (x, y)) ->
  2 * Z.of_nat m * z + Z.of_nat m * (Z.of_nat m - 1) <= 2 * x.
Proof.
  induction m as [|m IH]; intros t z t' z' x y Hz P H.
  - cbn [repeat chain_loopC] in H. cfin H. change (Z.of_nat 0) with 0. lia.
  - cbn [repeat chain_loopC] in H. cst H j E1. change (mapChar "a"%char) with (Ok 2) in E1. cst H q E2. cst H t1 E3. cst H t2 E4. cst H b E5.
    apply Ok_inj in E1. subst j. unfold checkAvailableC in E2. apply avail_one in E2; [|lia]. destruct E2 as (Q1 & Q2 & Q4 & Q3).
    assert (Q : z - 1 <= q).
    { destruct (Z_lt_dec q (z - 1)) as [Lq|]; [|lia]. exfalso. apply (P (q + 2)); [lia|exact Q4]. }
    unfold setb in E3. apply binv in E3. destruct E3 as (a3 & E3 & T1). injection T1 as <-.
    unfold setc in E4. apply binv in E4. destruct E4 as (a4 & E4 & T2). injection T2 as <-. cbn [with_base with_check base check] in *.
    destruct (iset_at (base t) z q ltac:(lia)) as (a3' & F3 & G3 & _). rewrite E3 in F3. apply Ok_inj in F3. subst a3'.
    destruct (iset_at (check t) (q + 2) z ltac:(lia)) as (a4' & F4 & G4 & _). rewrite E4 in F4. apply Ok_inj in F4. subst a4'.
    pose proof (G3 z) as G5. rewrite Z.eqb_refl in G5. 
    assert (B : b = q).
    { destruct (Z.eq_dec q (-1)) as [->|]; [lia|]. rewrite iget_live in E5 by congruence. apply Ok_inj in E5. congruence. }
    subst b. apply IH in H; [|lia|].
    + rewrite Nat2Z.inj_succ. set (k := Z.of_nat m) in *. assert (0 <= k) by lia.
      assert (2 * k * (z + 1) <= 2 * k * (q + 2)) by (apply Z.mul_le_mono_nonneg_l; lia).
      replace (2 * Z.succ k * z + Z.succ k * (Z.succ k - 1)) with (2 * k * (z + 1) + k * (k - 1) + 2 * z) by ring. lia.
    + intros y' Hy. cbn [check]. rewrite G4. destruct (Z.eqb_spec y' (q + 2)); [lia|].
      destruct (Z_le_dec y' z); [apply P; lia|]. replace y' with (y' - 2 + 2) by lia. apply Q3. lia.
Qed.

(** ** two long words that differ at the end *)
Lemma common_same p u v : common (p ++ u) (p ++ v) = p ++ common u v.
Proof. induction p as [|c p IH]; cbn; [reflexivity|]. now rewrite Ascii.eqb_refl, IH. Qed.
Lemma prefix_longer p c u d v : Ascii.eqb d c = false -> (length v < length u)%nat -> commonPrefix (p ++ c :: u) (p ++ d :: v) = p.
Proof.
  intros N L. unfold commonPrefix. destruct (Nat.ltb_spec (length (p ++ d :: v)) (length (p ++ c :: u))) as [M|M]; rewrite !app_length in M; cbn [length] in M; [|lia].
  rewrite common_same. cbn [common]. rewrite N, app_nil_r. destruct (Nat.eqb_spec (length p) (length (p ++ d :: v))) as [E|E]; [rewrite app_length in E; cbn [length] in E; lia|reflexivity].
Qed.
Lemma second_insert m t' x y :
  insertC mapChar mapChar (single (repeat "a"%char m ++ [endChar])) ("a"%char :: repeat "a"%char m ++ ["b"%char]) = Ok (t', (x, y)) ->
  (Z.of_nat m + 1) * (Z.of_nat m + 1) <= 2 * x.
Proof.
  set (s := repeat "a"%char m ++ [endChar]). set (r := repeat "a"%char m ++ ["b"%char]). intros H.
  assert (RN : r <> []) by (unfold r; destruct m; discriminate).
  destruct (second_contain s "a"%char r eq_refl RN) as (b & C & B). unfold insertC in H. rewrite C in H.
  assert (BF : b = false).
  { destruct b; [|reflexivity]. destruct B as [B _]. specialize (B eq_refl). unfold s, r in B. rewrite <- app_assoc in B. apply app_inv_head in B. discriminate. }
  subst b. clear B C. apply cinv in H. destruct H as (c & x1 & y1 & x2 & y2 & E & H & X & Y). injection E as <- <- <-.
  cst H w E1. cst H t1 E2. cfin H. clear H. cbn [app] in E2. cbn [insert_loopC] in E2.
  cst E2 i F1. change (mapChar "a"%char) with (Ok 2) in F1. apply Ok_inj in F1. subst i.
  cst E2 bn F2. change (iget (base (single s)) 0) with (Ok 0) in F2. apply Ok_inj in F2. subst bn.
  cst E2 c F3. change (igetc (check (single s)) (0 + 2)) with (Ok 0) in F3. apply Ok_inj in F3. subst c. change (0 =? -1) with false in E2. cbv iota in E2.
  cst E2 c F4. change (iget (check (single s)) (0 + 2)) with (Ok 0) in F4. apply Ok_inj in F4. subst c. change (0 =? 0) with true in E2. cbv iota in E2.
  cst E2 b F5. change (iget (base (single s)) (0 + 2)) with (Ok (-2)) in F5. apply Ok_inj in F5. subst b. change (-2 <? -1) with true in E2. cbv iota in E2.
  unfold split_leafC in E2. cst E2 b G1. change (iget (base (single s)) (0 + 2)) with (Ok (-2)) in G1. apply Ok_inj in G1. subst b.
  cst E2 s0 G2. change (aget (tail (single s)) (- -2 - 2)) with (Ok s) in G2. apply Ok_inj in G2. subst s0.
  cst E2 r0 G3. cst E2 p G4.
  assert (CP : commonPrefix (r ++ [endChar]) s = repeat "a"%char m).
  { unfold r, s. rewrite <- app_assoc. apply prefix_longer; [reflexivity|cbn; lia]. }
  rewrite CP in *. cst E2 tn G5. destruct tn as [t2 z2]. apply chain_lower in G5; [|lia|].
  2: { intros y' Hy. assert (y' = 2) by lia. subst y'. vm_compute. discriminate. }
  assert (N : forall A (m : counted A) (a : A) u v, m = Ok (a, (u, v)) -> True) by auto. clear N.
  match type of E2 with _ = Ok (_, (?u, ?v)) => assert (0 <= u) end.
  { clear - E2. cst E2 ct G6. cst E2 vt G7. cst E2 cn G8. cst E2 vn G9. cst E2 q G10. cst E2 t3 G11. cst E2 t4 G12. cst E2 t5 G13. cst E2 t6 G14. cfin E2. apply check_cost in G10.
    match type of G12 with _ = Ok (_, (?a, ?b)) => assert (0 <= a) end.
    { clear - G12. destruct (Ascii.eqb ct endChar); [cst G12 t7 H1; cfin G12; lia|]. cst G12 t7 H1. cst G12 t8 H2. cfin G12. lia. }
    match type of G14 with _ = Ok (_, (?a, ?b)) => assert (0 <= a) end.
    { clear - G14. destruct (Ascii.eqb cn endChar); [cfin G14; lia|]. destruct (nextTail t5). cst G14 t7 H1. cst G14 t8 H2. cfin G14. lia. }
    lia. }
  set (k := Z.of_nat m) in *. assert (K0 : 0 <= k) by lia. assert (XF : 2 * k * (0 + 2) + k * (k - 1) + 2 <= 2 * x) by lia.
  replace ((k + 1) * (k + 1)) with (2 * k * (0 + 2) + k * (k - 1) + 1 - k) by ring. lia.
Qed.
