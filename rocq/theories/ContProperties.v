(** C63-C66: the sequence, stack, queue, map and set containers. *)
From Verif Require Import Base ContModel ContSpec ContProofs.
From Coq Require Import Sorting.Sorted Sorting.Permutation.
Local Open Scope Z_scope.

(** C63.  Vector: every history on a vector that stays below 2^31 elements. *)
Theorem C63_vector T (l : list T) os : Forall vint os -> Z.of_nat (length l) + Z.of_nat (length os) <= int32_max ->
  refines eq vlegal none vpost l os (run vec_step l os).
Proof. intros W B. exact (run_refines _ _ _ _ _ _ _ vec_step_ok os l l eq_refl W B). Qed.
(** List, sort included *)
Theorem C63_list T (lt : T -> T -> bool) (l : list T) os : weak_order lt -> Forall lint os ->
  Z.of_nat (length l) + Z.of_nat (length os) <= int32_max ->
  refines eq llegal none (lpost lt) l os (run (list_step lt) l os).
Proof. intros WO W B. exact (run_refines _ _ _ _ _ _ _ (list_step_ok lt WO) os l l eq_refl W B). Qed.
(** List::merge of sorted lists is the sorted, stable merge and empties the argument *)
Theorem C63_merge T (lt : T -> T -> bool) a b : weak_order lt ->
  StronglySorted (fun x y => lt y x = false) a -> StronglySorted (fun x y => lt y x = false) b ->
  exists m, list_merge lt a b = Ok (m, []) /\ stable_sort lt (a ++ b) m.
Proof.
  intros WO A B. exists (merge_loop lt a b). unfold list_merge. rewrite (proj2 (is_sorted_ss lt WO a) A), (proj2 (is_sorted_ss lt WO b) B).
  split; [reflexivity|]. split; [apply merge_perm|]. split; [now apply merge_ss|]. intros x. rewrite filter_app. now apply merge_stable.
Qed.
(** the comparison operators of Vector, List, Stack and Queue *)
Theorem C63_comparisons T (lt eq : T -> T -> bool) a b : total_order lt -> (forall x y, eq x y = true <-> x = y) ->
  (cmp_eq eq a b = true <-> a = b) /\ (cmp_ne eq a b = true <-> a <> b) /\
  (cmp_lt lt a b = true <-> lexicographic lt a b) /\ (cmp_gt lt a b = true <-> lexicographic lt b a) /\
  (cmp_le lt a b = true <-> lexicographic lt a b \/ a = b) /\ (cmp_ge lt a b = true <-> lexicographic lt b a \/ a = b).
Proof.
  intros TO EQ. pose proof (cmp_eq_spec eq EQ a b) as E. pose proof (cmp_lt_spec lt TO eq EQ a b) as L1.
  pose proof (cmp_lt_spec lt TO eq EQ b a) as L2. pose proof (cmp_tri lt TO eq EQ a b) as TR.
  unfold cmp_ne, cmp_gt, cmp_le, cmp_ge. rewrite !negb_true_iff. split; [assumption|]. split.
  { rewrite <- E. destruct (cmp_eq eq a b); split; congruence. }
  split; [assumption|]. split; [assumption|]. rewrite <- L1, <- L2.
  destruct TR as [(-> & -> & N)|[(-> & -> & N)|(-> & -> & N)]]; split; (split; [intros H|intros [H|H]]); try congruence; auto.
Qed.
(** Vector(n, x) / List(n, x): n copies, an error for negative n *)
Theorem C63_fill T n (x : T) : in_int32 n = true ->
  seq_fill n x = if n <? 0 then Err else Ok (repeat x (Z.to_nat n)).
Proof.
  intros H. unfold seq_fill, stl_fill, wrapu64, in_int32, int32_min, int32_max in *.
  destruct (Z.ltb_spec n 0) as [N|N].
  - replace (n mod 18446744073709551616) with (n + 18446744073709551616); [destruct (Z.ltb_spec (n + 18446744073709551616) 4611686018427387904); [lia|reflexivity]|].
    apply (Z.mod_unique _ _ (-1)); lia.
  - rewrite Z.mod_small by lia. destruct (Z.ltb_spec n 4611686018427387904); [reflexivity|lia].
Qed.
Example C63_example :
  run vec_step [3; 1; 2] [VInsert 1 7; VErase 0; VSet 2 9; VGet 2; VPop; VSize]
    = Ok ([7; 1], [RNone; RNone; RNone; RVal 9; RVal 9; RInt 2]) /\
  run vec_step [3; 1] [VPop; VGet 1; VSize] = Err /\ ~ vlegal [3] (VGet 1) /\
  run (list_step (fun x y => x / 10 <? y / 10)) [31; 12; 35; 17] [LSort; LReverse; LAt 1]
    = Ok ([35; 31; 17; 12], [RNone; RNone; RVal 31]) /\
  list_merge Z.ltb [1; 4] [2; 4; 5] = Ok ([1; 2; 4; 4; 5], []) /\
  lexicographic Z.ltb [1; 2; 9] [1; 3] /\ cmp_lt Z.ltb [1; 2; 9] [1; 3] = true.
Proof.
  repeat first [reflexivity | split]; [cbn; lia|]. right. exists [1], 2, [9], 3, []. auto.
Qed.

(** C64.  Stack and Queue histories below 2^31 elements; first/last of an empty
    queue are the only undefined calls. *)
Theorem C64_stack T (l : list T) os : Z.of_nat (length l) + Z.of_nat (length os) <= int32_max ->
  refines eq slegal none spost l os (run stack_step l os).
Proof.
  intros B. refine (run_refines _ _ _ _ _ _ _ stack_step_ok os l l eq_refl _ B). apply Forall_forall. auto.
Qed.
Theorem C64_queue T (l : list T) os : Z.of_nat (length l) + Z.of_nat (length os) <= int32_max ->
  refines eq qlegal qunchecked qpost l os (run queue_step l os).
Proof.
  intros B. refine (run_refines _ _ _ _ _ _ _ queue_step_ok os l l eq_refl _ B). apply Forall_forall. auto.
Qed.
(** last in, first out: after a push and any balanced history, pop and top see the pushed value
    and pop restores the stack *)
Theorem C64_lifo T (l : list T) x os : balanced os -> exists rs,
  run stack_step l (SPush x :: os) = Ok (l ++ [x], rs) /\
  stack_step (l ++ [x]) STop = Ok (l ++ [x], RVal x) /\ stack_step (l ++ [x]) SPop = Ok (l, RVal x).
Proof.
  intros B. destruct (balanced_run os B (l ++ [x])) as [rs R]. exists (RNone :: rs). split.
  - cbn [run stack_step bind]. unfold stack_push. now rewrite R.
  - split; [|apply stack_pop_push]. cbn [stack_step]. unfold stack_top. rewrite stl_back_spec. now destruct l.
Qed.
(** first in, first out: the values dequeued are the oldest ones, in order *)
Theorem C64_fifo T (l l' : list T) os rs : ~ In QClear os -> run queue_step l os = Ok (l', rs) ->
  dequeued os rs ++ l' = l ++ enqueued os.
Proof. apply fifo. Qed.
(** clear() empties containers below 2^31 elements, is undefined from 2^31 to 2^32-1 ... *)
Theorem C64_clear T (l : list T) : Z.of_nat (length l) < 4294967296 ->
  stack_clear l = (if Z.of_nat (length l) <? 2147483648 then Ok [] else UB) /\
  queue_clear l = (if Z.of_nat (length l) <? 2147483648 then Ok [] else UB).
Proof.
  intros B. unfold stack_clear, queue_clear. rewrite (clear_ok _ _ _ pop_times_back), (clear_ok _ _ _ pop_times_front).
  destruct (Z.ltb_spec (Z.of_nat (length l)) 2147483648) as [L|L].
  - rewrite size_spec by (unfold int32_max; lia). destruct (Z.ltb_spec (Z.of_nat (length l)) 0); [lia|].
    now rewrite Nat2Z.id, Nat.sub_diag, skipn_all.
  - assert (size_int l < 0) as N.
    { unfold size_int, wrap32, len. rewrite <- (Z.mod_unique (Z.of_nat (length l) + 2147483648) 4294967296 1 (Z.of_nat (length l) - 2147483648)) by lia. lia. }
    apply Z.ltb_lt in N. now rewrite N.
Qed.
(** ... and does nothing at all at 2^32 elements *)
Theorem C64_clear_any_size_refuted : exists l : list unit, l <> [] /\ stack_clear l = Ok l /\ queue_clear l = Ok l.
Proof.
  exists (repeat tt (Z.to_nat 4294967296)). set (l := repeat tt _).
  assert (L : Z.of_nat (length l) = 4294967296) by (unfold l; rewrite repeat_length; apply Z2Nat.id; lia). clearbody l.
  split; [intros ->; discriminate|]. unfold stack_clear, queue_clear.
  rewrite (clear_ok _ _ _ pop_times_back), (clear_ok _ _ _ pop_times_front).
  assert (size_int l = 0) as -> by (unfold size_int, len; rewrite L; reflexivity).
  change (Z.to_nat 0) with 0%nat. rewrite Nat.sub_0_r, firstn_all. split; reflexivity.
Qed.
Example C64_example :
  balanced [SPush 1; SPush 2; SSize; SPop; SPop; SPush 3; SPop] /\
  run stack_step [5] [SPush 7; SPush 1; SPop; STop; SClear; SIsEmpty; SPop] = Err /\
  run queue_step [5] [QEnqueue 7; QDequeue; QFirst; QEnqueue 8; QLast] = Ok ([7; 8], [RNone; RVal 5; RVal 7; RNone; RVal 8]) /\
  run queue_step [5] [QDequeue; QFirst] = UB /\ run queue_step [5] [QDequeue; QDequeue] = Err.
Proof.
  split; [|repeat split; reflexivity].
  change (balanced (SPush 1 :: [SPush 2; SSize; SPop] ++ SPop :: [SPush 3; SPop])).
  constructor; [change (balanced (SPush 2 :: [SSize] ++ SPop :: [])); repeat constructor|].
  change (balanced (SPush 3 :: [] ++ SPop :: [])). repeat constructor.
Qed.

(** C65.  Map and Set histories, from the empty container *)
Theorem C65_map K V (lt : K -> K -> bool) (default : V) os : weak_order lt -> Z.of_nat (length os) <= int32_max ->
  refines (map_rep lt default) (map_legal lt default) none (map_post lt default) [] os (run (map_step lt default) [] os).
Proof.
  intros WO B. refine (run_refines _ _ _ _ _ _ _ (map_step_ok lt WO default) os [] [] _ _ B).
  - split; [constructor|]. intros k v. cbn. split; [discriminate|]. intros (? & [] & _).
  - apply Forall_forall. auto.
Qed.
Theorem C65_set K (lt : K -> K -> bool) os : weak_order lt -> Z.of_nat (length os) <= int32_max ->
  refines (set_rep lt) (fun _ _ => True) none (set_post lt) [] os (run (set_step lt) [] os).
Proof.
  intros WO B. refine (run_refines _ _ _ _ _ _ _ (set_step_ok lt WO) os [] [] _ _ B).
  - split; [constructor|]. intros k. cbn. split; [discriminate|]. intros (? & [] & _).
  - apply Forall_forall. auto.
Qed.
(** the call that looks like a read creates an entry *)
Theorem C65_index_is_a_read_refuted : exists os k, 
  run (map_step Z.ltb 0) [] (os ++ [MContains k]) = Ok ([], [RBool false]) /\
  run (map_step Z.ltb 0) [] (os ++ [MIndex k; MContains k]) = Ok ([(k, 0)], [RVal 0; RBool true]).
Proof. exists [], 5. split; reflexivity. Qed.
Example C65_example :
  run (map_step Z.ltb 0) [] [MSet 5 1; MSet 2 7; MSet 5 3; MIndex 9; MErase 2; MContains 2; MGet 5; MSize]
    = Ok ([(5, 3); (9, 0)], [RNone; RNone; RNone; RVal 0; RNone; RBool false; RVal 3; RInt 2]) /\
  run (map_step Z.ltb 0) [] [MSet 5 1; MGet 4] = Err /\
  map_value Z.ltb 0 [MErase 2; MIndex 9; MSet 5 3; MSet 2 7; MSet 5 1] 5 = Some 3 /\
  run (set_step Z.ltb) [] [TInsert 4; TInsert 1; TInsert 4; TErase 9; TSize; TContains 1] = Ok ([1; 4], [RNone; RNone; RNone; RNone; RInt 2; RBool true]).
Proof. repeat split; reflexivity. Qed.

(** C66.  MultiSet histories from the empty multiset *)
Theorem C66_multiset K (lt : K -> K -> bool) os : weak_order lt -> Z.of_nat (length os) <= int32_max ->
  refines (ms_rep lt) (ms_legal lt) none (ms_post lt) [] os (run (ms_step lt) [] os).
Proof.
  intros WO B. refine (run_refines _ _ _ _ _ _ _ (ms_step_ok lt WO) os [] [] _ _ B).
  - split; [constructor|]. split; reflexivity.
  - apply Forall_forall. auto.
Qed.
(** MultiMap: count is the number of entries with the key, erase removes all of them ... *)
Theorem C66_multimap_count K V (lt : K -> K -> bool) (init : list (K * V)) k : weak_order lt ->
  Z.of_nat (length init) <= int32_max ->
  mm_count lt (mm_build lt init) k = Z.of_nat (length (filter (fun e => same lt k (fst e)) init)).
Proof.
  intros WO B. unfold mm_count. rewrite (proj2 (build_spec lt WO init)). apply size_spec.
  pose proof (filter_len (fun e => same lt k (fst e)) init). lia.
Qed.
Theorem C66_multimap_erase K V (lt : K -> K -> bool) (init : list (K * V)) k : weak_order lt ->
  mm_erase lt (mm_build lt init) k = mm_build lt (filter (fun e => negb (same lt k (fst e))) init).
Proof. intros WO. now apply mm_erase_spec. Qed.
(** ... entries stay in key order, entries of a key in insertion order ... *)
Theorem C66_multimap_order K V (lt : K -> K -> bool) (init : list (K * V)) : weak_order lt ->
  stable_sort (fun a b => lt (fst a) (fst b)) init (mm_build lt init).
Proof.
  intros WO. destruct (build_acc lt WO init [] ltac:(constructor)) as [S F]. split; [|split].
  - unfold mm_build. change init with ([] ++ init) at 1. generalize (@nil (K * V)) as m. clear S F. induction init as [|e init IH]; intros m; cbn [fold_left].
    + now rewrite app_nil_r.
    + rewrite <- IH. rewrite <- (multi_perm fst lt e m). symmetry. apply Permutation_middle.
  - exact S.
  - intros x. exact (F (fst x)).
Qed.
(** ... and find returns the values of the key as a set: in increasing order without duplicates *)
Theorem C66_multimap_find K V (lt : K -> K -> bool) (ltv : V -> V -> bool) (init : list (K * V)) k :
  weak_order lt -> weak_order ltv -> let r := mm_find lt ltv (mm_build lt init) k in
  StronglySorted (fun a b => ltv a b = true) r /\
  (forall v, In v r -> exists k', In (k', v) init /\ same lt k k' = true) /\
  (forall k' v, In (k', v) init -> same lt k k' = true -> exists v', In v' r /\ same ltv v' v = true).
Proof. intros WO WV. now apply mm_find_spec. Qed.
Theorem C66_find_all_refuted : exists (init : list (Z * Z)) k,
  mm_count Z.ltb (mm_build Z.ltb init) k <> Z.of_nat (length (mm_find Z.ltb Z.ltb (mm_build Z.ltb init) k)).
Proof. exists [(1, 7); (1, 7)], 1. vm_compute. discriminate. Qed.
Example C66_example :
  run (ms_step Z.ltb) [] [MSInsert 4; MSInsert 1; MSInsert 4; MSCount 4; MSErase 4; MSCount 4; MSSize]
    = Ok ([1], [RNone; RNone; RNone; RInt 2; RNone; RInt 0; RInt 1]) /\
  run (ms_step Z.ltb) [] [MSInsert 4; MSErase 5] = Err /\
  mm_build Z.ltb [(2, 9); (1, 8); (2, 3); (2, 9)] = [(1, 8); (2, 9); (2, 3); (2, 9)] /\
  mm_find Z.ltb Z.ltb [(1, 8); (2, 9); (2, 3); (2, 9)] 2 = [3; 9] /\ mm_count Z.ltb [(1, 8); (2, 9); (2, 3); (2, 9)] 2 = 3 /\
  weak_order Z.ltb.
Proof.
  repeat first [reflexivity | split].
  - intros a. lia.
  - intros a b c. lia.
  - intros a b c. lia.
Qed.
Print Assumptions C63_list.
Print Assumptions C64_queue.
Print Assumptions C64_clear_any_size_refuted.
Print Assumptions C65_map.
Print Assumptions C66_multiset.
Print Assumptions C66_multimap_find.
Print Assumptions C63_vector.
Print Assumptions C63_merge.
Print Assumptions C63_comparisons.
Print Assumptions C63_fill.
Print Assumptions C64_stack.
Print Assumptions C64_lifo.
Print Assumptions C64_fifo.
Print Assumptions C64_clear.
Print Assumptions C65_set.
Print Assumptions C65_index_is_a_read_refuted.
Print Assumptions C66_multimap_count.
Print Assumptions C66_multimap_erase.
Print Assumptions C66_multimap_order.
Print Assumptions C66_find_all_refuted.
