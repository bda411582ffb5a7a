(** C106: how long the calls of a BST take. *)
From Verif Require Import Base BstModel BstSpec BstProofs BstMainProofs BstCostModel BstCostSpec BstCostProofs.
Local Open Scope nat_scope.

(** the counting functions compute what the plain ones compute *)
Theorem C106_counting os s k : omap fst (runC s os) = run s os /\ omap fst (findC s k) = find s k.
Proof. split; [apply run_erase|apply find_erase]. Qed.
Print Assumptions C106_counting.

(** every history of m insertions and erasures of the smallest node, n nodes
    being created: all rotations and all steps of the searches together number
    at most 8 m log2(n+1) *)
Theorem C106_amortized os n l :
  history (keys (created os)) 0 [] os = Some (n, l) ->
  exists s k, runC empty os = Ok (s, k) /\
    (2 ^ Z.of_nat k <= (Z.of_nat n + 1) ^ (8 * Z.of_nat (length os)))%Z.
Proof. exact (history_cost os n l). Qed.
Print Assumptions C106_amortized.
(** the same with integer logarithms *)
Theorem C106_amortized_log os n l :
  history (keys (created os)) 0 [] os = Some (n, l) ->
  exists s k, runC empty os = Ok (s, k) /\
    (Z.of_nat k <= 8 * Z.of_nat (length os) * Z.log2_up (Z.of_nat n + 1))%Z.
Proof.
  intros H. destruct (history_cost os n l H) as (s & k & E & P). exists s, k. split; [assumption|].
  destruct (Z.le_gt_cases (Z.of_nat k) (8 * Z.of_nat (length os) * Z.log2_up (Z.of_nat n + 1))) as [G|G]; [assumption|].
  exfalso. assert (L : (Z.of_nat n + 1 <= 2 ^ Z.log2_up (Z.of_nat n + 1))%Z).
  { destruct n as [|n]; [simpl; lia|]. apply Z.log2_up_spec. lia. }
  assert (Q : (2 ^ Z.of_nat k <= 2 ^ (8 * Z.of_nat (length os) * Z.log2_up (Z.of_nat n + 1)))%Z).
  { apply Z.le_trans with (1 := P). rewrite (Z.mul_comm _ (Z.log2_up _)).
    pose proof (Z.log2_up_nonneg (Z.of_nat n + 1)) as NN. rewrite (Z.pow_mul_r 2 (Z.log2_up _)) by lia.
    apply Z.pow_le_mono_l. lia. }
  apply Z.pow_le_mono_r_iff in Q; [lia|lia|]. pose proof (Z.log2_up_nonneg (Z.of_nat n + 1)). nia.
Qed.
Print Assumptions C106_amortized_log.
(** one insertion alone can be linear *)
Theorem C106_one_insertion n : exists s k s', runC empty (ascending n) = Ok (s, k) /\ k <= 3 * n /\
  insert_newC s (-1) 0 = Ok (s', 1 + 2 * n).
Proof. exact (asc_insert n). Qed.
Print Assumptions C106_one_insertion.
(** find never splays: after inserting 0, ..., n-1 every find(0) looks at n nodes *)
Theorem C106_find_linear n : 0 < n -> exists s k, runC empty (ascending n) = Ok (s, k) /\ k <= 3 * n /\
  findC s 0 = Ok (Some 0, n).
Proof. exact (asc_find n). Qed.
Print Assumptions C106_find_linear.
(** so the bound does not hold for find, whatever the constant, not even on
    average over any number q of finds following the n insertions *)
Theorem C106_find_refuted : ~ exists C : nat, forall n q s k p c,
  runC empty (ascending n) = Ok (s, k) -> findC s 0 = Ok (p, c) ->
  k + q * c <= C * (n + q) * (Nat.log2_up n + 1).
Proof.
  intros (C & H). set (m := 2 * C + 4). set (n := 2 ^ m).
  assert (P : 0 < n) by (unfold n; apply Nat.neq_0_lt_0, Nat.pow_nonzero; lia).
  destruct (asc_find n P) as (s & k & E & _ & F). specialize (H n n s k _ _ E F).
  unfold n in H at 5. rewrite Nat.log2_up_pow2 in H by lia.
  assert (G : 2 * (C * (m + 1)) < n).
  { unfold n, m. replace (2 * C + 4) with (C + (C + 4)) at 2 by lia. rewrite !Nat.pow_add_r.
    pose proof (Nat.pow_gt_lin_r 2 C ltac:(lia)) as A. change (2 ^ 4) with 16. nia. }
  nia.
Qed.
Print Assumptions C106_find_refuted.
Example C106_example :
  let os := [Ins 5 0; Ins 3 0; Ins 8 0; Ins 3 0; Del 1; Ins 4 0; Ins 9 0; Ins 1 0; Del 6]%Z in
  history (keys (created os)) 0 [] os = Some (7, [3; 4; 0; 2; 5]) /\
  omap snd (runC empty os) = Ok 40 /\
  omap snd (runC empty (ascending 20)) = Ok 58 /\
  (' (s, _) <- runC empty (ascending 20) ;; omap snd (findC s 0)) = Ok 20 /\
  (' (s, _) <- runC empty (ascending 20) ;; omap snd (insert_newC s (-1) 0)) = Ok 41.
Proof. vm_compute. auto 10. Qed.
