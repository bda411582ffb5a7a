(** C107: how many nodes of a SegmentTree a call visits. *)
From Verif Require Import Base SegModel SegSpec SegProperties SegCostModel SegCostSpec SegCostProofs.
Local Open Scope Z_scope.

(** the counting functions compute what the plain ones compute *)
Theorem C107_counting v cs s k lv rv : omap fst (buildC v) = build v /\ omap fst (runC cs s) = run cs s /\
  omap fst (query0C k lv rv s) = query0 k lv rv s.
Proof. split; [apply build_erase|]. split; [apply run_erase|apply query_erase]. Qed.
Print Assumptions C107_counting.

(** building visits 2n-1 nodes, m calls after it at most m times the bound *)
Theorem C107_calls v cs s0 b s k : v <> [] -> Forall (valid_call (Z.of_nat (length v))) cs ->
  buildC v = Ok (s0, b) -> runC cs s0 = Ok (s, k) ->
  b = 2 * Z.of_nat (length v) - 1 /\ k <= Z.of_nat (length cs) * node_bound (Z.of_nat (length v)).
Proof.
  intros N V EB ER. destruct (build_cost v s0 b N EB) as [S B]. split; [assumption|].
  exact (proj2 (run_cost _ cs s0 s k S V ER)).
Qed.
Print Assumptions C107_calls.
(** one query after any calls *)
Theorem C107_query v cs s0 b s a k lv rv x s' c : v <> [] -> Forall (valid_call (Z.of_nat (length v))) cs ->
  valid_range (Z.of_nat (length v)) lv rv ->
  buildC v = Ok (s0, b) -> runC cs s0 = Ok (s, a) -> query0C k lv rv s = Ok ((x, s'), c) ->
  c <= node_bound (Z.of_nat (length v)).
Proof.
  intros N V R EB ER EQ. destruct (build_cost v s0 b N EB) as [S _]. destruct (run_cost _ cs s0 s a S V ER) as [S1 _].
  apply (step_cost (Z.of_nat (length v)) (CQuery k lv rv) s s' c S1 R). cbn [stepC]. rewrite EQ. reflexivity.
Qed.
Print Assumptions C107_query.
(** for the sizes on which no call is undefined (C34) the calls do return *)
Theorem C107_total v cs : v <> [] -> safe_size (Z.of_nat (length v)) -> Forall (valid_call (Z.of_nat (length v))) cs ->
  exists s0 s k, buildC v = Ok (s0, 2 * Z.of_nat (length v) - 1) /\ runC cs s0 = Ok (s, k) /\
    k <= Z.of_nat (length cs) * node_bound (Z.of_nat (length v)).
Proof.
  intros N S V. assert (L : 0 < Z.of_nat (length v)) by (destruct v; [congruence|cbn [length]; lia]).
  destruct (C34_safe_sizes v cs QSum 0 0 N S V ltac:(unfold valid_range; lia)) as (x & E).
  unfold client in E. rewrite <- build_erase in E.
  destruct (buildC v) as [[s0 b]| | |] eqn:EB; try discriminate. cbn [omap fst bind] in E. rewrite <- run_erase in E.
  destruct (runC cs s0) as [[s k]| | |] eqn:ER; try discriminate.
  destruct (C107_calls v cs s0 b s k N V EB ER) as [-> K]. exists s0, s, k. auto.
Qed.
Print Assumptions C107_total.
(** the bound is reached for every number of elements 2^d, d >= 2 *)
Theorem C107_sharp v d k : (2 <= d)%nat -> length v = (2 ^ d)%nat ->
  node_bound (Z.of_nat (length v)) = 4 * Z.of_nat d - 3 /\
  exists s0 x s' b, buildC v = Ok (s0, b) /\
    query0C k 1 (Z.of_nat (length v) - 2) s0 = Ok ((x, s'), node_bound (Z.of_nat (length v))).
Proof.
  intros D L. assert (LZ : Z.of_nat (length v) = 2 ^ Z.of_nat d) by (rewrite L, Nat2Z.inj_pow; reflexivity).
  assert (P4 : (4 <= 2 ^ d)%nat) by (apply (Nat.pow_le_mono_r 2 2 d); lia).
  assert (N : v <> []) by (intros ->; simpl in L; lia).
  assert (NB : node_bound (Z.of_nat (length v)) = 4 * Z.of_nat d - 3).
  { unfold node_bound. rewrite LZ, Z.log2_up_pow2 by lia. lia. }
  split; [assumption|]. rewrite NB.
  destruct (C35_fresh v k 1 (Z.of_nat (length v) - 2) N) as (x & E & _); [unfold valid_range; lia|].
  unfold client in E. rewrite <- build_erase in E.
  destruct (buildC v) as [[s0 b]| | |] eqn:EB; try discriminate. cbn [omap fst bind run] in E.
  destruct (build_cost v s0 b N EB) as [S _].
  pose proof (query_erase k 1 (Z.of_nat (length v) - 2) (Datatypes.S (length s0)) 0 (size s0 - 1) 1 s0) as QE.
  unfold query0 in E. rewrite <- QE in E. clear QE. unfold query0C.
  destruct (queryC _ k 1 _ 0 _ 1 s0) as [[[y s'] c]| | |] eqn:Q; try discriminate.
  exists s0, y, s', b. split; [reflexivity|]. pose proof Q as Q0. apply query_visits in Q; [|lia]. rewrite (sized_size _ _ S), LZ in Q.
  rewrite worst_exact in Q; [now rewrite Q0, Q|]. split; [lia|]. unfold sized in S.
  pose proof (Nat.pow_gt_lin_r 2 d ltac:(lia)). lia.
Qed.
Print Assumptions C107_sharp.
Example C107_example :
  let v := [3;1;4;1;5;9;2;6] in
  safe_size (Z.of_nat (length v)) /\ node_bound 8 = 9 /\
  omap snd (buildC v) = Ok 15 /\
  (' (s, _) <- buildC v ;; ' (_, c) <- query0C QSum 1 6 s ;; Ok c) = Ok 9 /\
  (' (s, _) <- buildC v ;; ' (_, c) <- runC [CUpdate (Add 2) 1 6; CQuery QMax 0 3; CUpdate (Mul 3) 2 2] s ;; Ok c) = Ok 15.
Proof. cbv zeta. split; [exists 3; split; [lia|auto]|]. vm_compute. auto 10. Qed.
