(** C117: Edge objects as elements of Set, MultiSet and List. *)
From Verif Require Import Base ContModel ContSpec ContProofs EdgeContModel EdgeContSpec EdgeContProofs.
From Coq Require Import Sorting.Sorted Sorting.Permutation.
Local Open Scope Z_scope.

(** After every history all edges alive have different ids, so no edge in a container is == to a
    variable of the client or to another element, not even right after it was inserted. *)
Theorem C117_identity : forall (os : list op) (s : state), run_ops start os = Ok s ->
  NoDup (map e_id (alive s)) /\
  forall a b, In a (vars s) -> In b (set_ s ++ mset s ++ lst s) -> edge_eq a b = false.
Proof.
  intros os s H. apply (run_inv os start s inv_start) in H. destruct H as (A & _). split; [exact A|].
  intros a b Ia Ib. unfold alive in A. rewrite map_app in A. unfold edge_eq. apply Z.eqb_neq. intros E.
  apply in_split in Ib. destruct Ib as (p & q & Ep). rewrite Ep, map_app in A. cbn [map] in A. rewrite app_assoc in A.
  apply NoDup_remove_2 in A. apply A. rewrite <- E. apply in_or_app. left. apply in_or_app. left. now apply in_map.
Qed.
Print Assumptions C117_identity.

(** A Set of edges holds at most one edge per weight, in increasing weight.  contains(e) asks for the
    weight of e; insert(e) does nothing when an edge of that weight is present and otherwise
    adds a copy of e with the next id; erase(e) removes the edge of that weight. *)
Theorem C117_set : forall (os : list op) (s : state) (v : nat) (a : edge),
  run_ops start os = Ok s -> nth_error (vars s) v = Some a ->
  increasing (set_ s) /\
  (forall s' r, step s (SContains v) = Ok (s', r) ->
     set_ s' = set_ s /\ next s' = next s + 1 /\ exists b, r = ABool b /\ (b = true <-> has_weight (e_val a) (set_ s))) /\
  (forall s' r, step s (SInsert v) = Ok (s', r) ->
     (has_weight (e_val a) (set_ s) -> s' = s) /\
     (~ has_weight (e_val a) (set_ s) -> next s' = next s + 1 /\ exists b, same_data a b /\ e_id b = next s /\
        forall x, In x (set_ s') <-> x = b \/ In x (set_ s))) /\
  (forall s' r, step s (SErase v) = Ok (s', r) ->
     next s' = next s /\ forall x, In x (set_ s') <-> In x (set_ s) /\ e_val x <> e_val a).
Proof.
  intros os s v a H V. apply (run_inv os start s inv_start) in H. destruct H as (A & B & C & S1 & S2).
  pose proof (incr_nondecr _ S1) as S1'. split; [exact S1|].
  assert (VE : var s v = Ok a) by (unfold var; now rewrite V).
  split; [|split]; intros s' r; cbn [step]; rewrite VE; cbn [bind].
  - destruct (copy_edge (next s) a) as [[b n]| | |] eqn:K; cbn [bind]; try discriminate. intros [= <- <-].
    apply copy_inv in K. destruct K as ((_ & _ & Ev & _) & _ & -> & _). split; [reflexivity|]. split; [reflexivity|].
    eexists. split; [reflexivity|]. rewrite Ev. pose proof (find_weak b _ S1') as F.
    destruct (t_find _ _ _ _) as [y|] eqn:T.
    + split; [intros _|reflexivity].
      assert (D : forall l, t_find (fun e => e) edge_lt b l = Some y -> has_weight (e_val b) l).
      { intros l. induction l as [|z l IH]; cbn [t_find]; [discriminate|].
        destruct (edge_lt z b) eqn:C1; [|destruct (edge_lt b z) eqn:C2; [discriminate|]].
        - intros Q. destruct (IH Q) as (w & I & Ew). exists w. split; [now right|assumption].
        - intros _. apply lt_spec' in C1. apply lt_spec' in C2. exists z. split; [now left|lia]. }
      exact (D _ T).
    + split; [discriminate|]. intros W. destruct (proj1 F eq_refl W).
  - destruct (t_find _ _ _ _) as [y|] eqn:T.
    + intros [= <- <-]. split; [reflexivity|]. intros N. apply (find_weak a _ S1') in N. congruence.
    + apply (find_weak a _ S1') in T. destruct (copy_edge (next s) a) as [[b n]| | |] eqn:K; cbn [bind]; try discriminate.
      intros [= <- <-]. apply copy_inv in K. destruct K as (SD & Eb & -> & _). split; [contradiction|]. intros _.
      split; [reflexivity|]. exists b. split; [exact SD|]. split; [exact Eb|]. cbn [set_]. apply insert_in.
      destruct SD as (_ & _ & <- & _). exact T.
  - intros [= <- <-]. split; [reflexivity|]. intros x. cbn [set_]. rewrite erase_filter by exact S1'. rewrite filter_In.
    rewrite negb_true_iff, Z.eqb_neq. reflexivity.
Qed.
Print Assumptions C117_set.

(** A MultiSet keeps every edge inserted, ordered by weight and by time of insertion among equal
    weights; count(e) counts the edges of e's weight; erase(e) removes all of them, and is an
    error when there is none. *)
Theorem C117_multiset : forall (os : list op) (s : state) (v : nat) (a : edge),
  run_ops start os = Ok s -> nth_error (vars s) v = Some a ->
  nondecreasing (mset s) /\
  (forall s' r, step s (MInsert v) = Ok (s', r) -> exists b p q, same_data a b /\ e_id b = next s /\
     mset s = p ++ q /\ mset s' = p ++ b :: q /\
     Forall (fun x => e_val x <= e_val a) p /\ Forall (fun x => e_val a < e_val x) q) /\
  step s (MCount v) = Ok (s, AInt (wrap32 (Z.of_nat (length (of_weight (e_val a) (mset s)))))) /\
  (step s (MErase v) = Err <-> of_weight (e_val a) (mset s) = []) /\
  (forall s' r, step s (MErase v) = Ok (s', r) -> mset s' = filter (fun x => negb (e_val x =? e_val a)) (mset s)).
Proof.
  intros os s v a H V. apply (run_inv os start s inv_start) in H. destruct H as (A & B & C & S1 & S2).
  split; [exact S2|]. assert (VE : var s v = Ok a) by (unfold var; now rewrite V).
  split; [|split; [|split]]; [intros s' r| | |intros s' r]; cbn [step]; rewrite VE; cbn [bind].
  - destruct (copy_edge (next s) a) as [[b n]| | |] eqn:K; cbn [bind]; try discriminate. intros [= <- <-].
    apply copy_inv in K. destruct K as (SD & Eb & -> & _). destruct (multi_split b _ S2) as (p & q & E1 & E2 & P & Q).
    exists b, p, q. destruct SD as (D1 & D2 & D3 & D4). rewrite D3. repeat split; auto.
  - rewrite range_filter by exact S2. reflexivity.
  - pose proof (find_weak a _ S2) as F.
    assert (W : of_weight (e_val a) (mset s) = [] <-> ~ has_weight (e_val a) (mset s)).
    { unfold of_weight. split.
      - intros E (x & I & Ex). assert (J : In x (filter (fun e => e_val e =? e_val a) (mset s))).
        { apply filter_In. split; [exact I|now apply Z.eqb_eq]. }
        rewrite E in J. destruct J.
      - intros N. destruct (filter _ _) as [|x l] eqn:E; [reflexivity|]. contradiction N.
        assert (J : In x (filter (fun e => e_val e =? e_val a) (mset s))) by (rewrite E; now left).
        apply filter_In in J. destruct J as [J1 J2]. exists x. split; [exact J1|now apply Z.eqb_eq]. }
    rewrite W, <- F. destruct (t_find _ _ _ _); split; congruence.
  - destruct (t_find _ _ _ _); [|discriminate]. intros [= <- <-]. cbn [mset]. now rewrite erase_filter by exact S2.
Qed.
Print Assumptions C117_multiset.

(** Sorting a List of edges moves the objects themselves: same edges with the same ids, weights in
    order, edges of equal weight in their old order. *)
Theorem C117_sort : forall (s s' : state) (r : answer), step s LSort = Ok (s', r) ->
  Permutation (lst s') (lst s) /\ nondecreasing (lst s') /\ (forall w, of_weight w (lst s') = of_weight w (lst s)) /\
  next s' = next s.
Proof.
  intros s s' r [= <- <-]. cbn [lst next]. split; [apply sort_perm|]. split; [apply sort_ok|]. split; [|reflexivity].
  intros w. apply sort_stable.
Qed.
Print Assumptions C117_sort.

(** push and push_front add a copy of the edge with the next id; pop removes the last edge and hands
    out a copy of it with the next id; assignment to a variable copies the data and keeps the id. *)
Theorem C117_list : forall (s s' : state) (r : answer) (v w : nat) (a c : edge),
  nth_error (vars s) v = Some a -> nth_error (vars s) w = Some c ->
  (step s (LPush v) = Ok (s', r) -> exists b, same_data a b /\ e_id b = next s /\ lst s' = lst s ++ [b] /\ vars s' = vars s) /\
  (step s (LPushFront v) = Ok (s', r) -> exists b, same_data a b /\ e_id b = next s /\ lst s' = b :: lst s /\ vars s' = vars s) /\
  (step s LPop = Ok (s', r) -> exists x b, lst s = lst s' ++ [x] /\ same_data x b /\ e_id b = next s /\ vars s' = vars s ++ [b]) /\
  (step s LReverse = Ok (s', r) -> lst s' = rev (lst s) /\ next s' = next s) /\
  (step s (EAssign v w) = Ok (s', r) -> exists b, same_data c b /\ e_id b = e_id a /\ nth_error (vars s') v = Some b /\
     forall u, u <> v -> nth_error (vars s') u = nth_error (vars s) u).
Proof.
  intros s s' r v w a c V W. assert (VE : var s v = Ok a) by (unfold var; now rewrite V).
  assert (WE : var s w = Ok c) by (unfold var; now rewrite W).
  repeat split; cbn [step]; rewrite ?VE, ?WE; cbn [bind].
  - destruct (copy_edge (next s) a) as [[b n]| | |] eqn:K; cbn [bind]; try discriminate. intros [= <- <-].
    apply copy_inv in K. exists b. cbn [lst vars]. intuition.
  - destruct (copy_edge (next s) a) as [[b n]| | |] eqn:K; cbn [bind]; try discriminate. intros [= <- <-].
    apply copy_inv in K. exists b. cbn [lst vars]. intuition.
  - destruct (seq_pop (lst s)) as [[x l]| | |] eqn:P; cbn [bind]; try discriminate. apply pop_inv in P.
    destruct (copy_edge (next s) x) as [[b n]| | |] eqn:K; cbn [bind]; try discriminate. intros [= <- <-].
    apply copy_inv in K. exists x, b. cbn [lst vars]. intuition.
  - injection H as <- <-. reflexivity.
  - injection H as <- <-. reflexivity.
  - intros [= <- <-]. exists (E (e_from c) (e_to c) (e_val c) (e_use c) (e_id a)). unfold set_var. cbn [vars]. split; [|split; [|split]].
    4: { intros u N. clear - N. generalize (E (e_from c) (e_to c) (e_val c) (e_use c) (e_id a)). intros b. revert v u N. induction (vars s) as [|x l IH]; intros [|v] [|u] N; try reflexivity; try lia. cbn. apply IH. lia. }
    3: { clear - V. generalize (E (e_from c) (e_to c) (e_val c) (e_use c) (e_id a)). intros b. revert v V. induction (vars s) as [|x l IH]; intros [|v] V; try discriminate; [reflexivity|]. cbn in *. now apply IH. }
    + unfold same_data. cbn. auto.
    + reflexivity.
Qed.
Print Assumptions C117_list.

(** Exactly when a call is undefined: it names a variable that does not exist, or it constructs an
    edge while the counter stands at INT_MAX.  Exactly when it is an error: erasing a weight
    that is not in the MultiSet, or pop on an empty List. *)
Theorem C117_outcome : forall (os : list op) (s : state) (o : op), run_ops start os = Ok s ->
  (step s o = UB <-> (exists v, In v (named o) /\ nth_error (vars s) v = None) \/ (constructs s o /\ next s = int32_max)) /\
  (step s o = Err <-> fails s o) /\ step s o <> Fuel.
Proof. intros os s o H. apply step_outcome. exact (run_inv os start s inv_start H). Qed.
Print Assumptions C117_outcome.

(** Looking up edges in a Set uses up the ids: k lookups from any reachable state are fine as long
    as the counter plus k fits in an int, and undefined behaviour otherwise. *)
Theorem C117_lookups : forall (os : list op) (s : state) (v : nat) (k : nat),
  run_ops start os = Ok s -> (v < length (vars s))%nat ->
  run_ops s (repeat (SContains v) k) =
  if next s + Z.of_nat k <=? int32_max then Ok (St (vars s) (set_ s) (mset s) (lst s) (next s + Z.of_nat k)) else UB.
Proof.
  intros os s v k H L. apply (run_inv os start s inv_start) in H. destruct H as (_ & _ & C & _).
  destruct (nth_error (vars s) v) as [a|] eqn:V; [|apply nth_error_None in V; lia]. now apply (lookups k s v a).
Qed.
Print Assumptions C117_lookups.

(** A copy of a container of edges has the same data but compares equal to the original only when both
    are empty; copying is undefined exactly when the ids run out. *)
Theorem C117_copies : forall (os : list op) (s : state) (l : list edge), run_ops start os = Ok s ->
  l = set_ s \/ l = mset s \/ l = lst s ->
  (copy_all (next s) l = UB <-> int32_max < next s + Z.of_nat (length l)) /\
  (forall l' n, copy_all (next s) l = Ok (l', n) ->
     Forall2 same_data l l' /\ (cmp_eq edge_eq l l' = true <-> l = []) /\ cmp_eq edge_eq l l = true).
Proof.
  intros os s l H Hl. apply (run_inv os start s inv_start) in H. destruct H as (_ & B & C & _).
  assert (BL : Forall (fun e => 0 <= e_id e < next s) l).
  { rewrite Forall_forall in B |- *. intros e I. apply B. unfold alive. rewrite !in_app_iff. intuition congruence. }
  destruct (copy_all_spec l (next s) C) as [[L ->]|(l2 & E & F2 & F)].
  - split; [tauto|]. discriminate.
  - split.
    + rewrite E. split; [discriminate|]. intros L. exfalso.
      assert (X : forall l0 n0 r, 0 <= n0 <= int32_max -> copy_all n0 l0 = Ok r -> n0 + Z.of_nat (length l0) <= int32_max).
      { clear. induction l0 as [|a l0 IH]; intros n0 r R H; [cbn [length]; lia|]. cbn [copy_all] in H.
        destruct (copy_edge n0 a) as [[b n1]| | |] eqn:K; cbn [bind] in H; try discriminate. apply copy_inv in K.
        destruct K as (_ & _ & -> & K). destruct (copy_all (n0 + 1) l0) as [p| | |] eqn:E; cbn [bind] in H; try discriminate.
        apply IH in E; [|lia]. cbn [length]. lia. }
      specialize (X l (next s) _ C E). lia.
    + intros l' n E'. rewrite E in E'. injection E' as <- <-. split; [exact F2|]. split.
      * destruct F2 as [|x y l l2 XY F2]; [cbn; tauto|]. cbn [cmp_eq]. split; [|discriminate].
        apply Forall_inv in BL. apply Forall_inv in F. unfold edge_eq. destruct (Z.eqb_spec (e_id x) (e_id y)); [lia|discriminate].
      * clear. induction l as [|x l IH]; [reflexivity|]. cbn [cmp_eq]. unfold edge_eq at 1. now rewrite Z.eqb_refl.
Qed.
Print Assumptions C117_copies.

(** "A Set of different edges holds them all" is false: two edges between different vertices with the
    same weight, both inserted, leave a set of size 1. *)
Theorem C117_all_kept_refuted : exists os s a b,
  run_ops start os = Ok s /\ vars s = [a; b] /\ edge_eq a b = false /\ e_from a <> e_from b /\
  In (SInsert 0) os /\ In (SInsert 1) os /\ ~ In (SErase 0) os /\ ~ In (SErase 1) os /\ length (set_ s) = 1%nat.
Proof.
  exists [ENew 0 1 5; ENew 2 3 5; SInsert 0; SInsert 1]. eexists _, _, _. split; [reflexivity|].
  split; [reflexivity|]. repeat split; cbn; try tauto; try discriminate; intros [|[|[|[|[]]]]]; discriminate.
Qed.
Print Assumptions C117_all_kept_refuted.

(** a history that uses every container, and the state it leads to *)
Definition ex_ops : list op := [ENew 0 1 7; ENew 1 2 3; ENew 2 0 7; SInsert 0; SInsert 1; SInsert 2; SContains 2;
  MInsert 2; MInsert 1; MInsert 0; LPush 0; LPush 1; LPush 2; LSort; ESetVal 0 9].
Definition ex_state : state :=
  St [E 0 1 9 true 0; E 1 2 3 true 1; E 2 0 7 true 2] [E 1 2 3 true 4; E 0 1 7 true 3]
     [E 1 2 3 true 7; E 2 0 7 true 6; E 0 1 7 true 8] [E 1 2 3 true 10; E 0 1 7 true 9; E 2 0 7 true 11] 12.
Example C117_example :
  run_ops start ex_ops = Ok ex_state /\
  step ex_state (SContains 0) =
    Ok (St (vars ex_state) (set_ ex_state) (mset ex_state) (lst ex_state) 13, ABool false) /\
  step ex_state (MErase 0) = Err /\ step ex_state (MCount 2) = Ok (ex_state, AInt 2) /\
  step ex_state (Equal 0 0) = Ok (ex_state, ABool true) /\ step ex_state (Equal 0 2) = Ok (ex_state, ABool false) /\
  step ex_state (Less 2 0) = Ok (ex_state, ABool true) /\ step ex_state (SErase 5) = UB /\
  run_ops ex_state [LPop; LPop; LPop; LPop] = Err.
Proof. repeat split; vm_compute; reflexivity. Qed.
