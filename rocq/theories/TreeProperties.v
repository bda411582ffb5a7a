(** C42-C44: rooted trees, binary lifting, LCA and distance. *)
From Verif Require Import Base TreeModel TreeSpec TreeProofs.
Local Open Scope nat_scope.

(** C42.  Any tree can be built with setRoot and addNode on fresh nodes; parent,
    sons (in insertion order) and height are those of the tree. *)
Theorem C42_tree_fields ps : valid ps ->
  exists h, build ps = Ok h /\ length h = S (length ps) /\
  forall x, is_node ps x -> exists n d, nth_error h x = Some n /\
    fa n = par ps x /\ son n = children ps x /\ height n = Some d /\ depth ps x d.
Proof.
  intros V. destruct (build_ok ps V) as (h & B & LH & R). exists h. split; [assumption|].
  split; [assumption|]. intros x N. destruct (R x N) as (n & E & F & S & (d & H & D) & _).
  exists n, d. auto.
Qed.
(** [getAncestor(level)] is the level-th parent; a level above the height is an
    access outside an ancestor table. *)
Theorem C42_getAncestor ps h x d level : valid ps -> build ps = Ok h -> is_node ps x -> depth ps x d ->
  (level <= d -> exists y, getAncestor h x level = Ok y /\ up ps level x = Some y) /\
  (d < level -> getAncestor h x level = UB).
Proof.
  intros V B N D. destruct (build_ok ps V) as (h' & B' & R). assert (h' = h) by congruence. subst h'.
  rewrite (getAncestor_rep ps V h R x level N). split; intros L.
  - destruct (up_some ps level x d D L) as (y & U & _). exists y. now rewrite U.
  - now rewrite (up_none ps level x d D L).
Qed.
Example C42_example :
  valid [0; 1; 2; 3; 4; 5] /\ depth [0; 1; 2; 3; 4; 5] 6 6 /\
  (h <- build [0; 1; 2; 3; 4; 5] ;; getAncestor h 6 5) = Ok 1 /\
  (h <- build [0; 1; 2; 3; 4; 5] ;; getAncestor h 6 7) = UB.
Proof.
  split; [|vm_compute; auto].
  intros i p H. do 6 (destruct i as [|i]; [injection H as <-; lia|]). destruct i; discriminate.
Qed.

(** C43.  Every two nodes have a unique deepest common ancestor, and LCA returns
    it exactly when the binary descent stays inside the tables; otherwise it
    reads outside an ancestor vector. *)
Theorem C43_lca_exists ps x y : valid ps -> is_node ps x -> is_node ps y ->
  exists z, is_lca ps x y z /\ forall w, is_lca ps x y w -> w = z.
Proof.
  intros V NX NY. destruct (lca_ex ps V x y NX NY) as [z Z]. exists z. split; [assumption|].
  intros w W. eapply lca_unique; eassumption.
Qed.
Theorem C43_lca ps h x y z dx dy dz :
  valid ps -> build ps = Ok h -> is_node ps x -> is_node ps y ->
  depth ps x dx -> depth ps y dy -> is_lca ps x y z -> depth ps z dz ->
  let hc := Nat.min dx dy in
  (climb_safe hc (hc - dz) -> LCA h x y = Ok z) /\
  (~ climb_safe hc (hc - dz) -> LCA h x y = UB).
Proof.
  intros V B NX NY X Y L Z. destruct (build_ok ps V) as (h' & B' & R). assert (h' = h) by congruence. subst h'.
  exact (LCA_rep ps V h R x y z dx dy dz NX NY X Y L Z).
Qed.
(** whatever LCA returns is the deepest common ancestor *)
Theorem C43_lca_sound ps h x y z :
  valid ps -> build ps = Ok h -> is_node ps x -> is_node ps y ->
  LCA h x y = Ok z -> is_lca ps x y z.
Proof.
  intros V B NX NY E. destruct (lca_ex ps V x y NX NY) as [w W].
  destruct (depth_ex ps V x NX) as [dx X]. destruct (depth_ex ps V y NY) as [dy Y].
  assert (NW : is_node ps w) by (destruct W as ([k K] & _); exact (up_node ps V k x w NX K)).
  destruct (depth_ex ps V w NW) as [dw DW].
  destruct (C43_lca ps h x y w dx dy dw V B NX NY X Y W DW) as [S U].
  assert (E2 : LCA h x y = Ok w \/ LCA h x y = UB).
  { unfold climb_safe in *. destruct (Nat.eq_dec (Nat.min dx dy - dw) 0) as [Z|Z].
    - left. apply S. lia.
    - set (hc := Nat.min dx dy) in *.
      assert (D : forall n, (forall i, i <= n -> (hc - dw - 1) / 2 ^ (i + 1) * 2 ^ (i + 1) + 2 ^ i <= hc) \/
                ~ (forall i, i <= n -> (hc - dw - 1) / 2 ^ (i + 1) * 2 ^ (i + 1) + 2 ^ i <= hc)).
      { induction n as [|n [IH|IH]].
        - destruct (le_lt_dec ((hc - dw - 1) / 2 ^ (0 + 1) * 2 ^ (0 + 1) + 2 ^ 0) hc) as [H|H].
          + left. intros i I. assert (i = 0) by lia. subst i. assumption.
          + right. intros G. specialize (G 0 ltac:(lia)). lia.
        - destruct (le_lt_dec ((hc - dw - 1) / 2 ^ (1 + n + 1) * 2 ^ (1 + n + 1) + 2 ^ (1 + n)) hc) as [H|H].
          + left. intros i I. destruct (Nat.eq_dec i (1 + n)) as [->|]; [assumption|apply IH; lia].
          + right. intros G. specialize (G (1 + n) ltac:(lia)). lia.
        - right. intros G. apply IH. intros i I. apply G. lia. }
      destruct (D (Nat.log2 hc)) as [H|H]; [left; apply S; auto|].
      right. apply U. intros G. apply H. apply G. lia. }
  destruct E2 as [E2|E2]; [|congruence]. assert (z = w) by congruence. subst z. assumption.
Qed.
(** no out-of-range read when one of the nodes has depth at most 4, or when
    the shallower depth is one less than a power of two *)
Theorem C43_shallow h d : h <= 4 -> d <= h -> climb_safe h d.
Proof.
  intros H D P i I.
  assert (B : forallb (fun h => forallb (fun d => (d =? 0) || forallb (fun i =>
      (d - 1) / 2 ^ (i + 1) * 2 ^ (i + 1) + 2 ^ i <=? h) (seq 0 (S (Nat.log2 h)))) (seq 0 (S h))) (seq 0 5) = true)
    by reflexivity.
  rewrite forallb_forall in B. specialize (B h ltac:(apply in_seq; lia)). cbv beta in B.
  rewrite forallb_forall in B. specialize (B d ltac:(apply in_seq; lia)). cbv beta in B.
  apply orb_true_iff in B. destruct B as [B|B]; [apply Nat.eqb_eq in B; lia|].
  rewrite forallb_forall in B. specialize (B i ltac:(apply in_seq; lia)). cbv beta in B.
  now apply Nat.leb_le in B.
Qed.
Theorem C43_full_depth k d : d <= 2 ^ k - 1 -> climb_safe (2 ^ k - 1) d.
Proof.
  intros D P i I. set (q := (d - 1) / 2 ^ (i + 1)).
  assert (P1 : 2 ^ (i + 1) = 2 * 2 ^ i) by (rewrite Nat.add_1_r; simpl; lia).
  assert (Hk : i < k).
  { destruct (le_lt_dec k i) as [L|L]; [|assumption]. exfalso.
    destruct k as [|k]; [simpl in D; lia|].
    assert (Nat.log2 (2 ^ S k - 1) < S k); [|lia].
    apply Nat.log2_lt_pow2; [pose proof (pow2_gt (S k)); lia|pose proof (pow2_pos (S k)); lia]. }
  assert (P2 : 2 ^ k = 2 ^ (k - (i + 1)) * 2 ^ (i + 1)) by (rewrite <- Nat.pow_add_r; f_equal; lia).
  assert (Q : q < 2 ^ (k - (i + 1))).
  { apply Nat.div_lt_upper_bound; [pose proof (pow2_pos (i + 1)); lia|]. rewrite Nat.mul_comm, <- P2. lia. }
  assert (q * 2 ^ (i + 1) + 2 ^ (i + 1) <= 2 ^ k) by (rewrite P2; nia).
  pose proof (pow2_pos i). lia.
Qed.
(** "LCA is memory safe" is false: two leaves at depth 5 below the root *)
Theorem C43_lca_safe_refuted : exists ps h x y,
  valid ps /\ build ps = Ok h /\ is_node ps x /\ is_node ps y /\ LCA h x y = UB.
Proof.
  exists [0; 1; 2; 3; 4; 0; 6; 7; 8; 9]. eexists. exists 5, 10.
  split; [|split; [vm_compute; reflexivity|]].
  - intros i p H. do 10 (destruct i as [|i]; [injection H as <-; lia|]). destruct i; discriminate.
  - unfold is_node; simpl. repeat split; try lia. 
Qed.
Example C43_example :
  is_lca [0; 0; 1; 1; 3] 5 4 1 /\ depth [0; 0; 1; 1; 3] 5 3 /\ depth [0; 0; 1; 1; 3] 4 2 /\
  climb_safe 2 (2 - 1) /\ (h <- build [0; 0; 1; 1; 3] ;; LCA h 5 4) = Ok 1.
Proof.
  assert (V : valid [0; 0; 1; 1; 3]).
  { intros i p H. do 5 (destruct i as [|i]; [injection H as <-; lia|]). destruct i; discriminate. }
  destruct (build_ok _ V) as (h & B & _). rewrite B. cbn [bind].
  assert (E : LCA h 5 4 = Ok 1).
  { assert (G : (h <- build [0; 0; 1; 1; 3] ;; LCA h 5 4) = Ok 1) by (vm_compute; reflexivity).
    rewrite B in G. exact G. }
  split; [eapply C43_lca_sound; [exact V|exact B|unfold is_node; simpl; lia|unfold is_node; simpl; lia|exact E]|].
  split; [reflexivity|]. split; [reflexivity|]. split; [apply C43_shallow; lia|]. exact E.
Qed.

(** C44.  The distance is the length of a shortest walk. *)
Theorem C44_distance ps h x y z dx dy dz :
  valid ps -> build ps = Ok h -> is_node ps x -> is_node ps y ->
  depth ps x dx -> depth ps y dy -> is_lca ps x y z -> depth ps z dz ->
  climb_safe (Nat.min dx dy) (Nat.min dx dy - dz) ->
  exists n, getDistance h x y = Ok (Z.of_nat n) /\
    walk ps n x y /\ forall m, walk ps m x y -> n <= m.
Proof.
  intros V B NX NY X Y L Z S. destruct (build_ok ps V) as (h' & B' & R). assert (h' = h) by congruence. subst h'.
  destruct (C43_lca ps h x y z dx dy dz V B NX NY X Y L Z) as [E _]. specialize (E S).
  pose proof L as (A1 & A2 & _).
  pose proof (above_depth ps z x dz dx A1 Z X) as L1. pose proof (above_depth ps z y dz dy A2 Z Y) as L2.
  exists ((dx - dz) + (dy - dz)). split.
  - unfold getDistance. rewrite (getHeight_rep ps h R x dx NX X), (getHeight_rep ps h R y dy NY Y), E.
    cbn [bind]. assert (NZ : is_node ps z) by (destruct A1 as [k K]; exact (up_node ps V k x z NX K)).
    rewrite (getHeight_rep ps h R z dz NZ Z). cbn [bind]. f_equal. lia.
  - split.
    + apply walk_app with z.
      * destruct A1 as [k K]. destruct (up_depth ps k x z dx K X) as [L3 D].
        rewrite (depth_fun ps z dz _ Z D). replace (dx - (dx - k)) with k by lia. now apply walk_up.
      * apply walk_rev. destruct A2 as [k K]. destruct (up_depth ps k y z dy K Y) as [L3 D].
        rewrite (depth_fun ps z dz _ Z D). replace (dy - (dy - k)) with k by lia. now apply walk_up.
    + intros m W. pose proof (walk_short ps V m x y W NX z dx dy dz L X Y Z). lia.
Qed.
(** getDistance reads outside an ancestor vector exactly when LCA does *)
Theorem C44_distance_outcome ps h x y : valid ps -> build ps = Ok h -> is_node ps x -> is_node ps y ->
  (LCA h x y = UB <-> getDistance h x y = UB) /\ getDistance h x y <> Err /\ getDistance h x y <> Fuel.
Proof.
  intros V B NX NY. destruct (build_ok ps V) as (h' & B' & R). assert (h' = h) by congruence. subst h'.
  destruct (depth_ex ps V x NX) as [dx X]. destruct (depth_ex ps V y NY) as [dy Y].
  unfold getDistance. rewrite (getHeight_rep ps h R x dx NX X), (getHeight_rep ps h R y dy NY Y).
  destruct (LCA h x y) as [z| | |] eqn:E.
  - pose proof (C43_lca_sound ps h x y z V B NX NY E) as ([k K] & _).
    pose proof (up_node ps V k x z NX K) as NZ. destruct (depth_ex ps V z NZ) as [dz Z].
    cbn [bind]. rewrite (getHeight_rep ps h R z dz NZ Z). cbn [bind]. repeat split; discriminate.
  - exfalso. destruct (lca_ex ps V x y NX NY) as [w W].
    assert (NW : is_node ps w) by (destruct W as ([k K] & _); exact (up_node ps V k x w NX K)).
    destruct (depth_ex ps V w NW) as [dw DW].
    destruct (C43_lca ps h x y w dx dy dw V B NX NY X Y W DW) as [S U].
    assert (NS : ~ climb_safe (Nat.min dx dy) (Nat.min dx dy - dw)) by (intros G; rewrite (S G) in E; discriminate).
    rewrite (U NS) in E. discriminate.
  - cbn [bind]. repeat split; discriminate.
  - exfalso. destruct (lca_ex ps V x y NX NY) as [w W].
    assert (NW : is_node ps w) by (destruct W as ([k K] & _); exact (up_node ps V k x w NX K)).
    destruct (depth_ex ps V w NW) as [dw DW].
    destruct (C43_lca ps h x y w dx dy dw V B NX NY X Y W DW) as [S U].
    assert (NS : ~ climb_safe (Nat.min dx dy) (Nat.min dx dy - dw)) by (intros G; rewrite (S G) in E; discriminate).
    rewrite (U NS) in E. discriminate.
Qed.
Example C44_example :
  (h <- build [0; 0; 1; 1; 3; 2] ;; getDistance h 5 6) = Ok 5%Z /\
  climb_safe 2 (2 - 0) /\ depth [0; 0; 1; 1; 3; 2] 5 3 /\ depth [0; 0; 1; 1; 3; 2] 6 2.
Proof. split; [reflexivity|]. split; [apply C43_shallow; lia|]. split; reflexivity. Qed.
Print Assumptions C43_lca.
Print Assumptions C44_distance.
Print Assumptions C42_tree_fields.
Print Assumptions C42_getAncestor.
Print Assumptions C43_lca_exists.
Print Assumptions C43_lca_sound.
Print Assumptions C43_shallow.
Print Assumptions C43_full_depth.
Print Assumptions C43_lca_safe_refuted.
Print Assumptions C44_distance_outcome.
