(** C109: iterations of the loops of Tree and memory of the jump tables. *)
From Verif Require Import Base TreeModel TreeSpec TreeProofs TreeCostModel TreeCostSpec TreeCostProofs.
Local Open Scope nat_scope.

(** counting changes neither results nor failures *)
Theorem C109_counting ps h x y level :
  omap fst (buildC ps) = build ps /\ omap fst (addNodeC h x y) = addNode h x y /\
  omap fst (getAncestorC h x level) = getAncestor h x level /\
  omap fst (LCAC h x y) = LCA h x y /\ omap fst (getDistanceC h x y) = getDistance h x y.
Proof.
  split; [apply build_erase|]. split; [apply addNode_erase|]. split; [apply getAncestor_erase|].
  split; [apply LCA_erase|apply getDistance_erase].
Qed.
(** [getAncestor(level)] takes one iteration per binary digit of the level *)
Theorem C109_getAncestor h x level y k : getAncestorC h x level = Ok (y, k) -> k = digits level.
Proof. apply getAncestor_cost. Qed.
(** building takes, for each node, as many iterations as its depth has binary
    digits, and stores as many pointers; n nodes below the root give at most
    n times the digits of n *)
Theorem C109_build ps : valid ps -> exists h k,
  buildC ps = Ok (h, k) /\ stored h = k /\ digit_sum ps 0 (S (length ps)) k /\ k <= length ps * digits (length ps) /\
  forall x n d, nth_error h x = Some n -> depth ps x d -> length (ancestor n) = digits d.
Proof.
  intros V. destruct (build_ok ps V) as (h & B & R). pose proof B as B0. rewrite <- build_erase in B.
  destruct (buildC ps) as [[h' k]| | |] eqn:E; try discriminate. injection B as ->.
  exists h, k. split; [reflexivity|]. apply build_cost in E. subst k. split; [reflexivity|].
  assert (DS : digit_sum ps 0 (S (length ps)) (stored h)).
  { pose proof R as [LH _]. rewrite <- LH. apply (stored_sum ps h V R); [reflexivity|reflexivity]. }
  split; [assumption|]. split.
  - inversion DS as [|x n d t D DS' Q1 Q2 Q3]; subst.
    assert (d = 0) by (apply (depth_fun ps 0); [exact D|reflexivity]). subst d.
    apply (digit_sum_le ps V) in DS'; [|lia]. change (digits 0) with 0 in *. lia.
  - intros x n d X D. apply (anc_digits ps h x n d V R); [|assumption|assumption].
    destruct R as [LH _]. assert (x < length h) by (apply nth_error_Some; congruence). unfold is_node. lia.
Qed.
(** adding one node below a node of depth d *)
Theorem C109_addNode ps p d : valid ps -> is_node ps p -> depth ps p d -> exists h k h' k',
  buildC ps = Ok (h, k) /\ buildC (ps ++ [p]) = Ok (h', k') /\ add_freshC h p = Ok (h', digits (S d)) /\
  k' = k + digits (S d).
Proof.
  intros V NP D. destruct (build_ok ps V) as (h & B & R).
  destruct (add_fresh_ok ps p V NP h R) as (h' & A & R').
  assert (VQ : valid (ps ++ [p])) by (apply valid_snoc; assumption).
  rewrite <- build_erase in B. destruct (buildC ps) as [[h0 k]| | |] eqn:E; try discriminate. injection B as ->.
  assert (G : forall h0 h k qs, growC h0 qs = Ok (h, k) -> growC h0 (qs ++ [p]) = (' (h, m) <- add_freshC h p ;; Ok (h, k + m))).
  { clear. intros h0 h k qs. revert h0 h k. induction qs as [|q qs IH]; intros h0 h k E; cbn [growC app] in *.
    - injection E as <- <-. destruct (add_freshC h0 p) as [[? m]| | |]; try reflexivity. cbn [bind]. now rewrite Nat.add_0_r.
    - destruct (add_freshC h0 q) as [[h1 k1]| | |]; try discriminate. cbn [bind] in *.
      destruct (growC h1 qs) as [[h2 k2]| | |] eqn:E2; try discriminate. cbn [bind] in E. injection E as <- <-.
      rewrite (IH h1 h2 k2 E2). destruct (add_freshC h2 p) as [[? m]| | |]; try reflexivity. cbn [bind]. now rewrite Nat.add_assoc. }
  assert (AE : omap fst (add_freshC h p) = add_fresh h p) by (unfold add_freshC, add_fresh, new_node; apply addNode_erase).
  rewrite A in AE. destruct (add_freshC h p) as [[h1 m]| | |] eqn:EA; try discriminate. injection AE as ->.
  assert (BB : buildC (ps ++ [p]) = Ok (h', k + m)).
  { unfold buildC, new_node in E |- *. destruct (setRoot _ _) as [hr| | |]; try discriminate. cbn [bind] in *.
    rewrite (G _ _ _ _ E), EA. reflexivity. }
  assert (M : m = digits (S d)).
  { unfold add_freshC, new_node in EA. pose proof EA as EA0. apply addNode_cost in EA.
    destruct (C109_build ps V) as (g & j & E1 & S1 & DS1 & _). rewrite E in E1. injection E1 as <- <-.
    destruct (C109_build _ VQ) as (g & j & E1 & S2 & DS2 & _). rewrite BB in E1. injection E1 as <- <-.
    pose proof (build_cost _ _ _ BB) as _.
    (* all old nodes keep their depth *)
    assert (SN : forall x n t, digit_sum ps x n t -> x + n <= S (length ps) -> forall t', digit_sum (ps ++ [p]) x (n + 1) t' -> x + n = S (length ps) -> t' = t + digits (S d)).
    { intros x n t H. induction H as [x|x n d0 t D0 H IH]; intros L t' H' Q.
      - inversion H' as [|x1 n1 d1 t1 D1 H1 Q1 Q2 Q3]; subst. inversion H1; subst.
        assert (x = S (length ps)) by lia. subst x.
        assert (d1 = S d).
        { apply (depth_fun (ps ++ [p]) (S (length ps))); [assumption|]. unfold depth. cbn [up]. rewrite par_last.
          rewrite up_snoc; assumption. }
        subst d1. lia.
      - cbn [Nat.add] in H'. inversion H' as [|x1 n1 d1 t1 D1 H1 Q1 Q2 Q3]; subst.
        assert (d1 = d0).
        { apply (depth_fun (ps ++ [p]) x); [assumption|]. unfold depth. rewrite up_snoc; [exact D0|assumption|unfold is_node; lia]. }
        subst d1. rewrite (IH ltac:(lia) t1 H1 ltac:(lia)). lia. }
    rewrite app_length in DS2. cbn [length] in DS2.
    pose proof (SN 0 (S (length ps)) k DS1 ltac:(lia) (k + m) DS2 eq_refl). lia. }
  subst m. exists h, k, h', (k + digits (S d)). auto.
Qed.
(** LCA and getDistance: the digits of the difference of the depths and, unless
    one node is above the other, the digits of the smaller depth *)
Theorem C109_LCA ps h x y dx dy z k : valid ps -> build ps = Ok h -> is_node ps x -> is_node ps y ->
  depth ps x dx -> depth ps y dy -> LCAC h x y = Ok (z, k) ->
  (above ps x y \/ above ps y x -> k = digits (dx - dy + (dy - dx))) /\
  (~ above ps x y -> ~ above ps y x -> k = digits (dx - dy + (dy - dx)) + digits (Nat.min dx dy)).
Proof.
  intros V B NX NY X Y E. destruct (build_ok ps V) as (h' & B' & R). assert (h' = h) by congruence. subst h'.
  exact (LCA_cost ps h x y dx dy z k V R NX NY X Y E).
Qed.
Theorem C109_bound ps h x y v k : valid ps -> build ps = Ok h -> is_node ps x -> is_node ps y ->
  getDistanceC h x y = Ok (v, k) -> k <= 2 * digits (length ps).
Proof.
  intros V B NX NY E. destruct (depth_ex ps V x NX) as [dx X]. destruct (depth_ex ps V y NY) as [dy Y].
  unfold getDistanceC in E. destruct (getHeight h x); try discriminate. cbn [bind] in E.
  destruct (getHeight h y); try discriminate. cbn [bind] in E.
  destruct (LCAC h x y) as [[z m]| | |] eqn:EL; try discriminate. cbn [bind] in E.
  destruct (getHeight h z); try discriminate. cbn [bind] in E. injection E as _ <-.
  destruct (build_ok ps V) as (h' & B' & R). assert (h' = h) by congruence. subst h'.
  assert (H1 : m = digits (dx - dy + (dy - dx)) \/ m = digits (dx - dy + (dy - dx)) + digits (Nat.min dx dy)).
  { unfold LCAC in EL. rewrite (getHeight_rep ps h R x dx NX X), (getHeight_rep ps h R y dy NY Y) in EL. cbn [bind] in EL. 
    clear - EL V R NX NY X Y B. 
    assert (EL' : LCAC h x y = Ok (z, m)).
    { unfold LCAC. rewrite (getHeight_rep ps h R x dx NX X), (getHeight_rep ps h R y dy NY Y). exact EL. }
    pose proof (C109_LCA ps h x y dx dy z m V B NX NY X Y EL') as [A1 A2].
    assert (DEC : forall u w du dw, depth ps u du -> depth ps w dw -> above ps u w \/ ~ above ps u w).
    { intros u w du dw DU DW. destruct (up ps (dw - du) w) as [q|] eqn:Q.
      - destruct (Nat.eq_dec q u) as [->|NE]; [left; exists (dw - du); exact Q|right]. intros [j J].
        destruct (up_depth ps j w u dw J DW) as [LJ DJ]. pose proof (depth_fun ps u _ _ DU DJ). assert (j = dw - du) by lia. congruence.
      - right. intros [j J]. destruct (up_depth ps j w u dw J DW) as [LJ DJ]. pose proof (depth_fun ps u _ _ DU DJ). assert (j = dw - du) by lia. congruence. }
    destruct (DEC x y dx dy X Y) as [H|H]; [left; auto|]. destruct (DEC y x dy dx Y X) as [H'|H']; [left; auto|right; auto]. }
  apply (up_le ps V) in X. apply (up_le ps V) in Y. unfold is_node in NX, NY.
  pose proof (digits_mono (dx - dy + (dy - dx)) (length ps) ltac:(lia)). pose proof (digits_mono (Nat.min dx dy) (length ps) ltac:(lia)). lia.
Qed.

(** a chain of five nodes with a leaf beside it *)
Example C109_example : let ps := [0; 1; 2; 3; 0] in
  match buildC ps with
  | Ok (h, k) => k = 9 /\ stored h = 9 /\ LCAC h 4 5 = Ok (0, 3) /\ LCAC h 4 1 = Ok (1, 2) /\
      getAncestorC h 4 3 = Ok (1, 2) /\ getDistanceC h 4 5 = Ok (5%Z, 3)
  | _ => False
  end /\ digits 4 = 3 /\ 2 * digits (length ps) = 6.
Proof. vm_compute. repeat split. Qed.

Print Assumptions C109_counting.
Print Assumptions C109_getAncestor.
Print Assumptions C109_build.
Print Assumptions C109_addNode.
Print Assumptions C109_LCA.
Print Assumptions C109_bound.
