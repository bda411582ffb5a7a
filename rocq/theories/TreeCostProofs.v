From Verif Require Import Base TreeModel TreeSpec TreeProofs TreeCostModel TreeCostSpec.
Local Open Scope nat_scope.

(** * Forgetting the counters *)
Lemma getAncestor_loop_erase h level fuel : forall i cur,
  omap fst (getAncestor_loopC fuel h level i cur) = getAncestor_loop fuel h level i cur.
Proof.
  induction fuel as [|f IH]; intros i cur; [reflexivity|]. cbn [getAncestor_loopC getAncestor_loop].
  destruct (2 ^ i <=? level); [|reflexivity].
  destruct (if Nat.testbit level i then _ else _) as [c| | |]; try reflexivity. cbn [bind].
  rewrite <- IH. destruct (getAncestor_loopC f h level (S i) c) as [[? ?]| | |]; reflexivity.
Qed.
Lemma getAncestor_erase h x level : omap fst (getAncestorC h x level) = getAncestor h x level.
Proof. apply getAncestor_loop_erase. Qed.
Lemma add_loop_erase x fuel : forall h i, omap fst (add_loopC fuel h x i) = add_loop fuel h x i.
Proof.
  induction fuel as [|f IH]; intros h i; [reflexivity|]. cbn [add_loopC add_loop].
  destruct (get h x) as [n| | |]; try reflexivity. cbn [bind].
  destruct (at_anc n i) as [nx| | |]; try reflexivity. cbn [bind].
  destruct (get h nx) as [m| | |]; try reflexivity. cbn [bind].
  destruct (length (ancestor m) <=? i); [reflexivity|].
  destruct (at_anc m i) as [a| | |]; try reflexivity. cbn [bind].
  destruct (put h x _) as [h'| | |]; try reflexivity. cbn [bind].
  rewrite <- IH. destruct (add_loopC f h' x (S i)) as [[? ?]| | |]; reflexivity.
Qed.
Lemma addNode_erase h x f : omap fst (addNodeC h x f) = addNode h x f.
Proof.
  unfold addNodeC, addNode.
  repeat match goal with
  | |- omap fst (bind ?m _) = bind ?m _ => destruct m; try reflexivity; cbn [bind]
  end.
  apply add_loop_erase.
Qed.
Lemma lca_loop_erase h i : forall x y, omap fst (lca_loopC h i x y) = lca_loop h i x y.
Proof.
  induction i as [|i IH]; intros x y; [reflexivity|]. cbn [lca_loopC lca_loop].
  destruct (get h x) as [nx| | |]; try reflexivity. cbn [bind].
  destruct (get h y) as [ny| | |]; try reflexivity. cbn [bind].
  destruct (at_anc nx i) as [a| | |]; try reflexivity. cbn [bind].
  destruct (at_anc ny i) as [b| | |]; try reflexivity. cbn [bind].
  destruct (a =? b).
  - rewrite <- IH. destruct (lca_loopC h i x y) as [[[? ?] ?]| | |]; reflexivity.
  - rewrite <- IH. destruct (lca_loopC h i a b) as [[[? ?] ?]| | |]; reflexivity.
Qed.
Lemma LCA_erase h x y : omap fst (LCAC h x y) = LCA h x y.
Proof.
  unfold LCAC, LCA. destruct (getHeight h x) as [hx| | |]; try reflexivity. cbn [bind].
  destruct (getHeight h y) as [hy| | |]; try reflexivity. cbn [bind].
  assert (G : forall x y k, omap fst (if x =? y then Ok (x, k) else
      n <- get h x ;; ' (x, y, m) <- lca_loopC h (length (ancestor n)) x y ;;
      n <- get h x ;; match fa n with Some p => Ok (p, k + m) | None => UB end) =
    (if x =? y then Ok x else
      n <- get h x ;; ' (x, y) <- lca_loop h (length (ancestor n)) x y ;;
      n <- get h x ;; match fa n with Some p => Ok p | None => UB end)).
  { clear. intros x y k. destruct (x =? y); [reflexivity|]. destruct (get h x) as [n| | |]; try reflexivity. cbn [bind].
    rewrite <- lca_loop_erase. destruct (lca_loopC h (length (ancestor n)) x y) as [[[x' y'] m]| | |]; try reflexivity.
    cbn [bind omap fst]. destruct (get h x') as [n'| | |]; try reflexivity. cbn [bind]. destruct (fa n'); reflexivity. }
  destruct (hx <? hy).
  - rewrite <- getAncestor_erase. destruct (getAncestorC h y (hy - hx)) as [[b k]| | |]; try reflexivity. cbn [bind omap fst]. apply G.
  - rewrite <- getAncestor_erase. destruct (getAncestorC h x (hx - hy)) as [[b k]| | |]; try reflexivity. cbn [bind omap fst]. apply G.
Qed.
Lemma getDistance_erase h x y : omap fst (getDistanceC h x y) = getDistance h x y.
Proof.
  unfold getDistanceC, getDistance. destruct (getHeight h x) as [hx| | |]; try reflexivity. cbn [bind].
  destruct (getHeight h y) as [hy| | |]; try reflexivity. cbn [bind]. rewrite <- LCA_erase.
  destruct (LCAC h x y) as [[l k]| | |]; try reflexivity. cbn [bind omap fst]. destruct (getHeight h l); reflexivity.
Qed.
Lemma grow_erase ps : forall h, omap fst (growC h ps) = grow h ps.
Proof.
  induction ps as [|p ps IH]; intros h; [reflexivity|]. cbn [growC grow].
  assert (E : omap fst (add_freshC h p) = add_fresh h p) by (unfold add_freshC, add_fresh, new_node; apply addNode_erase).
  rewrite <- E. destruct (add_freshC h p) as [[h' k]| | |]; try reflexivity. cbn [bind omap fst].
  rewrite <- IH. destruct (growC h' ps) as [[h'' m]| | |]; reflexivity.
Qed.
Lemma build_erase ps : omap fst (buildC ps) = build ps.
Proof. unfold buildC, build, new_node. destruct (setRoot _ _); try reflexivity. cbn [bind]. apply grow_erase. Qed.

(** * getAncestor *)
Lemma digits_le_iff i d : i < digits d <-> 2 ^ i <= d.
Proof.
  unfold digits. destruct (Nat.eqb_spec d 0) as [->|N].
  - pose proof (pow2_pos i). lia.
  - pose proof (Nat.log2_spec d ltac:(lia)) as [L U]. split; intros H.
    + assert (2 ^ i <= 2 ^ Nat.log2 d) by (apply Nat.pow_le_mono_r; lia). lia.
    + destruct (le_lt_dec i (Nat.log2 d)); [lia|]. assert (2 ^ S (Nat.log2 d) <= 2 ^ i) by (apply Nat.pow_le_mono_r; lia). lia.
Qed.
Lemma getAncestor_loop_cost h level fuel : forall i cur y k, i <= digits level ->
  getAncestor_loopC fuel h level i cur = Ok (y, k) -> k = digits level - i.
Proof.
  induction fuel as [|f IH]; intros i cur y k I E; [discriminate|]. cbn [getAncestor_loopC] in E.
  destruct (Nat.leb_spec (2 ^ i) level) as [L|L].
  - apply digits_le_iff in L. destruct (if Nat.testbit level i then _ else _) as [c| | |]; try discriminate. cbn [bind] in E.
    destruct (getAncestor_loopC f h level (S i) c) as [[z m]| | |] eqn:E2; try discriminate. cbn [bind] in E.
    injection E as <- <-. apply IH in E2; lia.
  - injection E as <- <-. assert (~ i < digits level) by (rewrite digits_le_iff; lia). lia.
Qed.
Lemma getAncestor_cost h x level y k : getAncestorC h x level = Ok (y, k) -> k = digits level.
Proof. intros E. apply getAncestor_loop_cost in E; lia. Qed.

(** * LCA *)
Lemma lca_loop_cost h i : forall x y a b k, lca_loopC h i x y = Ok (a, b, k) -> k = i.
Proof.
  induction i as [|i IH]; intros x y a b k E; [injection E as <- <- <-; reflexivity|]. cbn [lca_loopC] in E.
  destruct (get h x) as [nx| | |]; try discriminate. cbn [bind] in E.
  destruct (get h y) as [ny| | |]; try discriminate. cbn [bind] in E.
  destruct (at_anc nx i) as [p| | |]; try discriminate. cbn [bind] in E.
  destruct (at_anc ny i) as [q| | |]; try discriminate. cbn [bind] in E.
  destruct (p =? q).
  - destruct (lca_loopC h i x y) as [[[u v] m]| | |] eqn:E2; try discriminate. cbn [bind] in E.
    injection E as <- <- <-. f_equal. eapply IH. exact E2.
  - destruct (lca_loopC h i p q) as [[[u v] m]| | |] eqn:E2; try discriminate. cbn [bind] in E.
    injection E as <- <- <-. f_equal. eapply IH. exact E2.
Qed.
Lemma anc_digits ps h x n d : valid ps -> rep ps h -> is_node ps x -> nth_error h x = Some n -> depth ps x d ->
  length (ancestor n) = digits d.
Proof.
  intros V [_ R] N E D. destruct (R x N) as (n' & E' & O). assert (n' = n) by congruence. subst n'.
  unfold digits. destruct (Nat.eqb_spec d 0) as [->|NZ].
  - destruct O as (_ & _ & _ & A). specialize (A 0). injection D as ->.
    destruct (ancestor n) as [|a l]; [reflexivity|]. simpl in A. discriminate.
  - apply (anc_length ps x n d O D); lia.
Qed.
Lemma up_same_depth ps k x d y : up ps k x = Some y -> depth ps x d -> valid ps -> depth ps y (d - k) /\ k <= d.
Proof. intros U D V. destruct (up_depth ps k x y d U D). auto. Qed.
Lemma LCA_cost ps h x y dx dy z k : valid ps -> rep ps h -> is_node ps x -> is_node ps y ->
  depth ps x dx -> depth ps y dy -> LCAC h x y = Ok (z, k) ->
  (above ps x y \/ above ps y x -> k = digits (dx - dy + (dy - dx))) /\
  (~ above ps x y -> ~ above ps y x -> k = digits (dx - dy + (dy - dx)) + digits (Nat.min dx dy)).
Proof.
  intros V R NX NY X Y E. unfold LCAC in E.
  rewrite (getHeight_rep ps h R x dx NX X), (getHeight_rep ps h R y dy NY Y) in E. cbn [bind] in E.
  assert (G : forall u v k0 d, is_node ps u -> is_node ps v -> depth ps u d -> depth ps v d ->
    (if u =? v then Ok (u, k0) else
      n <- get h u ;; ' (x, y, m) <- lca_loopC h (length (ancestor n)) u v ;;
      n <- get h x ;; match fa n with Some p => Ok (p, k0 + m) | None => UB end) = Ok (z, k) ->
    (u = v -> k = k0) /\ (u <> v -> k = k0 + digits d)).
  { clear - V R. intros u v k0 d NU NV DU DV E. destruct (Nat.eqb_spec u v) as [Q|Q].
    - injection E as <- <-. split; intros; [reflexivity|contradiction].
    - split; [contradiction|intros _]. unfold get at 1 in E. destruct (nth_error h u) as [n|] eqn:En; [|discriminate]. cbn [bind] in E.
      rewrite (anc_digits ps h u n d V R NU En DU) in E.
      destruct (lca_loopC h (digits d) u v) as [[[x' y'] m]| | |] eqn:EL; try discriminate. cbn [bind] in E.
      apply lca_loop_cost in EL. subst m. destruct (get h x') as [n'| | |]; try discriminate. cbn [bind] in E.
      destruct (fa n'); [|discriminate]. injection E as <- <-. reflexivity. }
  destruct (Nat.ltb_spec dx dy) as [L|L].
  - destruct (getAncestorC h y (dy - dx)) as [[b k0]| | |] eqn:EA; try discriminate. cbn [bind] in E.
    pose proof (getAncestor_cost _ _ _ _ _ EA) as ->.
    assert (GA : getAncestor h y (dy - dx) = Ok b) by (rewrite <- getAncestor_erase, EA; reflexivity).
    rewrite (getAncestor_rep ps V h R y (dy - dx) NY) in GA.
    destruct (up ps (dy - dx) y) as [b'|] eqn:U; [|discriminate]. injection GA as ->.
    destruct (up_depth ps (dy - dx) y b dy U Y) as [_ DB]. replace (dy - (dy - dx)) with dx in DB by lia.
    apply (G x b (digits (dy - dx)) dx) in E; [|assumption|exact (up_node ps V _ _ _ NY U)|assumption|assumption].
    rewrite Nat.min_l by lia. replace (dx - dy + (dy - dx)) with (dy - dx) by lia. destruct E as [E1 E2].
    assert (AB : above ps x y <-> x = b).
    { split; [|intros ->; exists (dy - dx); exact U]. intros [j J]. destruct (up_depth ps j y x dy J Y) as [LJ DJ].
      pose proof (depth_fun ps x _ _ X DJ). assert (j = dy - dx) by lia. congruence. }
    assert (NA : ~ above ps y x).
    { intros [j J]. destruct (up_depth ps j x y dx J X) as [LJ DJ]. pose proof (depth_fun ps y _ _ Y DJ). lia. }
    split; [intros [A|A]; [apply E1, AB, A|contradiction]|]. intros A _. apply E2. intros Q. apply A, AB, Q.
  - destruct (getAncestorC h x (dx - dy)) as [[a k0]| | |] eqn:EA; try discriminate. cbn [bind] in E.
    pose proof (getAncestor_cost _ _ _ _ _ EA) as ->.
    assert (GA : getAncestor h x (dx - dy) = Ok a) by (rewrite <- getAncestor_erase, EA; reflexivity).
    rewrite (getAncestor_rep ps V h R x (dx - dy) NX) in GA.
    destruct (up ps (dx - dy) x) as [a'|] eqn:U; [|discriminate]. injection GA as ->.
    destruct (up_depth ps (dx - dy) x a dx U X) as [_ DA]. replace (dx - (dx - dy)) with dy in DA by lia.
    apply (G a y (digits (dx - dy)) dy) in E; [|exact (up_node ps V _ _ _ NX U)|assumption|assumption|assumption].
    rewrite Nat.min_r by lia. replace (dx - dy + (dy - dx)) with (dx - dy) by lia. destruct E as [E1 E2].
    assert (AB : above ps y x <-> a = y).
    { split; [|intros <-; exists (dx - dy); exact U]. intros [j J]. destruct (up_depth ps j x y dx J X) as [LJ DJ].
      pose proof (depth_fun ps y _ _ Y DJ). assert (j = dx - dy) by lia. congruence. }
    assert (AX : above ps x y -> a = y).
    { intros [j J]. destruct (up_depth ps j y x dy J Y) as [LJ DJ]. pose proof (depth_fun ps x _ _ X DJ).
      assert (j = 0) by lia. subst j. injection J as ->. assert (dx - dy = 0) as Q by lia. rewrite Q in U. injection U as ->. reflexivity. }
    split; [intros [A|A]; apply E1; [apply AX, A|apply AB, A]|]. intros _ A. apply E2. intros Q. apply A, AB, Q.
Qed.

(** * addNode: iterations are the pointers stored *)
Lemma stored_upd h x n m : nth_error h x = Some n -> stored (upd h x m) + length (ancestor n) = stored h + length (ancestor m).
Proof.
  revert x; induction h as [|a h IH]; intros [|x] E; cbn [nth_error] in E; try discriminate.
  - injection E as ->. unfold stored. cbn [upd fold_right]. lia.
  - specialize (IH x E). unfold stored in *. cbn [upd fold_right]. lia.
Qed.
Lemma get_some h x n : get h x = Ok n -> nth_error h x = Some n.
Proof. unfold get. destruct (nth_error h x); [|discriminate]. congruence. Qed.
Lemma put_upd h x n h' : put h x n = Ok h' -> h' = upd h x n.
Proof. unfold put. destruct (x <? length h); [|discriminate]. congruence. Qed.
Lemma add_loop_cost x fuel : forall h i h' k, add_loopC fuel h x i = Ok (h', k) -> stored h' + 1 = stored h + k.
Proof.
  induction fuel as [|f IH]; intros h i h' k E; [discriminate|]. cbn [add_loopC] in E.
  destruct (get h x) as [n| | |] eqn:G; try discriminate. cbn [bind] in E.
  destruct (at_anc n i) as [nx| | |]; try discriminate. cbn [bind] in E.
  destruct (get h nx) as [m| | |]; try discriminate. cbn [bind] in E.
  destruct (length (ancestor m) <=? i); [injection E as <- <-; lia|].
  destruct (at_anc m i) as [a| | |]; try discriminate. cbn [bind] in E.
  destruct (put h x _) as [h1| | |] eqn:P; try discriminate. cbn [bind] in E. apply put_upd in P.
  destruct (add_loopC f h1 x (S i)) as [[h2 j]| | |] eqn:E2; try discriminate. cbn [bind] in E. injection E as <- <-.
  apply IH in E2. pose proof (stored_upd h x n (Node (fa n) (son n) (height n) (ancestor n ++ [a])) (get_some _ _ _ G)) as S1.
  rewrite <- P in S1. cbn [ancestor] in S1. rewrite app_length in S1. cbn [length] in S1. lia.
Qed.
Lemma addNode_cost h x f h' k : addNodeC h x f = Ok (h', k) -> stored h' = stored h + k.
Proof.
  unfold addNodeC. intros E.
  assert (PUT : forall h y m n h', get h y = Ok n -> put h y m = Ok h' -> stored h' + length (ancestor n) = stored h + length (ancestor m)).
  { intros h0 y m n h0' G P. apply put_upd in P. subst h0'. apply stored_upd. now apply get_some. }
  destruct (get h f) as [n1| | |] eqn:G1; try discriminate. cbn [bind] in E.
  destruct (put h f _) as [h1| | |] eqn:P1; try discriminate. cbn [bind] in E. apply (PUT _ _ _ _ _ G1) in P1.
  destruct (get h1 x) as [n2| | |] eqn:G2; try discriminate. cbn [bind] in E.
  destruct (put h1 x _) as [h2| | |] eqn:P2; try discriminate. cbn [bind] in E. apply (PUT _ _ _ _ _ G2) in P2.
  destruct (getHeight h2 f) as [d| | |]; try discriminate. cbn [bind] in E.
  destruct (get h2 x) as [n3| | |] eqn:G3; try discriminate. cbn [bind] in E.
  destruct (put h2 x _) as [h3| | |] eqn:P3; try discriminate. cbn [bind] in E. apply (PUT _ _ _ _ _ G3) in P3.
  destruct (get h3 x) as [n4| | |] eqn:G4; try discriminate. cbn [bind] in E.
  destruct (put h3 x _) as [h4| | |] eqn:P4; try discriminate. cbn [bind] in E. apply (PUT _ _ _ _ _ G4) in P4.
  apply add_loop_cost in E. cbn [ancestor] in *. rewrite app_length in P4. cbn [length] in P4. lia.
Qed.
Lemma grow_cost ps : forall h h' k, growC h ps = Ok (h', k) -> stored h' = stored h + k.
Proof.
  induction ps as [|p ps IH]; intros h h' k E; cbn [growC] in E; [injection E as <- <-; lia|].
  destruct (add_freshC h p) as [[h1 k1]| | |] eqn:E1; try discriminate. cbn [bind] in E.
  destruct (growC h1 ps) as [[h2 k2]| | |] eqn:E2; try discriminate. cbn [bind] in E. injection E as <- <-.
  apply IH in E2. unfold add_freshC, new_node in E1. apply addNode_cost in E1.
  assert (stored (h ++ [Node None [] None []]) = stored h).
  { unfold stored. rewrite fold_right_app. reflexivity. }
  lia.
Qed.
Lemma build_cost ps h k : buildC ps = Ok (h, k) -> k = stored h.
Proof.
  unfold buildC, new_node. change (setRoot ([] ++ [Node None [] None []]) (length (@nil node))) with (Ok [Node None [] (Some 0) []]).
  cbn [bind]. intros E. apply grow_cost in E. simpl in E. lia.
Qed.

(** * The sum over all nodes *)
Lemma stored_sum ps h : valid ps -> rep ps h -> forall l x, skipn x h = l -> x + length l = length h -> digit_sum ps x (length l) (stored l).
Proof.
  intros V R. induction l as [|n l IH]; intros x E L; [constructor|]. cbn [length stored fold_right] in *.
  assert (X : nth_error h x = Some n).
  { rewrite <- (firstn_skipn x h). rewrite nth_error_app2, firstn_length by (rewrite firstn_length; lia).
    replace (x - Nat.min x (length h)) with 0 by lia. rewrite E. reflexivity. }
  destruct R as [LH RH]. assert (N : is_node ps x) by (unfold is_node; lia).
  destruct (depth_ex ps V x N) as [d D].
  rewrite (anc_digits ps h x n d V (conj LH RH) N X D). constructor; [assumption|].
  apply IH; [|lia]. replace (S x) with (1 + x) by lia.
  transitivity (skipn 1 (skipn x h)); [|rewrite E; reflexivity].
  clear. revert h; induction x as [|x IH]; intros h; [reflexivity|]. destruct h as [|a h]; [rewrite !skipn_nil; reflexivity|]. cbn [skipn Nat.add] in *. apply IH.
Qed.
Lemma digits_mono a b : a <= b -> digits a <= digits b.
Proof.
  intros L. unfold digits. destruct (Nat.eqb_spec a 0); [lia|]. destruct (Nat.eqb_spec b 0); [lia|].
  pose proof (Nat.log2_le_mono a b L). lia.
Qed.
Lemma digit_sum_le ps : valid ps -> forall x n t, digit_sum ps x n t -> x + n <= S (length ps) -> t <= n * digits (length ps).
Proof.
  intros V x n t H. induction H as [x|x n d t D H IH]; intros L; [lia|].
  apply (up_le ps V) in D. pose proof (digits_mono d (length ps) ltac:(lia)). specialize (IH ltac:(lia)). lia.
Qed.
