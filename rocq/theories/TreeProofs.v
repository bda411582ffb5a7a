From Verif Require Import Base TreeModel TreeSpec.
Local Open Scope nat_scope.

Lemma pow2_pos i : 1 <= 2 ^ i.
Proof. assert (2 ^ i <> 0) by (apply Nat.pow_nonzero; lia). lia. Qed.
Lemma pow2_gt i : i < 2 ^ i.
Proof. apply Nat.pow_gt_lin_r. lia. Qed.

(** * Ancestors in a parent list *)
Lemma up_add ps a b x : up ps (a + b) x = match up ps a x with Some y => up ps b y | None => None end.
Proof.
  revert x; induction a as [|a IH]; intros x; simpl; [reflexivity|].
  destruct (par ps x); [apply IH|reflexivity].
Qed.
Lemma up_S_r ps k x : up ps (S k) x = match up ps k x with Some y => par ps y | None => None end.
Proof.
  replace (S k) with (k + 1) by lia. rewrite up_add.
  destruct (up ps k x) as [y|]; [|reflexivity]. simpl. now destruct (par ps y).
Qed.

Section tree.
  Variable ps : list nat.
  Hypothesis V : valid ps.

  Lemma par_lt x p : par ps x = Some p -> p < x.
  Proof. destruct x as [|i]; simpl; [discriminate|]. intros H. apply V in H. lia. Qed.
  Lemma par_node x p : par ps x = Some p -> is_node ps x /\ is_node ps p.
  Proof.
    intros H. pose proof (par_lt _ _ H). unfold is_node. destruct x as [|i]; [discriminate|].
    simpl in H. assert (i < length ps) by (apply nth_error_Some; congruence). lia.
  Qed.
  Lemma par_ex x : is_node ps x -> x <> 0 -> exists p, par ps x = Some p.
  Proof.
    unfold is_node. intros H N. destruct x as [|i]; [lia|]. simpl.
    destruct (nth_error ps i) eqn:E; [eauto|]. apply nth_error_None in E. lia.
  Qed.
  Lemma up_le k x y : up ps k x = Some y -> y + k <= x.
  Proof.
    revert x; induction k as [|k IH]; simpl; intros x H; [injection H as <-; lia|].
    destruct (par ps x) as [p|] eqn:E; [|discriminate].
    apply par_lt in E. apply IH in H. lia.
  Qed.
  Lemma up_node k x y : is_node ps x -> up ps k x = Some y -> is_node ps y.
  Proof. unfold is_node. intros H U. apply up_le in U. lia. Qed.
  Lemma depth_ex x : is_node ps x -> exists d, depth ps x d.
  Proof.
    induction x as [x IH] using lt_wf_ind. intros N.
    destruct (Nat.eq_dec x 0) as [->|Z]; [exists 0; reflexivity|].
    destruct (par_ex x N Z) as [p P]. pose proof (par_lt _ _ P).
    destruct (IH p) as [d D]; [assumption|apply (par_node _ _ P)|].
    exists (S d). unfold depth. simpl. rewrite P. exact D.
  Qed.
  Lemma up_none k x d : depth ps x d -> d < k -> up ps k x = None.
  Proof.
    unfold depth. intros D L. replace k with (d + S (k - d - 1)) by lia.
    rewrite up_add, D. reflexivity.
  Qed.
  Lemma up_some k x d : depth ps x d -> k <= d -> exists y, up ps k x = Some y /\ depth ps y (d - k).
  Proof.
    unfold depth. intros D L. replace d with (k + (d - k)) in D by lia. rewrite up_add in D.
    destruct (up ps k x) as [y|]; [|discriminate]. eauto.
  Qed.
  Lemma depth_fun x d e : depth ps x d -> depth ps x e -> d = e.
  Proof.
    intros D E. destruct (lt_eq_lt_dec d e) as [[L|L]|L]; [|assumption|].
    - pose proof (up_none _ _ _ D L) as H. unfold depth in E. congruence.
    - pose proof (up_none _ _ _ E L) as H. unfold depth in D. congruence.
  Qed.
  Lemma up_depth k x y d : up ps k x = Some y -> depth ps x d -> k <= d /\ depth ps y (d - k).
  Proof.
    intros U D. destruct (le_lt_dec k d) as [L|L].
    - destruct (up_some _ _ _ D L) as (z & Z & E). split; [assumption|congruence].
    - rewrite (up_none _ _ _ D L) in U. discriminate.
  Qed.

  (** * Least common ancestors *)
  Lemma above_trans a b c : above ps a b -> above ps b c -> above ps a c.
  Proof.
    intros [k K] [m M]. exists (m + k). rewrite up_add, M. exact K.
  Qed.
  Lemma above_refl a : above ps a a.
  Proof. exists 0. reflexivity. Qed.
  Lemma above_antisym a b : above ps a b -> above ps b a -> a = b.
  Proof. intros [k K] [m M]. apply up_le in K. apply up_le in M. lia. Qed.
  Lemma above_depth a b da db : above ps a b -> depth ps a da -> depth ps b db -> da <= db.
  Proof.
    intros [k K] A B. destruct (up_depth _ _ _ _ K B) as [L D].
    rewrite (depth_fun _ _ _ A D). lia.
  Qed.
  (** two ancestors of one node are comparable *)
  Lemma above_linear a b c : above ps a c -> above ps b c -> above ps a b \/ above ps b a.
  Proof.
    intros [k K] [m M]. destruct (le_lt_dec k m).
    - right. exists (m - k). replace m with (k + (m - k)) in M by lia. rewrite up_add, K in M. exact M.
    - left. exists (k - m). replace k with (m + (k - m)) in K by lia. rewrite up_add, M in K. exact K.
  Qed.
  Lemma above_by_depth a b c da db :
    above ps a c -> above ps b c -> depth ps a da -> depth ps b db -> da <= db -> above ps a b.
  Proof.
    intros A B DA DB L. destruct (above_linear _ _ _ A B) as [H|H]; [assumption|].
    destruct H as [k K]. destruct (up_depth _ _ _ _ K DA) as [L1 D].
    pose proof (depth_fun _ _ _ DB D). assert (k = 0) by lia. subst k.
    injection K as ->. apply above_refl.
  Qed.
  Lemma lca_unique x y z w : is_lca ps x y z -> is_lca ps x y w -> z = w.
  Proof.
    intros (A & B & C) (D & E & F). apply above_antisym; auto.
  Qed.
  Lemma lca_sym x y z : is_lca ps x y z -> is_lca ps y x z.
  Proof. intros (A & B & C). repeat split; auto. Qed.

  (** first meeting of two nodes of equal depth *)
  Definition meets x y D z : Prop :=
    up ps D x = Some z /\ up ps D y = Some z /\ forall j, j < D -> up ps j x <> up ps j y.
  Lemma meet_ex x y h : depth ps x h -> depth ps y h -> exists D z, D <= h /\ meets x y D z.
  Proof.
    revert x y; induction h as [|h IH]; intros x y X Y.
    - injection X as ->. injection Y as ->. exists 0, 0. split; [lia|]. split; [reflexivity|split; [reflexivity|intros; lia]].
    - destruct (Nat.eq_dec x y) as [->|N].
      + exists 0, y. split; [lia|]. split; [reflexivity|split; [reflexivity|intros; lia]].
      + unfold depth in X, Y. simpl in X, Y.
        destruct (par ps x) as [p|] eqn:P; [|discriminate].
        destruct (par ps y) as [q|] eqn:Q; [|discriminate].
        destruct (IH p q X Y) as (D & z & L & M1 & M2 & M3).
        exists (S D), z. split; [lia|]. unfold meets. simpl. rewrite P, Q. repeat split; auto.
        intros [|j] J; simpl; [congruence|]. rewrite P, Q. apply M3. lia.
  Qed.
  Lemma meets_lca x y h D z : depth ps x h -> depth ps y h -> meets x y D z -> is_lca ps x y z.
  Proof.
    intros X Y (M1 & M2 & M3). split; [exists D; assumption|]. split; [exists D; assumption|].
    intros w [a A] [b B].
    destruct (up_depth _ _ _ _ A X) as [LA DA]. destruct (up_depth _ _ _ _ B Y) as [LB DB].
    pose proof (depth_fun _ _ _ DA DB). assert (b = a) by lia. subst b.
    destruct (le_lt_dec D a) as [L|L].
    - exists (a - D). replace a with (D + (a - D)) in A by lia. rewrite up_add, M1 in A. exact A.
    - exfalso. apply (M3 a L). congruence.
  Qed.
  Lemma meets_eq x y D z j : meets x y D z -> D <= j -> up ps j x = up ps j y.
  Proof.
    intros (M1 & M2 & _) L. replace j with (D + (j - D)) by lia. now rewrite !up_add, M1, M2.
  Qed.

  (** lifting the deeper node does not change the common ancestors *)
  Lemma lift_lca x y dx dy x' z :
    depth ps x dx -> depth ps y dy -> dy <= dx -> up ps (dx - dy) x = Some x' ->
    is_lca ps x' y z -> is_lca ps x y z.
  Proof.
    intros X Y L U (A & B & C). assert (AX : above ps x' x) by (exists (dx - dy); assumption).
    destruct (up_depth _ _ _ _ U X) as [_ DX]. replace (dx - (dx - dy)) with dy in DX by lia.
    split; [exact (above_trans _ _ _ A AX)|]. split; [assumption|].
    intros w W1 W2. apply C; [|assumption].
    destruct W2 as [k K]. destruct (up_depth _ _ _ _ K Y) as [L2 DW].
    eapply above_by_depth; [exact W1|exact AX|exact DW|exact DX|lia].
  Qed.
  Lemma lca_ex x y : is_node ps x -> is_node ps y -> exists z, is_lca ps x y z.
  Proof.
    intros NX NY. destruct (depth_ex x NX) as [dx X]. destruct (depth_ex y NY) as [dy Y].
    assert (G : forall x y dx dy, depth ps x dx -> depth ps y dy -> dy <= dx -> exists z, is_lca ps x y z).
    { clear - V. intros x y dx dy X Y L. destruct (up_some (dx - dy) _ _ X) as (x' & U & X'); [lia|].
      replace (dx - (dx - dy)) with dy in X' by lia.
      destruct (meet_ex x' y dy X' Y) as (D & z & _ & M). exists z.
      eapply lift_lca; eauto. eapply meets_lca; eauto. }
    destruct (le_lt_dec dy dx); [eauto|].
    destruct (G y x dy dx) as [z Z]; [assumption|assumption|lia|]. exists z. now apply lca_sym.
  Qed.

  (** * Walks *)
  Lemma walk_app n m x y z : walk ps n x y -> walk ps m y z -> walk ps (n + m) x z.
  Proof. induction 1; simpl; intros H1; [assumption|]. econstructor; eauto. Qed.
  Lemma walk_rev n x y : walk ps n x y -> walk ps n y x.
  Proof.
    induction 1; [constructor|]. replace (S n) with (n + 1) by lia.
    eapply walk_app; [eassumption|]. eapply walkS; [|apply walk0].
    unfold adj in *. tauto.
  Qed.
  Lemma walk_up k x y : up ps k x = Some y -> walk ps k x y.
  Proof.
    revert x; induction k as [|k IH]; simpl; intros x H; [injection H as <-; constructor|].
    destruct (par ps x) as [p|] eqn:E; [|discriminate]. eapply walkS; [left; exact E|auto].
  Qed.
  Lemma walk_short n x y : walk ps n x y -> is_node ps x ->
    forall z dx dy dz, is_lca ps x y z -> depth ps x dx -> depth ps y dy -> depth ps z dz ->
    dx + dy <= n + 2 * dz.
  Proof.
    induction 1 as [x|n x x1 y A W IH]; intros NX z dx dy dz L X Y Z.
    - assert (z = x).
      { eapply lca_unique; [exact L|]. split; [apply above_refl|]. split; [apply above_refl|auto]. }
      subst z. rewrite (depth_fun _ _ _ Y X), (depth_fun _ _ _ Z X). lia.
    - assert (N1 : is_node ps x1) by (destruct A as [A|A]; apply par_node in A; tauto).
      assert (NY : is_node ps y).
      { destruct L as (_ & [k K] & _). clear - W N1 V. induction W; [assumption|].
        apply IHW. match goal with H : adj _ _ _ |- _ => destruct H as [H|H]; apply (par_node) in H; tauto end. }
      destruct (lca_ex x1 y N1 NY) as [z1 L1].
      destruct (depth_ex x1 N1) as [d1 D1].
      destruct L1 as (B1 & B2 & B3).
      assert (NZ : is_node ps z1) by (destruct B1 as [k K]; exact (up_node _ _ _ N1 K)).
      destruct (depth_ex z1 NZ) as [e1 E1].
      specialize (IH N1 z1 d1 dy e1 (conj B1 (conj B2 B3)) D1 Y E1).
      destruct L as (C1 & C2 & C3).
      destruct A as [A|A].
      + assert (DX : depth ps x (S d1)) by (unfold depth; simpl; rewrite A; exact D1).
        rewrite (depth_fun _ _ _ X DX).
        assert (above ps z1 z).
        { apply C3; [|assumption]. eapply above_trans; [exact B1|]. exists 1. simpl. now rewrite A. }
        pose proof (above_depth _ _ _ _ H E1 Z). lia.
      + assert (DX : depth ps x1 (S dx)) by (unfold depth; simpl; rewrite A; exact X).
        rewrite (depth_fun _ _ _ D1 DX) in IH.
        destruct B1 as [[|k] K].
        * injection K as <-.
          assert (above ps x x1) by (exists 1; simpl; now rewrite A).
          assert (above ps x z) by (apply C3; [apply above_refl|exact (above_trans _ _ _ H B2)]).
          pose proof (above_depth _ _ _ _ H0 X Z).
          pose proof (depth_fun _ _ _ E1 DX). lia.
        * simpl in K. rewrite A in K.
          assert (above ps z1 z) by (apply C3; [exists k; assumption|assumption]).
          pose proof (above_depth _ _ _ _ H E1 Z). lia.
  Qed.

  (** * The heap *)
  Definition okn (x : nat) (n : node) : Prop :=
    fa n = par ps x /\ son n = children ps x /\
    (exists d, height n = Some d /\ depth ps x d) /\
    forall i, nth_error (ancestor n) i = up ps (2 ^ i) x.
  Definition rep (h : heap) : Prop :=
    length h = S (length ps) /\
    forall x, is_node ps x -> exists n, nth_error h x = Some n /\ okn x n.

  Variable h : heap.
  Hypothesis R : rep h.

  Lemma get_rep x : is_node ps x -> exists n, get h x = Ok n /\ okn x n.
  Proof.
    intros N. destruct R as [_ RR]. destruct (RR x N) as (n & E & O).
    exists n. unfold get. rewrite E. auto.
  Qed.
  Lemma getHeight_rep x d : is_node ps x -> depth ps x d -> getHeight h x = Ok d.
  Proof.
    intros N D. destruct (get_rep x N) as (n & E & _ & _ & (d' & H & D') & _).
    unfold getHeight. rewrite E. simpl. rewrite H, (depth_fun _ _ _ D D'). reflexivity.
  Qed.

  Lemma getAncestor_loop_rep level x : is_node ps x ->
    forall fuel i cur, up ps (level mod 2 ^ i) x = Some cur -> i <= level + 1 -> level + 2 <= fuel + i ->
    getAncestor_loop fuel h level i cur =
      match up ps level x with Some y => Ok y | None => UB end.
  Proof.
    intros N. induction fuel as [|f IH]; intros i cur U L F; [lia|].
    cbn [getAncestor_loop]. destruct (Nat.leb_spec (2 ^ i) level) as [G|G].
    - assert (i < level) by (pose proof (pow2_gt i); lia).
      assert (E : level mod 2 ^ S i = level mod 2 ^ i + 2 ^ i * Nat.b2n (Nat.testbit level i)).
      { rewrite Nat.testbit_spec'. rewrite <- Nat.mod_mul_r; [|pose proof (pow2_pos i); lia|lia].
        f_equal. simpl. lia. }
      destruct (Nat.testbit level i); simpl Nat.b2n in E.
      + assert (NC : is_node ps cur) by exact (up_node _ _ _ N U).
        destruct (get_rep cur NC) as (n & GE & _ & _ & _ & A). rewrite GE. cbn [bind].
        unfold at_anc. rewrite A.
        assert (U2 : up ps (level mod 2 ^ S i) x = up ps (2 ^ i) cur).
        { rewrite E, Nat.mul_1_r, up_add, U. reflexivity. }
        destruct (up ps (2 ^ i) cur) as [c|] eqn:UC; cbn [bind].
        * apply IH; [assumption|lia|lia].
        * destruct (up ps level x) as [y|] eqn:UL; [|reflexivity].
          exfalso. assert (level mod 2 ^ S i <= level) by (apply Nat.mod_le; pose proof (pow2_pos (S i)); lia).
          replace level with (level mod 2 ^ S i + (level - level mod 2 ^ S i)) in UL by lia.
          rewrite up_add, U2 in UL. discriminate.
      + cbn [bind]. apply IH; [|lia|lia]. rewrite E, Nat.mul_0_r, Nat.add_0_r. assumption.
    - rewrite Nat.mod_small in U by lia. now rewrite U.
  Qed.
  Lemma getAncestor_rep x level : is_node ps x ->
    getAncestor h x level = match up ps level x with Some y => Ok y | None => UB end.
  Proof.
    intros N. unfold getAncestor. apply getAncestor_loop_rep; [assumption| |lia|lia].
    simpl. reflexivity.
  Qed.

  Definition safe_below (i hc D : nat) : Prop :=
    forall j, j < i -> (D - 1) / 2 ^ (j + 1) * 2 ^ (j + 1) + 2 ^ j <= hc.

  Lemma lca_loop_rep i : forall x y hc D z,
    is_node ps x -> is_node ps y -> depth ps x hc -> depth ps y hc -> meets x y D z ->
    1 <= D <= 2 ^ i ->
    (safe_below i hc D -> exists x' y', lca_loop h i x y = Ok (x', y') /\ is_node ps x' /\ par ps x' = Some z) /\
    (~ safe_below i hc D -> lca_loop h i x y = UB).
  Proof.
    induction i as [|i IH]; intros x y hc D z NX NY X Y M LD.
    - split.
      + intros _. exists x, y. split; [reflexivity|]. split; [assumption|].
        assert (D = 1) by (simpl in LD; lia). subst D. destruct M as (M & _). simpl in M.
        now destruct (par ps x).
      + intros H. exfalso. apply H. intros j J. lia.
    - cbn [lca_loop].
      destruct (get_rep x NX) as (nx & GX & _ & _ & _ & AX).
      destruct (get_rep y NY) as (ny & GY & _ & _ & _ & AY).
      rewrite GX, GY. cbn [bind]. unfold at_anc. rewrite AX, AY.
      assert (LD2 : D <= 2 * 2 ^ i) by (simpl in LD; lia).
      assert (Zr : (D - 1) / 2 ^ (i + 1) = 0).
      { apply Nat.div_small. rewrite Nat.pow_add_r. simpl. lia. }
      destruct (le_lt_dec (2 ^ i) hc) as [L|L].
      + destruct (up_some _ _ _ X L) as (a & UA & DA). destruct (up_some _ _ _ Y L) as (b & UB' & DB).
        rewrite UA, UB'. cbn [bind].
        destruct (Nat.eqb_spec a b) as [EQ|NE].
        * assert (D <= 2 ^ i).
          { destruct (le_lt_dec D (2 ^ i)); [assumption|]. exfalso.
            destruct M as (_ & _ & M3). apply (M3 (2 ^ i)); [assumption|congruence]. }
          destruct (IH x y hc D z NX NY X Y M) as [I1 I2]; [lia|]. split; intros S.
          -- apply I1. intros j J. apply S. lia.
          -- apply I2. intros S'. apply S. intros j J. destruct (Nat.eq_dec j i) as [->|].
             ++ rewrite Zr. lia.
             ++ apply S'. lia.
        * assert (2 ^ i < D).
          { destruct (le_lt_dec D (2 ^ i)); [|assumption]. exfalso. apply NE.
            pose proof (meets_eq _ _ _ _ (2 ^ i) M l). congruence. }
          assert (M' : meets a b (D - 2 ^ i) z).
          { destruct M as (M1 & M2 & M3). split; [|split].
            - replace D with (2 ^ i + (D - 2 ^ i)) in M1 by lia. now rewrite up_add, UA in M1.
            - replace D with (2 ^ i + (D - 2 ^ i)) in M2 by lia. now rewrite up_add, UB' in M2.
            - intros j J E. apply (M3 (2 ^ i + j)); [lia|]. now rewrite !up_add, UA, UB'. }
          destruct (IH a b (hc - 2 ^ i) (D - 2 ^ i) z) as [I1 I2];
            [exact (up_node _ _ _ NX UA)|exact (up_node _ _ _ NY UB')|assumption|assumption|assumption|lia|].
          assert (EQ : forall j, j < i ->
            (D - 1) / 2 ^ (j + 1) * 2 ^ (j + 1) = (D - 2 ^ i - 1) / 2 ^ (j + 1) * 2 ^ (j + 1) + 2 ^ i).
          { intros j J. set (q := 2 ^ (j + 1)).
            assert (P : 2 ^ i = 2 ^ (i - (j + 1)) * q) by (unfold q; rewrite <- Nat.pow_add_r; f_equal; lia).
            assert (q <> 0) by (unfold q; pose proof (pow2_pos (j + 1)); lia).
            replace (D - 1) with ((D - 2 ^ i - 1) + 2 ^ (i - (j + 1)) * q) by lia.
            rewrite Nat.div_add by assumption. rewrite P. ring. }
          split; intros S.
          -- apply I1. intros j J. specialize (S j ltac:(lia)). rewrite EQ in S by assumption. lia.
          -- apply I2. intros S'. apply S. intros j J. destruct (Nat.eq_dec j i) as [->|].
             ++ rewrite Zr. lia.
             ++ rewrite EQ by lia. specialize (S' j ltac:(lia)). lia.
      + rewrite (up_none _ _ _ X L). cbn [bind]. split; [|reflexivity].
        intros S. exfalso. specialize (S i ltac:(lia)). rewrite Zr in S. lia.
  Qed.

  Lemma anc_length x n d : okn x n -> depth ps x d -> 1 <= d -> length (ancestor n) = S (Nat.log2 d).
  Proof.
    intros (_ & _ & _ & A) D L.
    assert (1 * 2 ^ Nat.log2 d <= d < 2 * 2 ^ Nat.log2 d).
    { pose proof (Nat.log2_spec d ltac:(lia)). simpl in *. lia. }
    apply Nat.le_antisymm.
    - apply nth_error_None. rewrite A. apply (up_none _ _ d D). simpl. lia.
    - apply Nat.le_succ_l. apply nth_error_Some. rewrite A.
      destruct (up_some (2 ^ Nat.log2 d) x d D) as (y & U & _); [lia|]. congruence.
  Qed.

  Lemma lca_same x y hc : is_node ps x -> is_node ps y -> depth ps x hc -> depth ps y hc ->
    forall z dz, is_lca ps x y z -> depth ps z dz ->
    let r := (if x =? y then Ok x
              else
                n <- get h x ;;
                ' (x, y) <- lca_loop h (length (ancestor n)) x y ;;
                n <- get h x ;;
                match fa n with Some p => Ok p | None => UB end) in
    (climb_safe hc (hc - dz) -> r = Ok z) /\ (~ climb_safe hc (hc - dz) -> r = UB).
  Proof.
    intros NX NY X Y z dz LC Z r.
    destruct (meet_ex x y hc X Y) as (D & z' & LD & M).
    pose proof (meets_lca _ _ _ _ _ X Y M) as LC'. pose proof (lca_unique _ _ _ _ LC LC') as <-.
    assert (ED : hc - dz = D).
    { destruct M as (M1 & _). destruct (up_depth _ _ _ _ M1 X) as [_ DZ].
      rewrite (depth_fun _ _ _ Z DZ). lia. }
    rewrite ED. unfold r; clear r. destruct (Nat.eqb_spec x y) as [EQ|NE].
    - subst y. assert (z = x).
      { eapply lca_unique; [exact LC|]. split; [apply above_refl|]. split; [apply above_refl|auto]. }
      subst z. assert (D = 0) by (rewrite (depth_fun _ _ _ Z X) in ED; lia). subst D.
      split; [reflexivity|]. intros HN. exfalso. apply HN. intros HP. lia.
    - assert (1 <= D).
      { destruct D; [|lia]. destruct M as (M1 & M2 & _). simpl in *. congruence. }
      destruct (get_rep x NX) as (n & G & ON). rewrite G. cbn [bind].
      rewrite (anc_length _ _ hc ON X) by lia.
      assert (D <= 2 ^ S (Nat.log2 hc)) by (pose proof (Nat.log2_spec hc ltac:(lia)); lia).
      destruct (lca_loop_rep (S (Nat.log2 hc)) x y hc D z NX NY X Y M) as [I1 I2]; [lia|].
      split; intros S.
      + destruct I1 as (x' & y' & E & NX' & P).
        { intros j J. apply S; lia. }
        rewrite E. cbn [bind]. destruct (get_rep x' NX') as (n' & G' & F & _). rewrite G'.
        cbn [bind]. now rewrite F, P.
      + rewrite I2; [reflexivity|]. intros S'. apply S. intros _ j J. apply S'. lia.
  Qed.

  Lemma LCA_rep x y z dx dy dz : is_node ps x -> is_node ps y ->
    depth ps x dx -> depth ps y dy -> is_lca ps x y z -> depth ps z dz ->
    let hc := Nat.min dx dy in
    (climb_safe hc (hc - dz) -> LCA h x y = Ok z) /\ (~ climb_safe hc (hc - dz) -> LCA h x y = UB).
  Proof.
    intros NX NY X Y LC Z. cbn zeta. unfold LCA.
    rewrite (getHeight_rep x dx NX X), (getHeight_rep y dy NY Y). cbn [bind].
    destruct (Nat.ltb_spec dx dy) as [L|L].
    - rewrite Nat.min_l by lia.
      destruct (up_some (dy - dx) y dy Y) as (y' & U & Y'); [lia|].
      replace (dy - (dy - dx)) with dx in Y' by lia.
      rewrite getAncestor_rep, U by assumption. cbn [bind].
      assert (NY' : is_node ps y') by exact (up_node _ _ _ NY U).
      destruct (lca_ex y' x NY' NX) as [z' L'].
      assert (LX : is_lca ps y x z') by (eapply lift_lca; [exact Y|exact X|lia|exact U|exact L']).
      assert (z' = z) by (eapply lca_unique; [apply lca_sym; exact LX|exact LC]). subst z'.
      exact (lca_same x y' dx NX NY' X Y' z dz (lca_sym _ _ _ L') Z).
    - rewrite Nat.min_r by lia.
      destruct (up_some (dx - dy) x dx X) as (x' & U & X'); [lia|].
      replace (dx - (dx - dy)) with dy in X' by lia.
      rewrite getAncestor_rep, U by assumption. cbn [bind].
      assert (NX' : is_node ps x') by exact (up_node _ _ _ NX U).
      destruct (lca_ex x' y NX' NY) as [z' L'].
      assert (LX : is_lca ps x y z') by (eapply lift_lca; [exact X|exact Y|lia|exact U|exact L']).
      assert (z' = z) by (eapply lca_unique; [exact LX|exact LC]). subst z'.
      exact (lca_same x' y dy NX' NY X' Y z dz L' Z).
  Qed.
End tree.

(** * Building *)
Lemma par_snoc ps p x : is_node ps x -> par (ps ++ [p]) x = par ps x.
Proof.
  unfold is_node. destruct x as [|i]; [reflexivity|]. simpl. intros H.
  apply nth_error_app1. lia.
Qed.
Lemma par_last ps p : par (ps ++ [p]) (S (length ps)) = Some p.
Proof. simpl. rewrite nth_error_app2, Nat.sub_diag by lia. reflexivity. Qed.
Lemma up_snoc ps p k x : valid ps -> is_node ps x -> up (ps ++ [p]) k x = up ps k x.
Proof.
  intros V. revert x; induction k as [|k IH]; intros x N; simpl; [reflexivity|].
  rewrite par_snoc by assumption. destruct (par ps x) as [q|] eqn:E; [|reflexivity].
  apply IH. apply (par_node ps V) in E. tauto.
Qed.
Lemma children_snoc ps p x :
  children (ps ++ [p]) x = children ps x ++ (if p =? x then [S (length ps)] else []).
Proof.
  unfold children. rewrite app_length. simpl length. rewrite seq_app, filter_app, map_app. f_equal.
  - f_equal. apply filter_ext_in. intros i I. apply in_seq in I.
    rewrite nth_error_app1 by lia. reflexivity.
  - simpl. rewrite nth_error_app2, Nat.sub_diag by lia. simpl. now destruct (p =? x).
Qed.
Lemma children_fresh ps : valid ps -> children ps (S (length ps)) = [].
Proof.
  intros V. unfold children. replace (filter _ _) with (@nil nat); [reflexivity|].
  symmetry. assert (G : forall l, (forall i, In i l -> i < length ps) ->
    filter (fun i => match nth_error ps i with Some p => p =? S (length ps) | None => false end) l = []).
  { induction l as [|a l IH]; intros H; [reflexivity|]. simpl.
    rewrite IH by (intros; apply H; now right).
    destruct (nth_error ps a) as [p|] eqn:E; [|reflexivity].
    apply V in E. specialize (H a (or_introl eq_refl)).
    destruct (Nat.eqb_spec p (S (length ps))); [lia|reflexivity]. }
  apply G. intros i I. apply in_seq in I. lia.
Qed.

Lemma get_upd_eq (h : heap) x n : x < length h -> get (upd h x n) x = Ok n.
Proof. intros L. unfold get. now rewrite nth_error_upd_eq. Qed.
Lemma get_upd_neq (h : heap) x y n : x <> y -> get (upd h x n) y = get h y.
Proof. intros L. unfold get. now rewrite nth_error_upd_neq. Qed.
Lemma put_ok (h : heap) x n : x < length h -> put h x n = Ok (upd h x n).
Proof. intros L. unfold put. destruct (Nat.ltb_spec x (length h)); [reflexivity|lia]. Qed.

Section add.
  Variables (ps : list nat) (p : nat).
  Let qs := ps ++ [p].
  Let x := S (length ps).
  Hypothesis V : valid ps.
  Hypothesis P : p <= length ps.

  Lemma valid_snoc : valid qs.
  Proof.
    intros i q E. destruct (le_lt_dec (length ps) i) as [L|L].
    - unfold qs in E. rewrite nth_error_app2 in E by assumption.
      destruct (i - length ps) eqn:D; simpl in E; [injection E as <-; lia|destruct n; discriminate].
    - unfold qs in E. rewrite nth_error_app1 in E by assumption. apply V. assumption.
  Qed.

  (** during the loop all nodes but [x] are complete *)
  Definition prep (h : heap) (i : nat) : Prop :=
    length h = S (S (length ps)) /\
    (forall y, is_node ps y -> exists n, nth_error h y = Some n /\ okn qs y n) /\
    exists n, nth_error h x = Some n /\ fa n = Some p /\ son n = [] /\
      (exists d, height n = Some d /\ depth qs x d) /\
      length (ancestor n) = S i /\
      forall j, j <= i -> nth_error (ancestor n) j = up qs (2 ^ j) x.

  Lemma add_loop_ok fuel : forall h i, prep h i -> S (length ps) <= fuel + i ->
    i <= length ps -> exists h', add_loop fuel h x i = Ok h' /\ rep qs h'.
  Proof.
    pose proof valid_snoc as VQ.
    induction fuel as [|f IH]; intros h i (LH & RH & n & E & F & S & (d & HD & D) & LA & A) FU LI; [lia|].
    cbn [add_loop]. unfold get at 1. rewrite E. cbn [bind].
    unfold at_anc at 1. rewrite A by lia.
    assert (exists y, up qs (2 ^ i) x = Some y) as [y U].
    { rewrite <- (A i) by lia. destruct (nth_error (ancestor n) i) eqn:EE; [eauto|].
      apply nth_error_None in EE. lia. }
    rewrite U. cbn [bind].
    assert (NY : is_node ps y).
    { apply (up_le qs VQ) in U. pose proof (pow2_pos i). unfold is_node, x in *. lia. }
    destruct (RH y NY) as (m & EM & OM). pose proof OM as (_ & _ & _ & AM).
    unfold get at 1. rewrite EM. cbn [bind].
    assert (UU : up qs (2 ^ (Datatypes.S i)) x = up qs (2 ^ i) y).
    { replace (2 ^ (Datatypes.S i)) with (2 ^ i + 2 ^ i) by (simpl; lia). now rewrite up_add, U. }
    destruct (Nat.leb_spec (length (ancestor m)) i) as [L|L].
    - exists h. split; [reflexivity|]. split; [unfold qs; rewrite app_length; simpl; lia|].
      intros z NZ. destruct (Nat.eq_dec z x) as [->|NE].
      + exists n. split; [assumption|]. split; [|split; [|split]].
        * rewrite F. symmetry. apply par_last.
        * rewrite S. symmetry. unfold qs. rewrite children_snoc.
          unfold x. rewrite children_fresh by assumption.
          destruct (Nat.eqb_spec p (Datatypes.S (length ps))); [lia|reflexivity].
        * exists d. auto.
        * intros j. destruct (le_lt_dec j i) as [J|J]; [apply A; lia|].
          rewrite (proj2 (nth_error_None _ _)) by lia. symmetry.
          pose proof (AM i) as AI. rewrite (proj2 (nth_error_None (ancestor m) i)) in AI by exact L.
          destruct (up qs (2 ^ j) x) eqn:UJ; [|reflexivity]. exfalso.
          assert (2 ^ Datatypes.S i <= 2 ^ j) by (apply Nat.pow_le_mono_r; lia).
          replace (2 ^ j) with (2 ^ Datatypes.S i + (2 ^ j - 2 ^ Datatypes.S i)) in UJ by lia.
          rewrite up_add, UU, <- AI in UJ. discriminate.
      + apply RH. unfold is_node, qs, x in *. rewrite app_length in NZ. simpl in NZ. lia.
    - unfold at_anc. destruct (nth_error (ancestor m) i) as [a|] eqn:EA.
      2:{ apply nth_error_None in EA. lia. }
      cbn [bind]. rewrite put_ok by (rewrite LH; unfold x; lia). cbn [bind].
      rewrite AM in EA.
      apply IH; [|lia|].
      + split; [rewrite upd_length; assumption|]. split.
        * intros z NZ. rewrite nth_error_upd_neq; [apply RH; assumption|]. unfold is_node, x in *. lia.
        * eexists. rewrite nth_error_upd_eq by (rewrite LH; unfold x; lia).
          split; [reflexivity|]. cbn [fa son height ancestor].
          split; [assumption|]. split; [assumption|]. split; [eauto|].
          split; [rewrite app_length; simpl; lia|].
          intros j J. destruct (le_lt_dec j i) as [J'|J'].
          -- rewrite nth_error_app1 by lia. apply A. assumption.
          -- assert (j = Datatypes.S i) as -> by lia.
             rewrite nth_error_app2, LA, Nat.sub_diag by lia. simpl nth_error.
             rewrite UU, EA. reflexivity.
      + assert (up qs (2 ^ Datatypes.S i) x = Some a) as UA by (rewrite UU; assumption).
        apply (up_le qs VQ) in UA. pose proof (pow2_gt (Datatypes.S i)). unfold x in *. lia.
  Qed.

  Lemma add_fresh_ok h : rep ps h -> exists h', add_fresh h p = Ok h' /\ rep qs h'.
  Proof.
    intros [LH RH]. unfold add_fresh, new_node. rewrite LH. fold x.
    set (h1 := h ++ [Node None [] None []]).
    assert (L1 : length h1 = S (S (length ps))) by (unfold h1; rewrite app_length; simpl; lia).
    destruct (RH p P) as (n & E & (O1 & O2 & (d & O3 & O4) & O5)).
    assert (G1 : get h1 p = Ok n) by (unfold get, h1; rewrite nth_error_app1, E by lia; reflexivity).
    assert (GX : get h1 x = Ok (Node None [] None [])).
    { unfold get, h1. rewrite nth_error_app2 by (unfold x; lia). rewrite LH.
      unfold x. rewrite Nat.sub_diag. reflexivity. }
    unfold addNode. rewrite G1. cbn [bind]. rewrite put_ok by lia. cbn [bind].
    rewrite get_upd_neq, GX by (unfold x; lia). cbn [bind fa son height ancestor].
    rewrite put_ok by (rewrite upd_length; unfold x; lia). cbn [bind].
    unfold getHeight. rewrite get_upd_neq by (unfold x; lia). rewrite get_upd_eq by lia.
    cbn [bind fa son height ancestor]. rewrite O3. cbn [bind].
    rewrite get_upd_eq by (rewrite upd_length; unfold x; lia). cbn [bind fa son height ancestor].
    rewrite put_ok by (rewrite !upd_length; unfold x; lia). cbn [bind].
    rewrite get_upd_eq by (rewrite !upd_length; unfold x; lia). cbn [bind fa son height ancestor].
    rewrite put_ok by (rewrite !upd_length; unfold x; lia). cbn [bind].
    apply add_loop_ok; [|rewrite !upd_length; lia|lia].
    split; [rewrite !upd_length; assumption|]. split.
    - intros y NY. assert (x <> y) by (unfold is_node, x in *; lia).
      rewrite !(nth_error_upd_neq _ x y) by assumption.
      destruct (RH y NY) as (m & EM & (M1 & M2 & (dm & M3 & M4) & M5)).
      destruct (Nat.eq_dec p y) as [EP|NE].
      + subst y. rewrite nth_error_upd_eq by lia. eexists. split; [reflexivity|].
        rewrite E in EM. injection EM as <-.
        unfold okn. cbn [fa son height ancestor]. unfold qs.
        split; [rewrite par_snoc by assumption; assumption|].
        split; [rewrite children_snoc, Nat.eqb_refl, O2; reflexivity|].
        split; [exists d; split; [reflexivity|]; unfold depth; rewrite up_snoc; assumption|].
        intros i. rewrite up_snoc by assumption. apply O5.
      + rewrite nth_error_upd_neq by assumption. exists m.
        split; [unfold h1; rewrite nth_error_app1 by (unfold is_node in *; lia); assumption|].
        unfold okn, qs.
        split; [rewrite par_snoc by assumption; assumption|].
        split; [rewrite children_snoc; destruct (Nat.eqb_spec p y); [lia|]; rewrite app_nil_r; assumption|].
        split; [exists dm; split; [assumption|]; unfold depth; rewrite up_snoc; assumption|].
        intros i. rewrite up_snoc by assumption. apply M5.
    - eexists. rewrite nth_error_upd_eq by (rewrite !upd_length; unfold x; lia).
      split; [reflexivity|]. cbn [fa son height ancestor].
      assert (PX : par qs x = Some p) by apply par_last.
      split; [reflexivity|]. split; [reflexivity|]. split.
      + exists (d + 1). split; [reflexivity|]. unfold depth. rewrite Nat.add_1_r.
        change (up qs (S d) x) with (match par qs x with Some p => up qs d p | None => None end). rewrite PX.
        unfold qs. rewrite up_snoc by assumption. exact O4.
      + split; [reflexivity|]. intros j J. assert (j = 0) by lia. subst j.
        simpl nth_error.
        change (up qs (2 ^ 0) x) with (match par qs x with Some p => Some p | None => None end). now rewrite PX.
  Qed.
End add.

Lemma grow_ok : forall qs ps h, rep ps h -> valid (ps ++ qs) -> valid ps ->
  exists h', grow h qs = Ok h' /\ rep (ps ++ qs) h'.
Proof.
  induction qs as [|q qs IH]; intros ps h R VA V; simpl.
  - exists h. rewrite app_nil_r. auto.
  - assert (Q : q <= length ps).
    { apply (VA (length ps)). rewrite nth_error_app2, Nat.sub_diag by lia. reflexivity. }
    destruct (add_fresh_ok ps q V Q h R) as (h1 & E & R1). rewrite E. cbn [bind].
    replace (ps ++ q :: qs) with ((ps ++ [q]) ++ qs) in * by (rewrite <- app_assoc; reflexivity).
    apply IH; [assumption|assumption|]. apply valid_snoc; assumption.
Qed.
Lemma build_ok ps : valid ps -> exists h, build ps = Ok h /\ rep ps h.
Proof.
  intros V. unfold build, new_node. cbn [app length setRoot get nth_error bind put Nat.ltb Nat.leb upd fa son height ancestor].
  change (setRoot [Node None [] None []] 0) with (Ok [Node None [] (Some 0) []]). cbn [bind].
  apply (grow_ok ps []); [|exact V|intros i p H; destruct i; discriminate].
  split; [reflexivity|]. intros x N. unfold is_node in N. simpl in N. assert (x = 0) by lia. subst x.
  eexists. split; [reflexivity|]. split; [reflexivity|]. split; [reflexivity|].
  split; [exists 0; split; reflexivity|]. intros i. simpl.
  assert (G : up [] (2 ^ i) 0 = None).
  { pose proof (pow2_pos i). destruct (2 ^ i); [lia|]. reflexivity. }
  rewrite G. destruct i; reflexivity.
Qed.
