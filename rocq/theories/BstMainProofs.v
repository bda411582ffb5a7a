From Verif Require Import Base BstModel BstSpec BstProofs.
From Coq Require Import Permutation.
Local Open Scope nat_scope.

Lemma last_of_app l x : last_of (l ++ [x]) = Some x.
Proof. unfold last_of. rewrite rev_app_distr. reflexivity. Qed.
Lemma last_of_app2 l x m : last_of (l ++ x :: m) = last_of (x :: m).
Proof.
  unfold last_of. rewrite rev_app_distr. simpl. destruct (rev m ++ [x]) eqn:E; [|reflexivity].
  destruct (rev m); discriminate.
Qed.

Section keyed.
Variable key val : nat -> Z.
Notation st := (st key val).
Notation rp := (rp key val).
Notation rc := (rc key val).
Notation mkd := (mkd key val).

Lemma inorder_plug_eq c t t' : inorder t = inorder t' -> inorder (plug c t) = inorder (plug c t').
Proof.
  revert t t'; induction c as [|[[d y] s] c IH]; intros t t' E; [assumption|].
  simpl. apply IH. destruct d; simpl; now rewrite E.
Qed.
Lemma inorder_rot d a x b y s :
  inorder (ndd d (ndd d a x b) y s) = inorder (ndd d a x (ndd d b y s)).
Proof. destruct d; simpl; rewrite <- ?app_assoc; simpl; reflexivity. Qed.
Lemma as_ndd d l x r : exists a b, Nd l x r = ndd d a x b.
Proof. destruct d; [exists r, l|exists l, r]; reflexivity. Qed.
Lemma ndd_as d a x b : exists l r, ndd d a x b = Nd l x r.
Proof. destruct d; do 2 eexists; reflexivity. Qed.

Definition same_out (h h' : heap) (l : list nat) : Prop :=
  length h' = length h /\ forall z, ~ In z l -> nth_error h' z = nth_error h z.
Lemma same_out_trans h1 h2 h3 l l' : (forall z, In z l' -> In z l) ->
  same_out h1 h2 l -> same_out h2 h3 l' -> same_out h1 h3 l.
Proof.
  intros S [A1 A2] [B1 B2]. split; [congruence|]. intros z Z. rewrite B2, A2; auto.
Qed.

Lemma rotate_ok' h rt d a x b y s c :
  st h rt (ndd d a x b) ((d, y, s) :: c) ->
  exists h' rt', rotate (h, rt) (Some x) (negb d) = Ok (h', rt') /\
    st h' rt' (ndd d a x (ndd d b y s)) c /\
    same_out h h' (inorder (plug ((d, y, s) :: c) (ndd d a x b))).
Proof.
  intros S. destruct (rotate_ok key val h rt d a x b y s c S) as (h' & rt' & E & S' & L & F).
  exists h', rt'. split; [assumption|]. split; [assumption|]. split; [assumption|].
  intros z Z. apply F. intros H. apply Z.
  eapply Permutation_in; [symmetry; apply inorder_plug|exact H].
Qed.

Lemma st_child h rt d t y s c : st h rt t ((d, y, s) :: c) ->
  nth_error h y = Some (mkd d (troot t) (troot s) (topid c) y) /\ (troot t <> None -> troot s <> troot t).
Proof.
  intros (_ & R & N & _). cbn [BstProofs.rc] in R. split; [tauto|].
  intros T E. destruct (troot t) as [x|] eqn:ET; [|congruence].
  apply in_root in ET. apply in_root in E. apply NoDup_app_inv in N. destruct N as (_ & _ & N).
  apply (N x ET). cbn [cids]. right. apply in_or_app. auto.
Qed.

Lemma splay_ok fuel : forall h rt l x r c,
  st h rt (Nd l x r) c -> length c < fuel ->
  exists h' rt' l' r', splay_loop fuel (h, rt) (Some x) = Ok (h', rt') /\
    st h' rt' (Nd l' x r') [] /\ inorder (Nd l' x r') = inorder (plug c (Nd l x r)) /\
    same_out h h' (inorder (plug c (Nd l x r))).
Proof.
  induction fuel as [|f IH]; intros h rt l x r c S L; [lia|].
  pose proof S as (RX & _). cbn [BstProofs.rp] in RX. destruct RX as (X & _).
  cbn [splay_loop fst]. rewrite (rfa_ok _ _ _ X). cbn [bind BstProofs.mkd bfa].
  destruct c as [|[[d y] s] c].
  - cbn [topid peq]. exists h, rt, l, r. split; [reflexivity|]. split; [assumption|].
    split; [reflexivity|]. split; auto.
  - cbn [topid peq]. destruct (st_child _ _ _ _ _ _ _ S) as [Y NS]. cbn [troot] in Y, NS.
    specialize (NS ltac:(discriminate)).
    rewrite (rfa_ok _ _ _ Y). replace (bfa (mkd d (Some x) (troot s) (topid c) y)) with (topid c) by now destruct d.
    cbn [bind]. destruct (as_ndd d l x r) as (a & b & EX). rewrite EX in *.
    assert (STEP : exists h1 rt1 l1 r1 c1,
      (if peq (topid c) None then
         y0 <- rch h (Some y) false ;;
         if peq y0 (Some x) then rotate (h, rt) (Some x) true else rotate (h, rt) (Some x) false
       else
         z0 <- rch h (topid c) false ;;
         if peq z0 (Some y) then
           y0 <- rch h (Some y) false ;;
           if peq y0 (Some x) then s <- rotate (h, rt) (Some y) true ;; rotate s (Some x) true
           else s <- rotate (h, rt) (Some x) false ;; rotate s (Some x) true
         else
           y1 <- rch h (Some y) true ;;
           if peq y1 (Some x) then s <- rotate (h, rt) (Some y) false ;; rotate s (Some x) false
           else s <- rotate (h, rt) (Some x) true ;; rotate s (Some x) false) = Ok (h1, rt1) /\
      st h1 rt1 (Nd l1 x r1) c1 /\ length c1 < length ((d, y, s) :: c) /\
      inorder (plug c1 (Nd l1 x r1)) = inorder (plug ((d, y, s) :: c) (ndd d a x b)) /\
      same_out h h1 (inorder (plug ((d, y, s) :: c) (ndd d a x b)))).
    { assert (CD : forall e, peq (chd (mkd d (Some x) (troot s) (topid c) y) e) (Some x) = Bool.eqb d e).
      { intros e. destruct d, e; cbn [chd BstProofs.mkd ch0 ch1 Bool.eqb]; rewrite ?peq_refl; auto;
          now apply peq_neq. }
      destruct c as [|[[d2 z] s2] c].
      - cbn [topid peq] in *. rewrite (rch_ok _ _ _ _ Y). cbn [bind]. rewrite CD.
        destruct (rotate_ok' _ _ _ _ _ _ _ _ _ S) as (h1 & rt1 & E & S1 & O1).
        destruct (ndd_as d a x (ndd d b y s)) as (l1 & r1 & E1). rewrite E1 in S1.
        exists h1, rt1, l1, r1, []. split; [destruct d; exact E|]. split; [assumption|].
        split; [simpl; lia|]. split; [|assumption].
        rewrite <- E1. cbn [plug]. symmetry. apply inorder_rot.
      - cbn [topid peq].
        assert (S2 : st h rt (ndd d (ndd d a x b) y s) ((d2, z, s2) :: c)) by exact (proj1 (st_focus key val _ _ _ _ _ _ _) S).
        destruct (st_child _ _ _ _ _ _ _ S2) as [Z NS2]. rewrite troot_ndd in Z, NS2.
        specialize (NS2 ltac:(discriminate)). cbn [topid] in Y, CD.
        rewrite (rch_ok _ _ _ _ Z). cbn [bind].
        assert (CZ : peq (chd (mkd d2 (Some y) (troot s2) (topid c) z) false) (Some y) = negb d2).
        { destruct d2; cbn [chd BstProofs.mkd ch0 negb]; rewrite ?peq_refl; auto. now apply peq_neq. }
        rewrite CZ, !(rch_ok _ _ _ _ Y). cbn [bind]. rewrite !CD.
        set (O := inorder (plug ((d, y, s) :: (d2, z, s2) :: c) (ndd d a x b))).
        destruct (Bool.bool_dec d d2) as [ED|ED].
        + (* zig-zig *)
          subst d2.
          destruct (rotate_ok' _ _ _ _ _ _ _ _ _ S2) as (h1 & rt1 & E1 & S3 & O1).
          apply (proj2 (st_focus key val _ _ _ _ _ _ _)) in S3.
          destruct (rotate_ok' _ _ _ _ _ _ _ _ _ S3) as (h2 & rt2 & E2 & S4 & O2).
          destruct (ndd_as d a x (ndd d b y (ndd d s z s2))) as (l1 & r1 & EN). rewrite EN in S4.
          assert (I1 : inorder (plug ((d, y, ndd d s z s2) :: c) (ndd d a x b)) = O).
          { unfold O. cbn [plug]. apply inorder_plug_eq. symmetry. apply inorder_rot. }
          exists h2, rt2, l1, r1, c. split.
          { destruct d; cbn [negb Bool.eqb] in *; rewrite E1; cbn [bind]; exact E2. }
          split; [assumption|]. split; [simpl; lia|]. split.
          * rewrite <- I1, <- EN. cbn [plug]. apply inorder_plug_eq. symmetry. apply inorder_rot.
          * apply (same_out_trans h h1 h2 O (inorder (plug ((d, y, ndd d s z s2) :: c) (ndd d a x b)))).
            -- now rewrite I1.
            -- exact O1.
            -- exact O2.
        + (* zig-zag *)
          assert (d2 = negb d) by (clear - ED; destruct d, d2; first [reflexivity|congruence]). subst d2.
          destruct (rotate_ok' _ _ _ _ _ _ _ _ _ S) as (h1 & rt1 & E1 & S3 & O1).
          rewrite <- (ndd_neg d) in S3.
          destruct (rotate_ok' _ _ _ _ _ _ _ _ _ S3) as (h2 & rt2 & E2 & S4 & O2).
          destruct (ndd_as (negb d) (ndd d b y s) x (ndd (negb d) a z s2)) as (l1 & r1 & EN). rewrite EN in S4.
          assert (I1 : inorder (plug ((negb d, z, s2) :: c) (ndd (negb d) (ndd d b y s) x a)) = O).
          { unfold O. cbn [plug]. apply inorder_plug_eq. rewrite ndd_neg.
            destruct d; simpl; rewrite <- ?app_assoc; simpl; rewrite <- ?app_assoc; reflexivity. }
          exists h2, rt2, l1, r1, c. split.
          { destruct d; cbn [negb Bool.eqb] in *; rewrite E1; cbn [bind]; exact E2. }
          split; [assumption|]. split; [simpl; lia|]. split.
          * rewrite <- I1, <- EN. cbn [plug]. apply inorder_plug_eq. symmetry. apply inorder_rot.
          * apply (same_out_trans h h1 h2 O (inorder (plug ((negb d, z, s2) :: c) (ndd (negb d) (ndd d b y s) x a)))).
            -- now rewrite I1.
            -- exact O1.
            -- exact O2. }
    destruct STEP as (h1 & rt1 & l1 & r1 & c1 & E & S1 & L1 & I1 & O1). rewrite E. cbn [bind].
    destruct (IH h1 rt1 l1 x r1 c1 S1) as (h2 & rt2 & l2 & r2 & E2 & S2 & I2 & O2); [lia|].
    exists h2, rt2, l2, r2. split; [assumption|]. split; [assumption|]. split; [congruence|].
    eapply same_out_trans; [|exact O1|exact O2]. now rewrite I1.
Qed.

(** * Sizes *)
Lemma rp_ids h f t : rp h f t -> forall z, In z (inorder t) -> z < length h.
Proof.
  revert f; induction t as [|l IHl x r IHr]; intros f R z Z; simpl in *; [tauto|].
  destruct R as (R1 & R2 & R3). apply in_app_or in Z. destruct Z as [Z|[<-|Z]]; eauto.
  apply nth_error_Some. congruence.
Qed.
Lemma bounded_length l n : NoDup l -> (forall z, In z l -> z < n) -> length l <= n.
Proof.
  intros N H. rewrite <- (seq_length n 0). apply NoDup_incl_length; [assumption|].
  intros z Z. apply in_seq. specialize (H z Z). lia.
Qed.
Lemma rp_size h f t : rp h f t -> NoDup (inorder t) -> length (inorder t) <= length h.
Proof. intros R N. apply bounded_length; [assumption|]. apply (rp_ids h f t R). Qed.
Lemma cids_length c : length c <= length (cids c).
Proof. induction c as [|[[d y] s] c IH]; simpl; [lia|]. rewrite app_length. lia. Qed.

Lemma good_splay h rt l x r c : st h rt (Nd l x r) c ->
  exists h' rt' l' r', splay (h, rt) (Some x) = Ok (h', rt') /\
    st h' rt' (Nd l' x r') [] /\ inorder (Nd l' x r') = inorder (plug c (Nd l x r)) /\
    same_out h h' (inorder (plug c (Nd l x r))).
Proof.
  intros S. unfold splay. cbn [fst]. apply splay_ok; [assumption|].
  apply st_plug in S. destruct S as (R & _ & N & _). cbn [cids] in N. rewrite app_nil_r in N.
  pose proof (rp_size _ _ _ R N) as L. rewrite (Permutation_length (inorder_plug c _)) in L.
  rewrite app_length in L. pose proof (cids_length c). lia.
Qed.

(** a node of a tree in focus *)
Lemma plug_snoc c d y s t : plug (c ++ [(d, y, s)]) t = ndd d (plug c t) y s.
Proof. revert t; induction c as [|[[d' y'] s'] c IH]; intros t; simpl; [reflexivity|apply IH]. Qed.
Lemma focus t x : In x (inorder t) -> exists c l r, t = plug c (Nd l x r).
Proof.
  induction t as [|l IHl y r IHr]; simpl; [tauto|]. intros H. apply in_app_or in H.
  destruct H as [H|[<-|H]].
  - destruct (IHl H) as (c & l' & r' & ->). exists (c ++ [(false, y, r)]), l', r'. now rewrite plug_snoc.
  - exists [], l, r. reflexivity.
  - destruct (IHr H) as (c & l' & r' & ->). exists (c ++ [(true, y, l)]), l', r'. now rewrite plug_snoc.
Qed.

(** * Sorted sequences *)
Lemma sorted_app l x r : sorted key (l ++ x :: r) ->
  sorted key l /\ sorted key r /\ (forall y, In y l -> (key y <= key x)%Z) /\ (forall y, In y r -> (key x <= key y)%Z).
Proof.
  induction l as [|a l IH]; simpl; intros [H S].
  - repeat split; auto. intros y [].
  - destruct (IH S) as (A & B & C & D). split; [split; [|assumption]|].
    + intros y Y. apply H. apply in_or_app. auto.
    + split; [assumption|]. split; [|assumption]. intros y [<-|Y]; [|auto].
      apply H. apply in_or_app. simpl. auto.
Qed.
Lemma place_in x l y : In y (place key x l) <-> y = x \/ In y l.
Proof.
  induction l as [|a l IH]; simpl; [intuition congruence|].
  destruct (key a <=? key x)%Z; simpl; [rewrite IH|]; intuition congruence.
Qed.
Lemma place_sorted x l : sorted key l -> sorted key (place key x l).
Proof.
  induction l as [|a l IH]; simpl; intros S; [split; [intros ? []|exact I]|].
  destruct S as [H S]. destruct (Z.leb_spec (key a) (key x)) as [L|L]; simpl.
  - split; [|auto]. intros y Y. apply place_in in Y. destruct Y as [->|Y]; auto.
  - split; [|auto]. intros y [<-|Y]; [lia|]. specialize (H y Y). lia.
Qed.
Lemma place_lt x A y B : (key x < key y)%Z -> place key x (A ++ y :: B) = place key x A ++ y :: B.
Proof.
  intros L. induction A as [|a A IH]; simpl.
  - destruct (Z.leb_spec (key y) (key x)); [lia|reflexivity].
  - destruct (key a <=? key x)%Z; simpl; [now rewrite IH|reflexivity].
Qed.
Lemma place_ge x A y B : (forall a, In a A -> (key a <= key x)%Z) -> (key y <= key x)%Z ->
  place key x (A ++ y :: B) = A ++ y :: place key x B.
Proof.
  intros H L. induction A as [|a A IH]; simpl.
  - destruct (Z.leb_spec (key y) (key x)); [reflexivity|lia].
  - destruct (Z.leb_spec (key a) (key x)) as [L'|L'].
    + rewrite IH; [reflexivity|]. intros b Bb. apply H. simpl. auto.
    + specialize (H a (or_introl eq_refl)). lia.
Qed.

(** * Descending *)
Lemma rp_down h f t : rp h f t -> linked_down key h t.
Proof.
  revert f; induction t as [|l IHl x r IHr]; intros f R; [exact I|]. simpl in *.
  destruct R as (R1 & R2 & R3). split; [eexists; split; [exact R1|simpl; auto]|]. eauto.
Qed.
Lemma rp_up h f t : rp h f t -> linked_up h f t.
Proof.
  revert f; induction t as [|l IHl x r IHr]; intros f R; [exact I|]. simpl in *.
  destruct R as (R1 & R2 & R3). split; [eexists; split; [exact R1|simpl; auto]|]. eauto.
Qed.

Lemma find_ok h k t fuel : linked_down key h t -> sorted key (inorder t) -> length (inorder t) < fuel ->
  exists p, find_loop fuel h k (troot t) = Ok p /\
    match p with Some x => In x (inorder t) /\ key x = k | None => forall x, In x (inorder t) -> key x <> k end.
Proof.
  revert fuel; induction t as [|l IHl x r IHr]; intros fuel D S L; (destruct fuel as [|f]; [simpl in L; lia|]).
  - exists None. split; [reflexivity|]. intros x [].
  - cbn [linked_down] in D. destruct D as ((n & E & C0 & C1 & RK) & DL & DR).
    cbn [inorder] in S. destruct (sorted_app _ _ _ S) as (SL & SR & LE & GE).
    cbn [inorder] in L. rewrite app_length in L. simpl in L.
    cbn [find_loop troot peq]. rewrite (rrank_ok _ _ _ E), RK. cbn [bind].
    destruct (Z.eqb_spec (key x) k) as [EQ|NE].
    + exists (Some x). split; [reflexivity|]. split; [simpl; apply in_or_app; simpl; auto|assumption].
    + destruct (Z.ltb_spec (key x) k) as [LT|LT].
      * rewrite (rch_ok _ _ _ _ E). cbn [bind chd]. rewrite C1.
        destruct (IHr f DR SR) as (p & F & P); [lia|]. exists p. split; [assumption|].
        destruct p as [y|].
        -- destruct P. split; [simpl; apply in_or_app; simpl; auto|assumption].
        -- intros y Y. simpl in Y. apply in_app_or in Y. destruct Y as [Y|[<-|Y]]; [|assumption|auto].
           specialize (LE y Y). lia.
      * rewrite (rch_ok _ _ _ _ E). cbn [bind chd]. rewrite C0.
        destruct (IHl f DL SL) as (p & F & P); [lia|]. exists p. split; [assumption|].
        destruct p as [y|].
        -- destruct P. split; [simpl; apply in_or_app; simpl; auto|assumption].
        -- intros y Y. simpl in Y. apply in_app_or in Y. destruct Y as [Y|[<-|Y]]; [auto|assumption|].
           specialize (GE y Y). lia.
Qed.

Lemma walk_right h l x r fuel : linked_down key h (Nd l x r) -> length (inorder r) < fuel ->
  walk_down fuel h true (Some x) = Ok (last_of (x :: inorder r)).
Proof.
  revert fuel l x; induction r as [|rl _ y rr IH]; intros fuel l x D L; (destruct fuel as [|f]; [simpl in L; lia|]);
    cbn [linked_down] in D; destruct D as ((n & E & C0 & C1 & RK) & DL & DR);
    cbn [walk_down]; rewrite (rch_ok _ _ _ _ E); cbn [bind chd]; rewrite C1; cbn [troot peq].
  - reflexivity.
  - rewrite IH with (l := rl); [|exact DR|simpl in L; rewrite app_length in L; simpl in L; lia].
    cbn [inorder]. f_equal. symmetry. change (x :: inorder rl ++ y :: inorder rr) with ((x :: inorder rl) ++ y :: inorder rr).
    apply last_of_app2.
Qed.
Lemma walk_left h l x r fuel : linked_down key h (Nd l x r) -> length (inorder l) < fuel ->
  walk_down fuel h false (Some x) = Ok (first_of (inorder l ++ [x])).
Proof.
  revert fuel r x; induction l as [|ll IH y lr _]; intros fuel r x D L; (destruct fuel as [|f]; [simpl in L; lia|]);
    cbn [linked_down] in D; destruct D as ((n & E & C0 & C1 & RK) & DL & DR);
    cbn [walk_down]; rewrite (rch_ok _ _ _ _ E); cbn [bind chd]; rewrite C0; cbn [troot peq].
  - reflexivity.
  - rewrite IH with (r := lr); [|exact DL|simpl in L; rewrite app_length in L; simpl in L; lia].
    cbn [inorder]. f_equal. rewrite <- app_assoc. simpl. destruct (inorder ll); reflexivity.
Qed.
Lemma pre_ok h l x r : linked_down key h (Nd l x r) -> length (inorder l) <= length h ->
  pre h (Some x) = Ok (last_of (inorder l)).
Proof.
  intros D L. pose proof D as ((n & E & C0 & C1 & RK) & DL & DR). unfold pre.
  rewrite (rch_ok _ _ _ _ E). cbn [bind chd]. rewrite C0.
  destruct l as [|ll y lr]; [reflexivity|]. cbn [troot peq].
  rewrite (walk_right h ll y lr) by (try assumption; simpl in L; rewrite app_length in L; simpl in L; lia).
  cbn [inorder]. f_equal. symmetry. apply last_of_app2.
Qed.
Lemma suf_ok h l x r : linked_down key h (Nd l x r) -> length (inorder r) <= length h ->
  suf h (Some x) = Ok (first_of (inorder r)).
Proof.
  intros D L. pose proof D as ((n & E & C0 & C1 & RK) & DL & DR). unfold suf.
  rewrite (rch_ok _ _ _ _ E). cbn [bind chd]. rewrite C1.
  destruct r as [|rl y rr]; [reflexivity|]. cbn [troot peq].
  rewrite (walk_left h rl y rr) by (try assumption; simpl in L; rewrite app_length in L; simpl in L; lia).
  cbn [inorder]. f_equal. destruct (inorder rl); reflexivity.
Qed.

Lemma descend_ok h x nx t fuel : nth_error h x = Some nx -> rank nx = key x ->
  linked_down key h t -> sorted key (inorder t) -> t <> Lf -> length (inorder t) <= fuel ->
  exists d y s c, descend fuel h (Some x) (troot t) = Ok (Some y) /\
    t = plug ((d, y, s) :: c) Lf /\ d = (key y <=? key x)%Z /\
    inorder (plug ((d, y, s) :: c) (Nd Lf x Lf)) = place key x (inorder t).
Proof.
  intros EX KX. revert fuel; induction t as [|l IHl y r IHr]; intros fuel D S N L; [congruence|].
  cbn [inorder] in L. rewrite app_length in L. simpl in L. destruct fuel as [|f]; [lia|].
  cbn [linked_down] in D. destruct D as ((n & E & C0 & C1 & RK) & DL & DR).
  cbn [inorder] in S. destruct (sorted_app _ _ _ S) as (SL & SR & LE & GE).
  cbn [descend troot]. rewrite (rrank_ok _ _ _ EX), (rrank_ok _ _ _ E), KX, RK. cbn [bind].
  destruct (Z.ltb_spec (key x) (key y)) as [LT|LT]; rewrite (rch_ok _ _ _ _ E); cbn [bind chd].
  - rewrite C0. destruct l as [|ll ly lr].
    + cbn [troot peq]. exists false, y, r, []. split; [reflexivity|]. split; [reflexivity|].
      split; [destruct (Z.leb_spec (key y) (key x)); [lia|reflexivity]|].
      simpl. destruct (Z.leb_spec (key y) (key x)); [lia|reflexivity].
    + destruct (IHl f DL SL) as (d & z & s & c & F & P & DD & I); [discriminate|lia|].
      cbn [troot peq] in *. exists d, z, s, (c ++ [(false, y, r)]). split; [assumption|].
      rewrite app_comm_cons, !plug_snoc, <- P. split; [reflexivity|]. split; [assumption|].
      cbn [ndd inorder] in *. rewrite I. symmetry. apply place_lt. assumption.
  - rewrite C1. destruct r as [|rl ry rr].
    + cbn [troot peq]. exists true, y, l, []. split; [reflexivity|]. split; [reflexivity|].
      split; [destruct (Z.leb_spec (key y) (key x)); [reflexivity|lia]|].
      cbn [plug ndd inorder app]. rewrite place_ge; [reflexivity| |lia].
      intros a A. specialize (LE a A). lia.
    + destruct (IHr f DR SR) as (d & z & s & c & F & P & DD & I); [discriminate|lia|].
      cbn [troot peq] in *. exists d, z, s, (c ++ [(true, y, l)]). split; [assumption|].
      rewrite app_comm_cons, !plug_snoc, <- P. split; [reflexivity|]. split; [assumption|].
      cbn [ndd inorder] in *. rewrite I. symmetry. apply place_ge; [|lia].
      intros a A. specialize (LE a A). lia.
Qed.

(** * Insertion *)
Lemma insert_ok h rt t x :
  st h rt t [] -> sorted key (inorder t) ->
  nth_error h x = Some (mkd false None None None x) -> ~ In x (inorder t) ->
  exists h' rt' l r, insert (h, rt) (Some x) = Ok (h', rt') /\ st h' rt' (Nd l x r) [] /\
    inorder (Nd l x r) = place key x (inorder t) /\ same_out h h' (x :: inorder t).
Proof.
  intros (R & _ & N & RT) S EX NX. cbn [cids plug] in N, RT. rewrite app_nil_r in N.
  unfold insert. destruct t as [|tl tx tr].
  - subst rt. cbn [troot peq]. exists h, (Some x), Lf, Lf. split; [reflexivity|].
    split; [|split; [reflexivity|split; auto]].
    split; [simpl; auto|]. split; [exact I|]. split; [repeat constructor; intros []|reflexivity].
  - subst rt. cbn [troot peq]. pose proof (rp_size _ _ _ R N) as SZ.
    destruct (descend_ok h x _ (Nd tl tx tr) (Datatypes.S (length h)) EX eq_refl (rp_down _ _ _ R) S)
      as (d & y & s & c & F & P & DD & IN); [discriminate|lia|].
    cbn [troot] in F. rewrite F. cbn [bind].
    assert (SP : st h (Some tx) Lf ((d, y, s) :: c)).
    { apply st_plug. rewrite <- P. split; [assumption|]. split; [exact I|].
      split; [cbn [cids]; now rewrite app_nil_r|reflexivity]. }
    assert (PC : Permutation (inorder (Nd tl tx tr)) (cids ((d, y, s) :: c))).
    { rewrite P. apply inorder_plug. }
    assert (XY : x <> y).
    { intros ->. apply NX. eapply Permutation_in; [symmetry; exact PC|]. left. reflexivity. }
    pose proof SP as (_ & RC & NC & RT2). cbn [troot] in RC. pose proof RC as RC0. cbn [BstProofs.rc] in RC0.
    destruct RC0 as (EY & RS & RC').
    destruct (wfa_ok h x _ (Some y) EX) as (h1 & -> & L1 & E1 & F1). cbn [bind].
    rewrite (rrank_ok _ _ _ E1). cbn [bind with_fa BstProofs.mkd rank].
    assert (EY1 : nth_error h1 y = Some (mkd d None (troot s) (topid c) y)) by (rewrite F1; auto).
    rewrite (rrank_ok _ _ _ EY1). cbn [bind].
    replace (rank (mkd d None (troot s) (topid c) y)) with (key y) by now destruct d.
    rewrite <- DD.
    destruct (wch_ok h1 y _ d (Some x) EY1) as (h2 & -> & L2 & E2 & F2). cbn [bind].
    replace (with_ch (mkd d None (troot s) (topid c) y) d (Some x)) with (mkd d (Some x) (troot s) (topid c) y) in E2
      by now destruct d.
    assert (ST2 : st h2 (Some tx) (Nd Lf x Lf) ((d, y, s) :: c)).
    { split; [|split; [|split]].
      - cbn [BstProofs.rp troot topid]. split; [|split; exact I]. rewrite F2 by auto. exact E1.
      - cbn [troot]. apply (rc_rehole key val h h2 None); [assumption| | |assumption].
        + intros z Z ZT. cbn [topid] in ZT. rewrite F2 by congruence. apply F1. intros ->. apply NX.
          eapply Permutation_in; [symmetry; exact PC|exact Z].
        + intros d' y' s' c' [= <- <- <- <-]. assumption.
      - cbn [inorder app]. constructor; [|assumption]. intros H. apply NX.
        eapply Permutation_in; [symmetry; exact PC|exact H].
      - cbn [plug] in RT2 |- *. rewrite RT2. apply plug_root_inv. now rewrite !troot_ndd. }
    destruct (good_splay _ _ _ _ _ _ ST2) as (h3 & rt3 & l3 & r3 & E3 & S3 & I3 & O3).
    exists h3, rt3, l3, r3. split; [assumption|]. split; [assumption|]. split; [congruence|].
    destruct O3 as [O3 O4]. split; [lia|]. intros z Z.
    assert (ZI : ~ In z (inorder (plug ((d, y, s) :: c) (Nd Lf x Lf)))).
    { rewrite IN, place_in. simpl in Z. intuition congruence. }
    rewrite (O4 z ZI). rewrite F2, F1; [reflexivity| |].
    + intros ->. apply Z. left. reflexivity.
    + intros ->. apply Z. right. eapply Permutation_in; [symmetry; exact PC|left; reflexivity].
Qed.

(** * Erasing *)
Lemma max_focus l : l <> Lf -> exists c pl p, l = plug c (Nd pl p Lf) /\
  inorder (plug c pl) ++ [p] = inorder l /\
  (forall d y s c', c = (d, y, s) :: c' -> d = true).
Proof.
  induction l as [|ll _ y lr IH]; intros N; [congruence|].
  destruct lr as [|rl ry rr].
  - exists [], ll, y. split; [reflexivity|]. split; [reflexivity|]. discriminate.
  - destruct IH as (c & pl & p & E & I & D); [discriminate|].
    exists (c ++ [(true, y, ll)]), pl, p. rewrite !plug_snoc, <- E. split; [reflexivity|].
    split.
    + cbn [ndd inorder]. rewrite <- app_assoc. simpl. rewrite I. reflexivity.
    + intros d z s c' H. destruct c as [|[[d0 z0] s0] c0]; simpl in H.
      * now injection H as <- <- <- <-.
      * injection H as <- <- <- _. eapply D. reflexivity.
Qed.

Lemma unlink_ok h rt pl p d f s c :
  st h rt (Nd pl p Lf) ((d, f, s) :: c) ->
  exists h', (f <- rfa h (Some p) ;; f0 <- rch h f false ;; rl <- rch h (Some p) false ;;
              h <- wch h f (negb (peq f0 (Some p))) rl ;;
              rl <- rch h (Some p) false ;;
              (if peq rl None then Ok h else f <- rfa h (Some p) ;; wfa h rl f)) = Ok h' /\
    rp h' (Some f) pl /\ rc h' (troot pl) ((d, f, s) :: c) /\ length h' = length h /\
    nth_error h' p = nth_error h p /\
    forall z, ~ In z (inorder pl ++ cids ((d, f, s) :: c)) -> nth_error h' z = nth_error h z.
Proof.
  intros S. destruct (st_child _ _ _ _ _ _ _ S) as [F NS]. cbn [troot] in F, NS.
  specialize (NS ltac:(discriminate)).
  destruct S as (R & RC & N & _). cbn [BstProofs.rp troot topid] in R. destruct R as (P & RL & _).
  cbn [inorder] in N. rewrite <- app_assoc in N. simpl in N.
  destruct (NoDup_app_inv _ _ N) as (NL & NP & DL). inversion NP as [|? ? NP1 NP2]; subst x l.
  assert (PF : p <> f) by (intros ->; apply NP1; left; reflexivity).
  rewrite (rfa_ok _ _ _ P). cbn [bind BstProofs.mkd bfa]. rewrite (rch_ok _ _ _ _ F). cbn [bind].
  rewrite (rch_ok _ _ _ _ P). cbn [bind chd BstProofs.mkd ch0].
  assert (EP : negb (peq (chd (mkd d (Some p) (troot s) (topid c) f) false) (Some p)) = d).
  { destruct d; cbn [chd BstProofs.mkd ch0]; [now rewrite peq_neq|now rewrite peq_refl]. }
  cbn [chd] in EP. rewrite EP. clear EP.
  destruct (wch_ok h f _ d (troot pl) F) as (h1 & -> & L1 & E1 & F1). cbn [bind].
  replace (with_ch (mkd d (Some p) (troot s) (topid c) f) d (troot pl)) with (mkd d (troot pl) (troot s) (topid c) f) in E1
    by now destruct d.
  assert (P1 : nth_error h1 p = Some (mkd false (troot pl) None (Some f) p)) by (rewrite F1; auto).
  rewrite (rch_ok _ _ _ _ P1). cbn [bind chd BstProofs.mkd ch0].
  assert (DP : forall z, In z (inorder pl) -> z <> p /\ z <> f /\ ~ In z (cids ((d, f, s) :: c))).
  { intros z Z. specialize (DL z Z). simpl in DL |- *. intuition congruence. }
  destruct pl as [|pll px plr].
  - exists h1. cbn [troot peq]. split; [reflexivity|]. split; [exact I|]. split; [|split; [lia|split; [congruence|]]].
    2:{ intros z Z. apply F1. intros ->. apply Z. apply in_or_app. right. left. reflexivity. }
    apply (rc_rehole key val h h1 (Some p)); [assumption| | |assumption].
    + intros z Z ZT. apply F1. cbn [topid] in ZT. congruence.
    + intros d' y' s' c' [= <- <- <- <-]. exact E1.
  - cbn [troot peq] in *. rewrite (rfa_ok _ _ _ P1). cbn [bind BstProofs.mkd bfa].
    assert (IP : In px (inorder (Nd pll px plr))) by (apply in_root; reflexivity).
    destruct (DP px IP) as (A1 & A2 & A3).
    pose proof RL as (PX & _). rewrite <- F1 in PX by assumption.
    destruct (wfa_ok h1 px _ (Some f) PX) as (h2 & -> & L2 & E2 & F2). exists h2.
    split; [reflexivity|]. split; [|split; [|split; [lia|split]]].
    + apply (rp_refather key val h h2 (Some p)); [assumption| | |assumption].
      * intros z Z Z2. rewrite F2 by (simpl in Z2; congruence). apply F1. destruct (DP z Z); tauto.
      * intros z n [= ->] Zn. rewrite F1 in PX by assumption. congruence.
    + apply (rc_rehole key val h h2 (Some p)); [assumption| | |assumption].
      * intros z Z ZT. cbn [topid] in ZT. rewrite F2, F1; [reflexivity|congruence|].
        intros ->. tauto.
      * intros d' y' s' c' [= <- <- <- <-]. rewrite F2 by auto. exact E1.
    + rewrite F2, F1 by auto. reflexivity.
    + intros z Z. rewrite F2, F1; [reflexivity| |].
      * intros ->. apply Z. apply in_or_app. right. left. reflexivity.
      * intros ->. apply Z. apply in_or_app. auto.
Qed.

(** the tree read off a context *)
Lemma rp_plug h t c : rp h (topid c) t -> rc h (troot t) c -> rp h None (plug c t).
Proof.
  revert t; induction c as [|[[d y] s] c IH]; intros t R C; [assumption|].
  cbn [topid BstProofs.rc plug] in *. destruct C as (C1 & C2 & C3). apply IH.
  - apply rp_ndd. auto.
  - rewrite troot_ndd. assumption.
Qed.

Lemma split_at (L R A Bq : list nat) x :
  NoDup (L ++ x :: R) -> L ++ x :: R = A ++ x :: Bq -> L = A /\ R = Bq.
Proof.
  revert A; induction L as [|a L IH]; intros A ND E.
  - destruct A as [|b A]; simpl in E; [injection E as E2; auto|]. injection E as E1 E2. exfalso.
    subst. simpl in ND. inversion ND as [|? ? N1 N2]; subst. apply N1. apply in_or_app. simpl. auto.
  - destruct A as [|b A]; simpl in E; injection E as E1 E2.
    + exfalso. subst. simpl in ND. inversion ND as [|? ? N1 N2]; subst. apply N1.
      apply in_or_app. simpl. auto.
    + simpl in ND. inversion ND as [|? ? N1 N2]; subst.
      destruct (IH A N2 E2) as [-> ->]. auto.
Qed.
(** the outcome of erase by the position of the node *)
Lemma erase_ok h rt t A x Bq :
  st h rt t [] -> inorder t = A ++ x :: Bq ->
  match A, Bq with
  | [], _ => exists h' t', erase (h, rt) (Some x) = Ok (h', troot t') /\ st h' (troot t') t' [] /\
       inorder t' = Bq /\ same_out h h' (inorder t)
  | _ :: _, [] => erase (h, rt) (Some x) = UB
  | _, _ => exists h' l p r, erase (h, rt) (Some x) = Ok (h', Some p) /\
       inorder (Nd l p r) = A ++ Bq /\ linked_down key h' (Nd l p r) /\ same_out h h' (inorder t) /\
       linked_up h' (Some x) l /\ linked_up h' (Some x) r /\ r <> Lf
  end.
Proof.
  intros S E. assert (IX : In x (inorder t)) by (rewrite E; apply in_or_app; simpl; auto).
  assert (ND : NoDup (inorder t)).
  { destruct S as (_ & _ & N & _). cbn [cids] in N. now rewrite app_nil_r in N. }
  destruct (focus t x IX) as (c & l0 & r0 & ET). subst t. apply st_plug in S.
  destruct (good_splay _ _ _ _ _ _ S) as (h1 & rt1 & l & r & E1 & S1 & I1 & O1).
  rewrite <- I1 in *. clear S c l0 r0 I1.
  assert (EQ : inorder l = A /\ inorder r = Bq).
  { cbn [inorder] in E, ND. eapply split_at; eassumption. }
  destruct EQ as [EA EB].
  unfold erase. rewrite E1. cbn [bind].
  pose proof S1 as (R & _ & N & RT). cbn [BstProofs.rp topid] in R. destruct R as (X & RL & RR).
  cbn [cids plug troot] in N, RT. rewrite app_nil_r in N.
  rewrite !(rch_ok _ _ _ _ X). cbn [bind chd BstProofs.mkd ch0 ch1].
  cbn [inorder] in N. destruct (NoDup_app_inv _ _ N) as (NL & NR & DL).
  inversion NR as [|? ? NX NR']; subst x0 l0.
  assert (XL : ~ In x (inorder l)) by (intros H; apply (DL x H); left; reflexivity).
  destruct l as [|ll ly lr].
  - simpl in EA. subst A. cbn [troot peq andb negb].
    destruct r as [|rl ry rr].
    + simpl in EB. subst Bq. cbn [troot peq andb]. exists h1, Lf. split; [reflexivity|].
      split; [split; [exact I|split; [exact I|split; [constructor|reflexivity]]]|].
      split; [reflexivity|assumption].
    + cbn [troot peq andb negb]. pose proof RR as (RY & _).
      destruct (wfa_ok h1 ry _ None RY) as (h2 & -> & L2 & E2 & F2). cbn [bind].
      exists h2, (Nd rl ry rr). split; [reflexivity|]. split; [|split; [assumption|]].
      * split; [|split; [exact I|split; [cbn [cids]; now rewrite app_nil_r|reflexivity]]].
        cbn [topid]. apply (rp_refather key val h1 h2 (Some x)); [assumption| | |assumption].
        -- intros z Z ZT. apply F2. simpl in ZT. congruence.
        -- intros z n [= ->] Zn. congruence.
      * destruct O1 as [O1 O2]. split; [lia|]. intros z Z. rewrite F2; [apply O2; assumption|].
        intros ->. apply Z. cbn [inorder]. simpl. right. apply in_or_app. simpl. auto.
  - destruct A as [|a A]; [simpl in EA; destruct (inorder ll); discriminate|].
    destruct r as [|rl ry rr].
    + simpl in EB. subst Bq. cbn [troot peq andb negb]. reflexivity.
    + destruct Bq as [|b Bq]; [simpl in EB; destruct (inorder rl); discriminate|].
      cbn [troot peq andb negb].
      assert (SZ : length (inorder (Nd (Nd ll ly lr) x (Nd rl ry rr))) <= length h1).
      { apply (rp_size h1 None); [cbn [BstProofs.rp]; auto|assumption]. }
      rewrite (pre_ok h1 (Nd ll ly lr) x (Nd rl ry rr)).
      2:{ apply (rp_down h1 None). cbn [BstProofs.rp]. auto. }
      2:{ cbn [inorder] in SZ |- *. rewrite app_length in SZ. lia. }
      cbn [bind].
      destruct (max_focus (Nd ll ly lr)) as (c & pl & p & EL & IL & DC); [discriminate|].
      assert (LAST : last_of (inorder (Nd ll ly lr)) = Some p) by (rewrite <- IL; apply last_of_app).
      rewrite LAST.
      assert (SP : st h1 rt1 (Nd pl p Lf) (c ++ [(false, x, Nd rl ry rr)])).
      { apply st_plug. rewrite plug_snoc, <- EL. exact S1. }
      assert (CT : exists d f s c', c ++ [(false, x, Nd rl ry rr)] = (d, f, s) :: c').
      { destruct c as [|[[d f] s] c']; simpl; eauto. }
      destruct CT as (d & f & s & c' & CT).
      rewrite CT in SP. destruct (unlink_ok _ _ _ _ _ _ _ _ SP) as (h2 & U & RP2 & RC2 & L2 & P2 & F2).
      pose proof SP as (RPP & _). cbn [BstProofs.rp troot topid] in RPP. destruct RPP as (PP & _).
      (* regroup the unlinking steps *)
      assert (PRE : forall k,
        (f <- rfa h1 (Some p) ;; f0 <- rch h1 f false ;; rl <- rch h1 (Some p) false ;;
         h <- wch h1 f (negb (peq f0 (Some p))) rl ;;
         rl <- rch h (Some p) false ;;
         h <- (if peq rl None then Ok h else f <- rfa h (Some p) ;; wfa h rl f) ;; k h) = (k h2 : outcome bst)).
      { intros k. revert U. generalize h2. clear. intros h2 U.
        destruct (rfa h1 (Some p)) as [f| | |]; try discriminate. cbn [bind] in *.
        destruct (rch h1 f false) as [f0| | |]; try discriminate. cbn [bind] in *.
        destruct (rch h1 (Some p) false) as [rl| | |]; try discriminate. cbn [bind] in *.
        destruct (wch h1 f (negb (peq f0 (Some p))) rl) as [h| | |]; try discriminate. cbn [bind] in *.
        destruct (rch h (Some p) false) as [rl'| | |]; try discriminate. cbn [bind] in *.
        now rewrite U. }
      rewrite PRE. clear PRE U.
      assert (WHOLE : rp h2 None (plug ((d, f, s) :: c') pl)) by (apply rp_plug; assumption).
      rewrite <- CT, plug_snoc in WHOLE. cbn [ndd] in WHOLE.
      cbn [BstProofs.rp] in WHOLE. destruct WHOLE as (X2 & RL2 & RR2).
      assert (NPI : ~ In p (inorder (plug c pl)) /\ p <> x /\ ~ In p (inorder (Nd rl ry rr))).
      { rewrite <- IL in N. rewrite <- app_assoc in N. simpl in N. apply NoDup_remove_2 in N.
        rewrite in_app_iff in N. simpl in N. rewrite in_app_iff in N. simpl in N |- *.
        rewrite in_app_iff. simpl. intuition. }
      destruct NPI as (NP1 & NP2 & NP3).
      rewrite PP in P2.
      destruct (wfa_ok h2 p _ None P2) as (h3 & -> & L3 & E3 & F3). cbn [bind].
      assert (X3 : nth_error h3 x = Some (mkd false (troot (plug c pl)) (troot (Nd rl ry rr)) None x)) by (rewrite F3; auto).
      rewrite (rch_ok _ _ _ _ X3). cbn [bind chd BstProofs.mkd ch0].
      destruct (wch_ok h3 p _ false (troot (plug c pl)) E3) as (h4 & -> & L4 & E4 & F4). cbn [bind].
      assert (X4 : nth_error h4 x = Some (mkd false (troot (plug c pl)) (troot (Nd rl ry rr)) None x)) by (rewrite F4; auto).
      rewrite (rch_ok _ _ _ _ X4). cbn [bind chd BstProofs.mkd ch1].
      destruct (wch_ok h4 p _ true (troot (Nd rl ry rr)) E4) as (h5 & W5 & L5 & E5 & F5). rewrite W5. cbn [bind].
      assert (FR : forall z, z <> p -> nth_error h5 z = nth_error h2 z) by (intros z Z; rewrite F5, F4, F3; auto).
      assert (RL5 : rp h5 (Some x) (plug c pl)).
      { eapply rp_frame; [exact RL2|]. intros z Z. apply FR. intros ->. contradiction. }
      assert (RR5 : rp h5 (Some x) (Nd rl ry rr)).
      { eapply rp_frame; [exact RR2|]. intros z Z. apply FR. intros ->. contradiction. }
      exists h5, (plug c pl), p, (Nd rl ry rr). split; [reflexivity|]. split; [|split; [|split; [|split; [|split]]]].
      * cbn [inorder]. cbn [inorder] in EB. rewrite EB. rewrite <- EA, <- IL, <- app_assoc. reflexivity.
      * cbn [linked_down]. split; [|split; [exact (rp_down _ _ _ RL5)|exact (rp_down _ _ _ RR5)]].
        eexists. split; [exact E5|]. simpl. auto.
      * destruct O1 as [O1 O2]. split; [lia|]. intros z Z.
        assert (z <> p).
        { intros ->. apply Z. cbn [inorder]. cbn [inorder] in IL. rewrite <- IL. rewrite <- app_assoc.
          apply in_or_app. right. simpl. auto. }
        rewrite FR by assumption. rewrite <- O2 by assumption.
        apply F2. intros HZ. apply Z.
        rewrite <- CT in HZ.
        assert (HQ : In z (inorder (plug (c ++ [(false, x, Nd rl ry rr)]) pl))).
        { eapply Permutation_in; [symmetry; apply inorder_plug|exact HZ]. }
        rewrite plug_snoc in HQ. cbn [ndd inorder] in HQ. cbn [inorder] in IL |- *.
        rewrite <- IL, <- app_assoc. rewrite in_app_iff in HQ |- *. simpl in *. tauto.
      * exact (rp_up _ _ _ RL5).
      * exact (rp_up _ _ _ RR5).
      * discriminate.
Qed.

(** * Histories *)
Definition inv (n : nat) (l : list nat) (s : bst) : Prop :=
  exists t, st (fst s) (snd s) t [] /\ inorder t = l /\ sorted key l /\ length (fst s) = n.

Lemma st_nil h rt t : st h rt t [] -> rp h None t /\ NoDup (inorder t) /\ rt = troot t.
Proof. intros (R & _ & N & E). cbn [cids] in N. rewrite app_nil_r in N. auto. Qed.
Lemma nil_st h t : rp h None t -> NoDup (inorder t) -> st h (troot t) t [].
Proof.
  intros R N. split; [assumption|]. split; [exact I|]. split; [cbn [cids]; now rewrite app_nil_r|reflexivity].
Qed.

Lemma insert_new_ok n l s k v : inv n l s -> key n = k -> val n = v ->
  exists s', insert_new s k v = Ok s' /\ inv (S n) (place key n l) s' /\ snd s' = Some n.
Proof.
  intros (t & S & I & SO & L) K W. destruct s as [h rt]. cbn [fst snd] in *.
  unfold insert_new, new_node. cbn [fst snd]. rewrite L.
  destruct (st_nil _ _ _ S) as (R & N & RT).
  assert (ST : st (h ++ [B None None None k v]) rt t []).
  { subst rt. apply nil_st; [|assumption]. eapply rp_frame; [exact R|]. intros z Z.
    apply nth_error_app1. eapply rp_ids; eassumption. }
  destruct (insert_ok (h ++ [B None None None k v]) rt t n ST) as (h' & rt' & l1 & r1 & E & S' & I' & LEN & _).
  - now rewrite I.
  - rewrite nth_error_app2, L, Nat.sub_diag by lia. simpl. subst k v. reflexivity.
  - intros H. pose proof (rp_ids _ _ _ R n H). lia.
  - exists (h', rt'). split; [assumption|]. split.
    + exists (Nd l1 n r1). cbn [fst snd]. split; [assumption|]. split; [congruence|].
      split; [now apply place_sorted|]. rewrite LEN, app_length. simpl. lia.
    + destruct (st_nil _ _ _ S') as (_ & _ & ->). reflexivity.
Qed.
Lemma run_ok os : forall n l s m l', inv n l s ->
  (forall i kv, nth_error (created os) i = Some kv -> key (n + i) = fst kv /\ val (n + i) = snd kv) ->
  history key n l os = Some (m, l') -> exists s', run s os = Ok s' /\ inv m l' s'.
Proof.
  induction os as [|[k v|x] os IH]; intros n l s m l' IV C H; cbn [run history created] in *.
  - injection H as <- <-. eauto.
  - destruct (C 0 (k, v) eq_refl) as [K W]. rewrite Nat.add_0_r in K, W.
    destruct (insert_new_ok n l s k v IV K W) as (s' & E & IV' & _).
    cbn [step]. rewrite E. cbn [bind]. apply (IH (S n) (place key n l) s' m l' IV'); [|assumption].
    intros i kv G. replace (S n + i) with (n + S i) by lia. apply C. exact G.
  - destruct l as [|y l]; [discriminate|]. destruct (Nat.eqb_spec x y) as [->|]; [|discriminate].
    destruct IV as (t & S & I & SO & L). destruct s as [h rt]. cbn [fst snd] in *.
    pose proof (erase_ok h rt t [] y l S I) as (h' & t' & E & S' & I' & O & _).
    cbn [step]. rewrite E. cbn [bind]. apply (IH n l (h', troot t') m l'); [|assumption|assumption].
    exists t'. cbn [fst snd]. split; [assumption|]. split; [assumption|]. split; [apply SO|]. congruence.
Qed.
Lemma run_app os os' s : run s (os ++ os') = (s <- run s os ;; run s os').
Proof.
  revert s; induction os as [|o os IH]; intros s; simpl; [reflexivity|].
  destruct (step s o); simpl; auto.
Qed.

Lemma history_members os : forall n l m l', NoDup l -> (forall x, In x l -> x < n) ->
  history key n l os = Some (m, l') ->
  n <= m /\ NoDup l' /\ (forall x, In x l' <-> (In x l \/ n <= x < m) /\ ~ In (Del x) os).
Proof.
  induction os as [|[k v|y] os IH]; intros n l m l' N B H; cbn [history] in H.
  - injection H as <- <-. split; [lia|]. split; [assumption|]. intros x. simpl. split; [tauto|].
    intros [[X|X] _]; [assumption|lia].
  - assert (NN : ~ In n l) by (intros X; apply B in X; lia).
    assert (NP : NoDup (place key n l)).
    { clear - N NN val. induction l as [|a l IH]; simpl; [constructor; [intros []|constructor]|].
      inversion N as [|? ? N1 N2]; subst. destruct (key a <=? key n)%Z.
      - constructor; [|apply IH; [assumption|simpl in NN; tauto]].
        rewrite place_in. simpl in NN. intuition congruence.
      - constructor; assumption. }
    destruct (IH (S n) (place key n l) m l') as (L & N' & M); [assumption| |assumption|].
    { intros x X. apply place_in in X. destruct X as [->|X]; [lia|]. apply B in X. lia. }
    split; [lia|]. split; [assumption|]. intros x. rewrite M, place_in. simpl.
    assert (Del x <> Ins k v) by discriminate.
    assert ((x = n \/ In x l) \/ S n <= x < m <-> In x l \/ n <= x < m).
    { split; intros G; [destruct G as [[->|G]|G]; [right; lia|auto|right; lia]|].
      destruct G as [G|G]; [auto|]. destruct (Nat.eq_dec x n); [auto|right; lia]. }
    intuition congruence.
  - destruct l as [|z l]; [discriminate|]. destruct (Nat.eqb_spec y z) as [->|]; [|discriminate].
    inversion N as [|? ? N1 N2]; subst.
    destruct (IH n l m l') as (L & N' & M); [assumption| |assumption|].
    { intros x X. apply B. now right. }
    split; [lia|]. split; [assumption|]. intros x. rewrite M. simpl.
    assert (z < n) by (apply B; now left).
    split.
    + intros [[X|X] D]; (split; [auto|]); intros [[= ->]|D']; try contradiction. lia.
    + intros [X D]. split; [|tauto]. destruct X as [[->|X]|X]; [|auto|auto]. exfalso. apply D. auto.
Qed.
Lemma history_sorted os : forall n l m l', sorted key l -> history key n l os = Some (m, l') -> sorted key l'.
Proof.
  induction os as [|[k v|y] os IH]; intros n l m l' N H; cbn [history] in H.
  - now injection H as <- <-.
  - eapply IH; [|eassumption]. now apply place_sorted.
  - destruct l as [|z l]; [discriminate|]. destruct (y =? z); [|discriminate].
    eapply IH; [|eassumption]. apply N.
Qed.
Lemma inorder_form c : exists P Q, forall t, inorder (plug c t) = P ++ inorder t ++ Q.
Proof.
  induction c as [|[[d y] s] c (P & Q & IH)]; [exists [], []; intros t; simpl; now rewrite app_nil_r|].
  destruct d.
  - exists (P ++ inorder s ++ [y]), Q. intros t. simpl. rewrite IH. simpl. rewrite <- !app_assoc. reflexivity.
  - exists P, (y :: inorder s ++ Q). intros t. simpl. rewrite IH. simpl. rewrite <- !app_assoc. reflexivity.
Qed.
Lemma down_plug h t c : linked_down key h (plug c t) -> linked_down key h t.
Proof.
  revert t; induction c as [|[[d y] s] c IH]; intros t D; [assumption|].
  simpl in D. apply IH in D. destruct d; simpl in D; tauto.
Qed.
Lemma down_size h t : linked_down key h t -> NoDup (inorder t) -> length (inorder t) <= length h.
Proof.
  intros D N. apply bounded_length; [assumption|]. clear N.
  induction t as [|l IHl x r IHr]; intros z Z; simpl in *; [tauto|].
  destruct D as ((n & E & _) & DL & DR). apply in_app_or in Z. destruct Z as [Z|[<-|Z]]; auto.
  apply nth_error_Some. congruence.
Qed.
End keyed.

(** the invariant of a whole history, with the keys taken from it *)
Definition vals (kvs : list (Z * Z)) (x : nat) : Z := snd (nth x kvs (0%Z, 0%Z)).
Lemma keys_created os more i kv : nth_error (created os) i = Some kv ->
  keys (created os ++ more) (0 + i) = fst kv /\ vals (created os ++ more) (0 + i) = snd kv.
Proof.
  intros E. assert (L : i < length (created os)) by (apply nth_error_Some; congruence).
  unfold keys, vals. simpl. rewrite app_nth1 by assumption.
  rewrite (nth_error_nth _ _ (0%Z, 0%Z) E). auto.
Qed.
Lemma empty_inv key val : inv key val 0 [] empty.
Proof. exists Lf. split; [apply (nil_st key val); [exact I|constructor]|]. split; [reflexivity|]. split; [exact I|reflexivity]. Qed.
Lemma run_inv os n l : history (keys (created os)) 0 [] os = Some (n, l) ->
  exists s, run empty os = Ok s /\ inv (keys (created os)) (vals (created os)) n l s.
Proof.
  intros H. eapply run_ok; [apply empty_inv| |exact H].
  intros i kv E. destruct (keys_created os [] i kv E) as [A B]. rewrite !app_nil_r in *. auto.
Qed.
Lemma created_app os os' : created (os ++ os') = created os ++ created os'.
Proof. induction os as [|[k v|x] os IH]; simpl; congruence. Qed.
Lemma history_count key os : forall n l m l', history key n l os = Some (m, l') -> m = n + length (created os).
Proof.
  induction os as [|[k v|x] os IH]; intros n l m l' H; cbn [history created length] in *.
  - injection H as <- <-. lia.
  - apply IH in H. lia.
  - destruct l as [|y l]; [discriminate|]. destruct (x =? y); [|discriminate]. eauto.
Qed.
