From Verif Require Import Base BstModel BstSpec BstProofs BstMainProofs BstCostModel BstCostSpec.
From Coq Require Import Permutation.
Local Open Scope nat_scope.

(** * Forgetting the counters *)
Ltac er := repeat first
  [ reflexivity | assumption
  | match goal with
    | |- context [omap _ (bind ?m _)] => let E := fresh "E" in destruct m as [?| | |] eqn:E; cbn [bind omap]
    | |- context [bind ?m _] => let E := fresh "E" in destruct m as [?| | |] eqn:E; cbn [bind omap]
    | |- context [if ?b then _ else _] => let E := fresh "E" in destruct b eqn:E; cbn [bind omap]
    end ].

Lemma omap_bind {A B C D} (f : B -> D) (g : A -> C) (m : outcome A) (k : A -> outcome B) (k' : C -> outcome D) :
  (forall a, omap f (k a) = k' (g a)) -> omap f (bind m k) = bind (omap g m) k'.
Proof. intros H. destruct m; simpl; auto. Qed.
Lemma omap_same {A B D} (f : B -> D) (m : outcome A) (k : A -> outcome B) (k' : A -> outcome D) :
  (forall a, omap f (k a) = k' a) -> omap f (bind m k) = bind m k'.
Proof. intros H. destruct m; simpl; auto. Qed.
Lemma bind_ret {A} (m : outcome A) : bind m (fun a => Ok a) = m.
Proof. now destruct m. Qed.

Lemma splay_erase fuel : forall s x, omap fst (splay_loopC fuel s x) = splay_loop fuel s x.
Proof.
  induction fuel as [|f IH]; intros s x; [reflexivity|]. cbn [splay_loopC splay_loop].
  apply omap_same. intros y. destruct (peq y None); [reflexivity|].
  apply omap_same. intros z.
  match goal with |- omap _ (bind ?m _) = bind ?m' _ => assert (E : omap fst m = m') end.
  { destruct (peq z None).
    - apply omap_same. intros y0. destruct (peq y0 x); (etransitivity; [apply omap_same; intros; reflexivity|apply bind_ret]).
    - apply omap_same. intros z0. destruct (peq z0 y); apply omap_same; intros y0; destruct (peq y0 x);
        apply omap_same; intros s'; (etransitivity; [apply omap_same; intros; reflexivity|apply bind_ret]). }
  rewrite <- E. apply omap_bind. intros [s' k]. cbn [fst]. rewrite <- IH.
  destruct (splay_loopC f s' x) as [[? ?]| | |]; reflexivity.
Qed.
Lemma descend_erase fuel : forall h x cur, omap fst (descendC fuel h x cur) = descend fuel h x cur.
Proof.
  induction fuel as [|f IH]; intros h x cur; [reflexivity|]. cbn [descendC descend].
  do 3 (apply omap_same; intros ?). destruct (peq a1 None); [reflexivity|]. rewrite <- IH.
  destruct (descendC f h x a1) as [[? ?]| | |]; reflexivity.
Qed.
Lemma walk_erase fuel : forall h d cur, omap fst (walk_downC fuel h d cur) = walk_down fuel h d cur.
Proof.
  induction fuel as [|f IH]; intros h x cur; [reflexivity|]. cbn [walk_downC walk_down].
  apply omap_same; intros n. destruct (peq n None); [reflexivity|]. apply omap_same; intros m. rewrite <- IH.
  destruct (walk_downC f h x m) as [[? ?]| | |]; reflexivity.
Qed.
Lemma pre_erase h x : omap fst (preC h x) = pre h x.
Proof.
  unfold preC, pre. apply omap_same. intros cur. destruct (peq cur None); [reflexivity|]. apply walk_erase.
Qed.
Lemma find_erase fuel : forall h k cur, omap fst (find_loopC fuel h k cur) = find_loop fuel h k cur.
Proof.
  induction fuel as [|f IH]; intros h k cur; [reflexivity|]. cbn [find_loopC find_loop].
  destruct (peq cur None); [reflexivity|]. apply omap_same; intros r. destruct (r =? k)%Z; [reflexivity|].
  destruct (r <? k)%Z; apply omap_same; intros c; rewrite <- IH; destruct (find_loopC f h k c) as [[? ?]| | |]; reflexivity.
Qed.
Lemma insert_erase s x : omap fst (insertC s x) = insert s x.
Proof.
  destruct s as [h root]. unfold insertC, insert. destruct (peq root None); [reflexivity|].
  rewrite <- descend_erase. apply omap_bind. intros [cur n]. cbn [fst].
  do 4 (apply omap_same; intros ?). unfold splayC, splay. rewrite <- splay_erase.
  destruct (splay_loopC _ _ _) as [[? ?]| | |]; reflexivity.
Qed.
Lemma erase_erase s x : omap fst (eraseC s x) = erase s x.
Proof.
  unfold eraseC, erase. unfold splayC, splay. rewrite <- splay_erase. apply omap_bind.
  intros [[h root] k]. cbn [fst]. do 2 (apply omap_same; intros ?).
  destruct (peq a None && peq a0 None); [reflexivity|].
  destruct (peq a None && negb (peq a0 None)); [apply omap_same; intros; reflexivity|].
  destruct (negb (peq a None) && peq a0 None); [apply omap_same; intros; reflexivity|].
  rewrite <- pre_erase. apply omap_bind. intros [rt n]. cbn [fst].
  repeat (apply omap_same; intros ?). reflexivity.
Qed.
Lemma step_erase s o : omap fst (stepC s o) = step s o.
Proof. destruct o; simpl; [apply insert_erase|apply erase_erase]. Qed.
Lemma run_erase os : forall s, omap fst (runC s os) = run s os.
Proof.
  induction os as [|o os IH]; intros s; [reflexivity|]. cbn [runC run]. rewrite <- step_erase.
  apply omap_bind. intros [s' a]. cbn [fst]. rewrite <- IH. destruct (runC s' os) as [[? ?]| | |]; reflexivity.
Qed.

(** * Splaying as a function on trees *)
Definition rot (d : bool) (t : tree) (y : nat) (s : tree) : tree :=
  match t with
  | Lf => Lf
  | Nd l x r => if d then Nd (Nd s y l) x r else Nd l x (Nd r y s)
  end.
Lemma rot_ndd d a x b y s : rot d (ndd d a x b) y s = ndd d a x (ndd d b y s).
Proof. destruct d; reflexivity. Qed.
(** two levels *)
Definition rot2 (d : bool) (t : tree) (y : nat) (s : tree) (d2 : bool) (z : nat) (s2 : tree) : tree :=
  if Bool.eqb d d2 then rot d t y (ndd d s z s2) else rot d2 (rot d t y s) z s2.
Fixpoint splayT (c : ctx) (t : tree) : tree :=
  match c with
  | [] => t
  | (d, y, s) :: c' =>
      match c' with
      | [] => rot d t y s
      | (d2, z, s2) :: c'' => splayT c'' (rot2 d t y s d2 z s2)
      end
  end.

Section keyed.
Variable key val : nat -> Z.
Notation st := (st key val).
Notation rp := (rp key val).
Notation rc := (rc key val).
Notation mkd := (mkd key val).

Lemma rot_root d l x r y s : exists l' r', rot d (Nd l x r) y s = Nd l' x r'.
Proof. destruct d; simpl; eauto. Qed.
Lemma rot2_root d l x r y s d2 z s2 : exists l' r', rot2 d (Nd l x r) y s d2 z s2 = Nd l' x r'.
Proof.
  unfold rot2. destruct (Bool.eqb d d2); [apply rot_root|].
  destruct (rot_root d l x r y s) as (l' & r' & ->). apply rot_root.
Qed.
Lemma splayT_root n : forall c l x r, length c <= n -> exists l' r', splayT c (Nd l x r) = Nd l' x r'.
Proof.
  induction n as [|n IH]; intros c l x r L; (destruct c as [|[[d y] s] [|[[d2 z] s2] c]]; simpl in *; [eauto|try apply rot_root|]); try lia.
  destruct (rot2_root d l x r y s d2 z s2) as (l' & r' & ->). apply IH. lia.
Qed.

Lemma splayC_ok fuel : forall h rt l x r c,
  st h rt (Nd l x r) c -> length c < fuel ->
  exists h' rt', splay_loopC fuel (h, rt) (Some x) = Ok ((h', rt'), length c) /\
    st h' rt' (splayT c (Nd l x r)) [].
Proof.
  induction fuel as [|f IH]; intros h rt l x r c S L; [lia|].
  pose proof S as (RX & _). cbn [BstProofs.rp] in RX. destruct RX as (X & _).
  cbn [splay_loopC fst]. rewrite (rfa_ok _ _ _ X). cbn [bind BstProofs.mkd bfa].
  destruct c as [|[[d y] s] c].
  - cbn [topid peq]. exists h, rt. split; [reflexivity|assumption].
  - cbn [topid peq]. destruct (st_child _ _ _ _ _ _ _ _ _ S) as [Y NS]. cbn [troot] in Y, NS.
    specialize (NS ltac:(discriminate)).
    rewrite (rfa_ok _ _ _ Y). replace (bfa (mkd d (Some x) (troot s) (topid c) y)) with (topid c) by now destruct d.
    cbn [bind]. destruct (as_ndd d l x r) as (a & b & EX). rewrite EX in *.
    assert (CD : forall e, peq (chd (mkd d (Some x) (troot s) (topid c) y) e) (Some x) = Bool.eqb d e).
    { intros e. destruct d, e; cbn [chd BstProofs.mkd ch0 ch1 Bool.eqb]; rewrite ?peq_refl; auto;
        now apply peq_neq. }
    destruct c as [|[[d2 z] s2] c].
    + cbn [topid peq] in *. rewrite (rch_ok _ _ _ _ Y). cbn [bind]. rewrite CD.
      destruct (rotate_ok' _ _ _ _ _ _ _ _ _ _ _ S) as (h1 & rt1 & E & S1 & O1).
      destruct f as [|f]; [simpl in L; lia|].
      destruct (ndd_as d a x (ndd d b y s)) as (l1 & r1 & E1). 
      destruct (IH h1 rt1 l1 x r1 []) as (h2 & rt2 & E2 & S2); [now rewrite <- E1|simpl; lia|].
      exists h2, rt2. split.
      { destruct d; cbn [Bool.eqb negb] in *; rewrite E; cbn [bind]; rewrite E2; reflexivity. }
      cbn [splayT] in *. now rewrite rot_ndd, E1.
    + cbn [topid peq].
      assert (S2 : st h rt (ndd d (ndd d a x b) y s) ((d2, z, s2) :: c)) by exact (proj1 (st_focus key val _ _ _ _ _ _ _) S).
      destruct (st_child _ _ _ _ _ _ _ _ _ S2) as [Z NS2]. rewrite troot_ndd in Z, NS2.
      specialize (NS2 ltac:(discriminate)). cbn [topid] in Y, CD.
      rewrite (rch_ok _ _ _ _ Z). cbn [bind].
      assert (CZ : peq (chd (mkd d2 (Some y) (troot s2) (topid c) z) false) (Some y) = negb d2).
      { destruct d2; cbn [chd BstProofs.mkd ch0 negb]; rewrite ?peq_refl; auto. now apply peq_neq. }
      rewrite CZ, !(rch_ok _ _ _ _ Y). cbn [bind]. rewrite !CD.
      assert (STEP : exists h1 rt1, 
        (if Bool.eqb d d2 then s <- rotate (h, rt) (Some y) (negb d) ;; rotate s (Some x) (negb d)
         else s <- rotate (h, rt) (Some x) (negb d) ;; rotate s (Some x) (negb d2)) = Ok (h1, rt1) /\
        st h1 rt1 (rot2 d (ndd d a x b) y s d2 z s2) c).
      { destruct (Bool.bool_dec d d2) as [ED|ED].
        - subst d2. rewrite Bool.eqb_reflx.
          destruct (rotate_ok' _ _ _ _ _ _ _ _ _ _ _ S2) as (h1 & rt1 & E1 & S3 & O1).
          apply (proj2 (st_focus key val _ _ _ _ _ _ _)) in S3.
          destruct (rotate_ok' _ _ _ _ _ _ _ _ _ _ _ S3) as (h2 & rt2 & E2 & S4 & O2).
          exists h2, rt2. rewrite E1. cbn [bind]. split; [assumption|].
          unfold rot2. rewrite Bool.eqb_reflx. now rewrite rot_ndd.
        - assert (d2 = negb d) by (clear - ED; destruct d, d2; first [reflexivity|congruence]). subst d2.
          replace (Bool.eqb d (negb d)) with false by now destruct d.
          destruct (rotate_ok' _ _ _ _ _ _ _ _ _ _ _ S) as (h1 & rt1 & E1 & S3 & O1).
          rewrite <- (ndd_neg d) in S3.
          destruct (rotate_ok' _ _ _ _ _ _ _ _ _ _ _ S3) as (h2 & rt2 & E2 & S4 & O2).
          exists h2, rt2. rewrite E1. cbn [bind]. split; [assumption|].
          unfold rot2. replace (Bool.eqb d (negb d)) with false by now destruct d.
          rewrite rot_ndd, <- (ndd_neg d), rot_ndd. exact S4. }
      destruct STEP as (h1 & rt1 & E & S3).
      rewrite <- EX in S3. destruct (rot2_root d l x r y s d2 z s2) as (l1 & r1 & E1). rewrite E1 in S3.
      destruct (IH h1 rt1 l1 x r1 c S3) as (h2 & rt2 & E2 & S4); [simpl in L; lia|].
      exists h2, rt2. split.
      * match goal with |- bind ?m _ = _ => assert (M : m = Ok ((h1, rt1), 2)) end.
        { clear - E. destruct d, d2; cbn [Bool.eqb negb] in *;
            match goal with E : bind ?m _ = Ok _ |- _ => destruct m as [s1| | |]; try discriminate end;
            cbn [bind] in *; rewrite E; reflexivity. }
        rewrite M. cbn [bind]. rewrite E2. cbn [bind]. simpl. reflexivity.
      * cbn [splayT]. rewrite <- EX, E1. exact S4.
Qed.

Lemma ctx_fits h rt t c : st h rt t c -> length c < S (length h).
Proof.
  intros S. apply st_plug in S. destruct S as (R & _ & N & _). cbn [cids] in N. rewrite app_nil_r in N.
  pose proof (rp_size _ _ _ _ _ R N) as L. rewrite (Permutation_length (inorder_plug c _)) in L.
  rewrite app_length in L. pose proof (cids_length key val c). lia.
Qed.

Lemma descendC_ok h x nx t fuel : nth_error h x = Some nx -> rank nx = key x ->
  linked_down key h t -> sorted key (inorder t) -> t <> Lf -> length (inorder t) <= fuel ->
  exists d y s c, descendC fuel h (Some x) (troot t) = Ok (Some y, length ((d, y, s) :: c)) /\
    t = plug ((d, y, s) :: c) Lf /\ d = (key y <=? key x)%Z /\
    inorder (plug ((d, y, s) :: c) (Nd Lf x Lf)) = place key x (inorder t).
Proof.
  intros EX KX. revert fuel; induction t as [|l IHl y r IHr]; intros fuel D S N L; [congruence|].
  cbn [inorder] in L. rewrite app_length in L. simpl in L. destruct fuel as [|f]; [lia|].
  cbn [linked_down] in D. destruct D as ((n & E & C0 & C1 & RK) & DL & DR).
  cbn [inorder] in S. destruct (sorted_app _ _ _ _ S) as (SL & SR & LE & GE).
  cbn [descendC troot]. rewrite (rrank_ok _ _ _ EX), (rrank_ok _ _ _ E), KX, RK. cbn [bind].
  destruct (Z.ltb_spec (key x) (key y)) as [LT|LT]; rewrite (rch_ok _ _ _ _ E); cbn [bind chd].
  - rewrite C0. destruct l as [|ll ly lr].
    + cbn [troot peq]. exists false, y, r, []. split; [reflexivity|]. split; [reflexivity|].
      split; [destruct (Z.leb_spec (key y) (key x)); [lia|reflexivity]|].
      simpl. destruct (Z.leb_spec (key y) (key x)); [lia|reflexivity].
    + destruct (IHl f DL SL) as (d & z & s & c & F & P & DD & I); [discriminate|lia|].
      cbn [troot peq] in *. rewrite F. cbn [bind]. exists d, z, s, (c ++ [(false, y, r)]).
      split; [simpl; rewrite app_length, Nat.add_1_r; reflexivity|].
      rewrite app_comm_cons, !plug_snoc, <- P. split; [reflexivity|]. split; [assumption|].
      cbn [ndd inorder] in *. rewrite I. symmetry. now apply place_lt.
  - rewrite C1. destruct r as [|rl ry rr].
    + cbn [troot peq]. exists true, y, l, []. split; [reflexivity|]. split; [reflexivity|].
      split; [destruct (Z.leb_spec (key y) (key x)); [reflexivity|lia]|].
      simpl. symmetry. apply place_ge; [assumption| |lia]. intros a A. specialize (LE a A). lia.
    + destruct (IHr f DR SR) as (d & z & s & c & F & P & DD & I); [discriminate|lia|].
      cbn [troot peq] in *. rewrite F. cbn [bind]. exists d, z, s, (c ++ [(true, y, l)]).
      split; [simpl; rewrite app_length, Nat.add_1_r; reflexivity|].
      rewrite app_comm_cons, !plug_snoc, <- P. split; [reflexivity|]. split; [assumption|].
      cbn [ndd inorder] in *. rewrite I. symmetry. apply place_ge; [assumption| |lia].
      intros a A. specialize (LE a A). lia.
Qed.

(** a call on the tree: [t] before, [t'] after, and the cost *)
Definition ins_rel (x : nat) (t t' : tree) (k : nat) : Prop :=
  exists c, t = plug c Lf /\ t' = splayT c (Nd Lf x Lf) /\ k = 1 + length c + length c.

Lemma insertC_ok h rt t x :
  st h rt t [] -> sorted key (inorder t) ->
  nth_error h x = Some (mkd false None None None x) -> ~ In x (inorder t) ->
  exists h' rt' t' k, insertC (h, rt) (Some x) = Ok ((h', rt'), k) /\ st h' rt' t' [] /\ ins_rel x t t' k /\
     inorder t' = place key x (inorder t) /\ length h' = length h.
Proof.
  intros S0 S EX NX.
  destruct (insert_ok _ _ h rt t x S0 S EX NX) as (h9 & rt9 & l9 & r9 & E9 & S9 & I9 & O9).
  assert (T9 : exists h' rt' t' k, insertC (h, rt) (Some x) = Ok ((h', rt'), k) /\ st h' rt' t' [] /\ ins_rel x t t' k).
  2:{ destruct T9 as (h' & rt' & t' & k & E & S' & R). exists h', rt', t', k.
      split; [assumption|]. split; [assumption|]. split; [assumption|].
      pose proof (insert_erase (h, rt) (Some x)) as EE. rewrite E, E9 in EE. cbn [omap fst] in EE.
      injection EE as -> ->. split; [|apply O9].
      rewrite <- I9. f_equal. clear - S' S9.
      destruct (st_nil _ _ _ _ _ S') as (R1 & N1 & RT1). destruct (st_nil _ _ _ _ _ S9) as (R2 & N2 & RT2).
      rewrite RT1 in RT2. clear - R1 R2 RT2. revert R1 R2 RT2. generalize (Nd l9 x r9) as u. clear.
      assert (G : forall w u f g, rp h9 f w -> rp h9 g u -> troot w = troot u -> w = u); [|intros; eapply G; eassumption].
      induction w as [|l IHl y r IHr]; intros u f g R1 R2 RT; destruct u as [|l2 y2 r2]; try discriminate; [reflexivity|].
      cbn [BstProofs.rp troot] in *. injection RT as <-. destruct R1 as (A1 & A2 & A3). destruct R2 as (B1 & B2 & B3).
      rewrite A1 in B1. injection B1 as C0 C1 C2.
      f_equal; [eapply IHl|eapply IHr]; eassumption. }
  clear h9 rt9 l9 r9 E9 S9 I9 O9.
  destruct S0 as (R & _ & N & RT). cbn [cids plug] in N, RT. rewrite app_nil_r in N.
  unfold insertC. destruct t as [|tl tx tr].
  - subst rt. cbn [troot peq]. exists h, (Some x), (Nd Lf x Lf), 1. split; [reflexivity|].
    split; [|exists []; auto].
    split; [simpl; auto|]. split; [exact I|]. split; [repeat constructor; intros []|reflexivity].
  - subst rt. cbn [troot peq]. pose proof (rp_size _ _ _ _ _ R N) as SZ.
    destruct (descendC_ok h x _ (Nd tl tx tr) (Datatypes.S (length h)) EX eq_refl (rp_down _ _ _ _ _ R) S)
      as (d & y & s & c & F & P & DD & IN); [discriminate|lia|].
    cbn [troot] in F. rewrite F. cbn [bind].
    assert (SP : st h (Some tx) Lf ((d, y, s) :: c)).
    { apply st_plug. rewrite <- P. split; [assumption|]. split; [exact I|].
      split; [cbn [cids]; now rewrite app_nil_r|reflexivity]. }
    assert (PC : Permutation (inorder (Nd tl tx tr)) (cids ((d, y, s) :: c))).
    { rewrite P. apply inorder_plug. }
    assert (XY : x <> y).
    { intros ->. apply NX. eapply Permutation_in; [symmetry; exact PC|]. left. reflexivity. }
    pose proof SP as (_ & RC & NC & RT2). cbn [troot] in RC. pose proof RC as RC0. cbn [BstProofs.rc] in RC0.
    destruct RC0 as (EY & RS & RC').
    destruct (wfa_ok h x _ (Some y) EX) as (h1 & -> & L1 & E1 & F1). cbn [bind].
    rewrite (rrank_ok _ _ _ E1). cbn [bind with_fa BstProofs.mkd rank].
    assert (EY1 : nth_error h1 y = Some (mkd d None (troot s) (topid c) y)) by (rewrite F1; auto).
    rewrite (rrank_ok _ _ _ EY1). cbn [bind].
    replace (rank (mkd d None (troot s) (topid c) y)) with (key y) by now destruct d.
    rewrite <- DD.
    destruct (wch_ok h1 y _ d (Some x) EY1) as (h2 & -> & L2 & E2 & F2). cbn [bind].
    replace (with_ch (mkd d None (troot s) (topid c) y) d (Some x)) with (mkd d (Some x) (troot s) (topid c) y) in E2
      by now destruct d.
    assert (ST2 : st h2 (Some tx) (Nd Lf x Lf) ((d, y, s) :: c)).
    { split; [|split; [|split]].
      - cbn [BstProofs.rp troot topid]. split; [|split; exact I]. rewrite F2 by auto. exact E1.
      - cbn [troot]. apply (rc_rehole key val h h2 None); [assumption| | |assumption].
        + intros z Z ZT. cbn [topid] in ZT. rewrite F2 by congruence. apply F1. intros ->. apply NX.
          eapply Permutation_in; [symmetry; exact PC|exact Z].
        + intros d' y' s' c' [= <- <- <- <-]. assumption.
      - cbn [inorder app]. constructor; [|assumption]. intros H. apply NX.
        eapply Permutation_in; [symmetry; exact PC|exact H].
      - cbn [plug] in RT2 |- *. rewrite RT2. apply plug_root_inv. now rewrite !troot_ndd. }
    unfold splayC. cbn [fst].
    destruct (splayC_ok (Datatypes.S (length h2)) _ _ _ _ _ _ ST2 (ctx_fits _ _ _ _ ST2)) as (h3 & rt3 & E3 & S3).
    rewrite E3. cbn [bind]. exists h3, rt3, (splayT ((d, y, s) :: c) (Nd Lf x Lf)), (1 + length ((d, y, s) :: c) + length ((d, y, s) :: c)).
    split; [reflexivity|]. split; [assumption|]. exists ((d, y, s) :: c). auto.
Qed.

Lemma inorder_rot1 d l x r y s : inorder (rot d (Nd l x r) y s) = inorder (ndd d (Nd l x r) y s).
Proof. destruct d; simpl; rewrite <- app_assoc; reflexivity. Qed.
Lemma inorder_rot2 d l x r y s d2 z s2 :
  inorder (rot2 d (Nd l x r) y s d2 z s2) = inorder (ndd d2 (ndd d (Nd l x r) y s) z s2).
Proof.
  destruct d, d2; simpl; rewrite <- ?app_assoc; simpl; rewrite <- ?app_assoc; reflexivity.
Qed.
Lemma inorder_splayT n : forall c l x r, length c <= n ->
  inorder (splayT c (Nd l x r)) = inorder (plug c (Nd l x r)).
Proof.
  induction n as [|n IH]; intros c l x r L; (destruct c as [|[[d y] s] [|[[d2 z] s2] c]]; cbn [splayT plug length] in *;
    [reflexivity|try apply inorder_rot1|]); try lia.
  pose proof (inorder_rot2 d l x r y s d2 z s2) as R.
  destruct (rot2_root d l x r y s d2 z s2) as (l' & r' & E). rewrite E in *.
  rewrite IH by lia. now apply inorder_plug_eq.
Qed.

Definition del_rel (x : nat) (t t' : tree) (k : nat) : Prop :=
  exists c l r, t = plug c (Nd l x r) /\ splayT c (Nd l x r) = Nd Lf x t' /\ k = 1 + length c.

Lemma eraseC_ok h rt t x l : st h rt t [] -> inorder t = x :: l ->
  exists h' t' k, eraseC (h, rt) (Some x) = Ok ((h', troot t'), k) /\ st h' (troot t') t' [] /\
    del_rel x t t' k /\ inorder t' = l /\ length h' = length h.
Proof.
  intros S E. pose proof (erase_ok _ _ h rt t [] x l S E) as (h9 & t9 & E9 & S9 & I9 & O9).
  assert (IX : In x (inorder t)) by (rewrite E; simpl; auto).
  destruct (focus key val t x IX) as (c & l0 & r0 & ET). subst t. apply st_plug in S.
  unfold eraseC, splayC. cbn [fst].
  destruct (splayC_ok (Datatypes.S (length h)) _ _ _ _ _ _ S (ctx_fits _ _ _ _ S)) as (h1 & rt1 & E1 & S1).
  pose proof (inorder_splayT (length c) c l0 x r0 (le_n _)) as IN. rewrite E in IN.
  destruct (splayT_root (length c) c l0 x r0 (le_n _)) as (l2 & r2 & E2).
  assert (N0 : NoDup (x :: l)).
  { rewrite <- E. apply st_plug in S. apply st_nil in S. apply S. }
  assert (l2 = Lf /\ inorder r2 = l) as [-> IR].
  { rewrite E2 in IN. cbn [inorder] in IN. destruct l2 as [|la lb lc]; [split; [reflexivity|]; simpl in IN; congruence|].
    exfalso. destruct (inorder (Nd la lb lc)) as [|q qs] eqn:EQ; [simpl in EQ; destruct (inorder la); discriminate|].
    simpl in IN. injection IN as -> IN. inversion N0 as [|? ? N1 N2]; subst. apply N1.
    rewrite <- IN. apply in_or_app. right. left. reflexivity. }
  rewrite E1. cbn [bind]. rewrite E2 in S1.
  pose proof S1 as (R & _ & N & RT). cbn [BstProofs.rp topid] in R. destruct R as (X & RL & RR).
  cbn [cids plug troot] in N, RT. rewrite app_nil_r in N. cbn [inorder app] in N.
  rewrite !(rch_ok _ _ _ _ X). cbn [bind chd BstProofs.mkd ch0 ch1 troot peq andb negb].
  assert (REL : del_rel x (plug c (Nd l0 x r0)) r2 (1 + length c)) by (exists c, l0, r0; auto).
  assert (LEN : forall h' k, eraseC (h, rt) (Some x) = Ok ((h', troot r2), k) -> length h' = length h).
  { intros h' k EE. pose proof (erase_erase (h, rt) (Some x)) as F. rewrite EE, E9 in F. cbn [omap fst] in F.
    injection F as -> _. apply O9. }
  unfold eraseC, splayC in LEN. cbn [fst] in LEN. rewrite E1 in LEN. cbn [bind] in LEN.
  rewrite !(rch_ok _ _ _ _ X) in LEN. cbn [bind chd BstProofs.mkd ch0 ch1 troot peq andb negb] in LEN.
  destruct r2 as [|rl ry rr].
  - exists h1, Lf, (1 + length c). cbn [troot peq andb] in *. split; [reflexivity|].
    split; [split; [exact I|split; [exact I|split; [constructor|reflexivity]]]|].
    split; [assumption|]. split; [assumption|]. eapply LEN. reflexivity.
  - cbn [troot peq andb negb] in *. pose proof RR as (RY & _). 
    destruct (wfa_ok h1 ry _ None RY) as (h2 & W & L2 & E3 & F2). rewrite W in *. cbn [bind] in *.
    exists h2, (Nd rl ry rr), (1 + length c). split; [reflexivity|]. split; [|split; [assumption|]].
    + inversion N as [|? ? N1 N2]; subst.
      split; [|split; [exact I|split; [cbn [cids]; now rewrite app_nil_r|reflexivity]]].
      cbn [topid]. apply (rp_refather key val h1 h2 (Some x)); [assumption| | |assumption].
      * intros z Z ZT. apply F2. simpl in ZT. congruence.
      * intros z n [= ->] Zn. congruence.
    + split; [assumption|]. eapply LEN. reflexivity.
Qed.
End keyed.

(** * The potential: the product of the sizes of all subtrees *)
Open Scope Z_scope.
Fixpoint size1 (t : tree) : Z := match t with Lf => 1 | Nd l _ r => size1 l + size1 r end.
Fixpoint pot (t : tree) : Z := match t with Lf => 1 | Nd l x r => size1 (Nd l x r) * (pot l * pot r) end.
Fixpoint cpot (c : ctx) (h : Z) : Z :=
  match c with [] => 1 | (_, _, s) :: c => (h + size1 s) * pot s * cpot c (h + size1 s) end.
Fixpoint csize (c : ctx) (h : Z) : Z := match c with [] => h | (_, _, s) :: c => csize c (h + size1 s) end.

Lemma size1_pos t : 1 <= size1 t.
Proof. induction t; simpl; lia. Qed.
Lemma pot_pos t : 1 <= pot t.
Proof.
  induction t as [|l IHl x r IHr]; cbn [pot]; [lia|]. pose proof (size1_pos (Nd l x r)). nia.
Qed.
Lemma size1_length t : size1 t = Z.of_nat (length (inorder t)) + 1.
Proof. induction t as [|l IHl x r IHr]; [reflexivity|]. cbn [size1 inorder]. rewrite app_length. simpl length. lia. Qed.
Lemma size1_ndd d a x b : size1 (ndd d a x b) = size1 a + size1 b.
Proof. destruct d; simpl; lia. Qed.
Lemma pot_ndd d a x b : pot (ndd d a x b) = (size1 a + size1 b) * (pot a * pot b).
Proof. destruct d; cbn [ndd pot size1]; [rewrite (Z.mul_comm (pot b)), (Z.add_comm (size1 b))|]; reflexivity. Qed.
Lemma pot_plug c : forall t, pot (plug c t) = pot t * cpot c (size1 t).
Proof.
  induction c as [|[[d y] s] c IH]; intros t; cbn [plug cpot]; [lia|].
  rewrite IH, pot_ndd, size1_ndd. ring.
Qed.
Lemma size1_plug c : forall t, size1 (plug c t) = csize c (size1 t).
Proof. induction c as [|[[d y] s] c IH]; intros t; cbn [plug csize]; [lia|]. now rewrite IH, size1_ndd. Qed.
Lemma csize_ge c : forall h, h <= csize c h.
Proof. induction c as [|[[d y] s] c IH]; intros h; cbn [csize]; [lia|]. specialize (IH (h + size1 s)). pose proof (size1_pos s). lia. Qed.
Lemma cpot_pos c : forall h, 1 <= h -> 1 <= cpot c h.
Proof.
  induction c as [|[[d y] s] c IH]; intros h H; cbn [cpot]; [lia|].
  pose proof (size1_pos s). pose proof (pot_pos s). specialize (IH (h + size1 s) ltac:(lia)). nia.
Qed.
(** a new leaf *)
Lemma cpot_grow c : forall h, 1 <= h -> cpot c (h + 1) * (h + 1) <= cpot c h * (csize c h + 1).
Proof.
  induction c as [|[[d y] s] c IH]; intros h H; cbn [cpot csize]; [lia|].
  pose proof (size1_pos s) as P. pose proof (pot_pos s) as Q.
  specialize (IH (h + size1 s) ltac:(lia)). replace (h + 1 + size1 s) with (h + size1 s + 1) by ring.
  set (g := h + size1 s) in *. assert (HG : h + 1 <= g) by (unfold g; lia). clearbody g.
  pose proof (cpot_pos c g ltac:(lia)) as C1. pose proof (cpot_pos c (g + 1) ltac:(lia)) as C2.
  pose proof (csize_ge c g) as G.
  (* (g+1) pot C2 (h+1) <= g pot C1 (S+1) *)
  assert (A : cpot c (g + 1) * (g + 1) * (h + 1) <= cpot c g * (csize c g + 1) * g).
  { apply Z.mul_le_mono_nonneg; try lia; nia. }
  nia.
Qed.

Lemma am4 a b : 4 * (a * b) <= (a + b) * (a + b).
Proof. pose proof (Z.square_nonneg (a - b)) as H. replace ((a - b) * (a - b)) with ((a + b) * (a + b) - 4 * (a * b)) in H by ring. lia. Qed.

(** the inequalities behind one or two rotations *)
Lemma size1_rot2 d l x r y s d2 z s2 :
  size1 (rot2 d (Nd l x r) y s d2 z s2) = size1 (Nd l x r) + size1 s + size1 s2.
Proof. destruct d, d2; simpl; lia. Qed.
Lemma zigzig_le a b c e : 1 <= a -> 1 <= b -> 1 <= c -> 1 <= e ->
  4 * ((b + (c + e)) * (c + e)) * (a + b) ^ 3 <= (a + b + c) * (a + b) * (a + b + c + e) ^ 3.
Proof.
  intros A B C E. set (sx := a + b). set (S := a + b + c + e).
  assert (H1 : 4 * ((c + e) * sx) <= S * S) by (pose proof (am4 (c + e) sx); replace S with (c + e + sx) by (unfold S, sx; ring); assumption).
  assert (H2 : b + (c + e) <= S) by (unfold S; lia).
  assert (H3 : sx <= sx + c) by lia.
  apply Z.le_trans with ((S * S) * (S * (sx * sx))).
  - replace (4 * ((b + (c + e)) * (c + e)) * sx ^ 3) with ((4 * ((c + e) * sx)) * ((b + (c + e)) * (sx * sx))) by ring.
    apply Z.mul_le_mono_nonneg; try (unfold sx; nia).
  - replace (S * S * (S * (sx * sx))) with (sx * sx * S ^ 3) by ring.
    apply Z.mul_le_mono_nonneg_r; [unfold S; apply Z.pow_nonneg; lia|]. unfold sx. nia.
Qed.
Lemma zigzag_le p q sx sy : 1 <= p -> 1 <= q -> 1 <= sx -> sx <= sy -> sx <= p + q ->
  4 * (p * q) * sx ^ 3 <= sy * sx * (p + q) ^ 3.
Proof.
  intros P Q X Y Z. pose proof (am4 p q) as H.
  apply Z.le_trans with ((p + q) * (p + q) * sx ^ 3).
  - apply Z.mul_le_mono_nonneg_r; [apply Z.pow_nonneg; lia|assumption].
  - replace ((p + q) * (p + q) * sx ^ 3) with ((p + q) * (p + q) * ((sx * sx) * sx)) by ring.
    replace (sy * sx * (p + q) ^ 3) with ((p + q) * (p + q) * ((sy * sx) * (p + q))) by ring.
    apply Z.mul_le_mono_nonneg_l; [nia|]. apply Z.mul_le_mono_nonneg; nia.
Qed.

Lemma rot2_pot d l x r y s d2 z s2 :
  let t := Nd l x r in let u := ndd d2 (ndd d t y s) z s2 in
  4 * pot (rot2 d t y s d2 z s2) * size1 t ^ 3 <= pot u * size1 u ^ 3.
Proof.
  cbn zeta. pose proof (size1_pos l) as L1. pose proof (size1_pos r) as R1.
  pose proof (size1_pos s) as S1. pose proof (size1_pos s2) as S2.
  pose proof (pot_pos l) as PL. pose proof (pot_pos r) as PR. pose proof (pot_pos s) as PS. pose proof (pot_pos s2) as PS2.
  assert (K : 1 <= pot l * pot r * (pot s * pot s2)) by nia.
  assert (GO : forall S X Y P Q L R, S * X <= S * Y -> 0 <= S ->
    L = S * (pot l * pot r * (pot s * pot s2)) * X -> R = S * (pot l * pot r * (pot s * pot s2)) * Y ->
    P = L -> Q = R -> P <= Q).
  { clear - K. intros S X Y P Q L R H _ -> -> -> ->. set (k := pot l * pot r * (pot s * pot s2)) in *.
    replace (S * k * X) with (k * (S * X)) by ring. replace (S * k * Y) with (k * (S * Y)) by ring.
    apply Z.mul_le_mono_nonneg_l; [lia|assumption]. }
  pose (T := size1 l + size1 r + size1 s + size1 s2).
  assert (T0 : 0 <= T) by (unfold T; lia).
  destruct d, d2; cbn [rot2 Bool.eqb rot ndd pot size1].
  - eapply (GO T _ _ _ _ _ _ (Z.mul_le_mono_nonneg_l _ _ _ T0 (zigzig_le (size1 r) (size1 l) (size1 s) (size1 s2) R1 L1 S1 S2)) T0 eq_refl eq_refl); unfold T; ring.
  - eapply (GO T _ _ _ _ _ _ (Z.mul_le_mono_nonneg_l _ _ _ T0 (zigzag_le (size1 s + size1 l) (size1 r + size1 s2) (size1 l + size1 r) (size1 s + (size1 l + size1 r)) ltac:(lia) ltac:(lia) ltac:(lia) ltac:(lia) ltac:(lia))) T0 eq_refl eq_refl); unfold T; ring.
  - eapply (GO T _ _ _ _ _ _ (Z.mul_le_mono_nonneg_l _ _ _ T0 (zigzag_le (size1 s2 + size1 l) (size1 r + size1 s) (size1 l + size1 r) (size1 s + (size1 l + size1 r)) ltac:(lia) ltac:(lia) ltac:(lia) ltac:(lia) ltac:(lia))) T0 eq_refl eq_refl); unfold T; ring.
  - eapply (GO T _ _ _ _ _ _ (Z.mul_le_mono_nonneg_l _ _ _ T0 (zigzig_le (size1 l) (size1 r) (size1 s) (size1 s2) L1 R1 S1 S2)) T0 eq_refl eq_refl); unfold T; ring.
Qed.
Lemma rot_pot d l x r y s :
  let t := Nd l x r in let u := ndd d t y s in
  pot (rot d t y s) * size1 t ^ 3 <= pot u * size1 u ^ 3.
Proof.
  cbn zeta. pose proof (size1_pos l) as L1. pose proof (size1_pos r) as R1. pose proof (size1_pos s) as S1.
  pose proof (pot_pos l) as PL. pose proof (pot_pos r) as PR. pose proof (pot_pos s) as PS.
  assert (K : 1 <= pot l * pot r * pot s) by nia.
  assert (I : forall p q, 1 <= p -> p <= q -> forall w, 1 <= w -> w <= q -> w * p ^ 3 <= p * q ^ 3).
  { clear. intros p q P Q w W1 W2. replace (w * p ^ 3) with (p * (w * (p * p))) by ring.
    replace (q ^ 3) with (q * (q * q)) by ring. apply Z.mul_le_mono_nonneg_l; [lia|].
    apply Z.mul_le_mono_nonneg; nia. }
  destruct d; cbn [rot ndd pot size1].
  - pose proof (I (size1 l + size1 r) (size1 s + (size1 l + size1 r)) ltac:(lia) ltac:(lia) (size1 s + size1 l) ltac:(lia) ltac:(lia)) as G.
    replace ((size1 s + size1 l + size1 r) * ((size1 s + size1 l) * (pot s * pot l) * pot r) * (size1 l + size1 r) ^ 3)
      with ((size1 s + size1 l + size1 r) * (pot l * pot r * pot s) * ((size1 s + size1 l) * (size1 l + size1 r) ^ 3)) by ring.
    replace ((size1 s + (size1 l + size1 r)) * (pot s * ((size1 l + size1 r) * (pot l * pot r))) * (size1 s + (size1 l + size1 r)) ^ 3)
      with ((size1 s + size1 l + size1 r) * (pot l * pot r * pot s) * ((size1 l + size1 r) * (size1 s + (size1 l + size1 r)) ^ 3)) by ring.
    apply Z.mul_le_mono_nonneg_l; [nia|exact G].
  - pose proof (I (size1 l + size1 r) (size1 l + size1 r + size1 s) ltac:(lia) ltac:(lia) (size1 r + size1 s) ltac:(lia) ltac:(lia)) as G.
    replace ((size1 l + (size1 r + size1 s)) * (pot l * ((size1 r + size1 s) * (pot r * pot s))) * (size1 l + size1 r) ^ 3)
      with ((size1 s + size1 l + size1 r) * (pot l * pot r * pot s) * ((size1 r + size1 s) * (size1 l + size1 r) ^ 3)) by ring.
    replace ((size1 l + size1 r + size1 s) * ((size1 l + size1 r) * (pot l * pot r) * pot s) * (size1 l + size1 r + size1 s) ^ 3)
      with ((size1 s + size1 l + size1 r) * (pot l * pot r * pot s) * ((size1 l + size1 r) * (size1 l + size1 r + size1 s) ^ 3)) by ring.
    apply Z.mul_le_mono_nonneg_l; [nia|exact G].
Qed.

Lemma splay_pot n : forall c l x r, (length c <= n)%nat ->
  2 ^ Z.of_nat (length c) * pot (splayT c (Nd l x r)) * size1 (Nd l x r) ^ 3 <=
  2 * (pot (plug c (Nd l x r)) * size1 (plug c (Nd l x r)) ^ 3).
Proof.
  induction n as [|n IH]; intros c l x r L; (destruct c as [|[[d y] s] [|[[d2 z] s2] c]]; [|cbn [length] in L; try lia|cbn [length] in L; try lia]).
  1,2: (pose proof (pot_pos (Nd l x r)) as P; pose proof (size1_pos (Nd l x r)) as Q; cbn [length splayT plug]; change (2 ^ Z.of_nat 0) with 1;
    assert (0 <= pot (Nd l x r) * size1 (Nd l x r) ^ 3) by (apply Z.mul_nonneg_nonneg; [lia|apply Z.pow_nonneg; lia]); clear - H; lia).
  - cbn [length splayT plug]. change (2 ^ Z.of_nat 1) with 2. pose proof (rot_pot d l x r y s) as H. cbn zeta in H.
    clear - H. nia.
  - pose proof (rot2_pot d l x r y s d2 z s2) as H. cbn zeta in H.
    pose proof (size1_rot2 d l x r y s d2 z s2) as SZ.
    destruct (rot2_root d l x r y s d2 z s2) as (l1 & r1 & E). cbn [splayT plug]. rewrite E in *.
    set (u := ndd d2 (ndd d (Nd l x r) y s) z s2) in *.
    assert (SU : size1 (Nd l1 x r1) = size1 u) by (unfold u; rewrite !size1_ndd; rewrite SZ; reflexivity).
    specialize (IH c l1 x r1 ltac:(lia)).
    rewrite pot_plug, size1_plug, SU in IH. rewrite pot_plug, size1_plug.
    replace (Z.of_nat (length ((d, y, s) :: (d2, z, s2) :: c))) with (Z.of_nat (length c) + 2) by (cbn [length]; lia).
    rewrite Z.pow_add_r by lia. change (2 ^ 2) with 4.
    pose proof (size1_pos u) as U1. pose proof (size1_pos (Nd l x r)) as T1.
    pose proof (cpot_pos c (size1 u) U1) as C1. pose proof (csize_ge c (size1 u)) as C2.
    set (A := 2 ^ Z.of_nat (length c)) in *. set (B := pot (splayT c (Nd l1 x r1))) in *.
    set (X := size1 (Nd l x r) ^ 3) in *. set (U := size1 u ^ 3) in *. set (W := csize c (size1 u) ^ 3) in *.
    assert (0 < U) by (apply Z.pow_pos_nonneg; lia). assert (0 < X) by (apply Z.pow_pos_nonneg; lia).
    assert (0 < W) by (apply Z.pow_pos_nonneg; lia).
    apply Z.mul_le_mono_pos_r with U; [assumption|].
    apply Z.le_trans with (4 * X * (2 * (pot (Nd l1 x r1) * cpot c (size1 u) * W))).
    + replace (A * 4 * B * X * U) with (4 * X * (A * B * U)) by ring. apply Z.mul_le_mono_nonneg_l; [lia|exact IH].
    + replace (4 * X * (2 * (pot (Nd l1 x r1) * cpot c (size1 u) * W))) with (2 * (cpot c (size1 u) * W) * (4 * pot (Nd l1 x r1) * X)) by ring.
      replace (2 * (pot u * cpot c (size1 u) * W) * U) with (2 * (cpot c (size1 u) * W) * (pot u * U)) by ring.
      apply Z.mul_le_mono_nonneg_l; [nia|exact H].
Qed.

Lemma ins_pot x t t' k : ins_rel x t t' k ->
  2 ^ Z.of_nat k * pot t' ^ 2 <= pot t ^ 2 * (size1 t + 1) ^ 8.
Proof.
  intros (c & -> & -> & ->). pose proof (splay_pot (length c) c Lf x Lf (le_n _)) as H.
  rewrite !pot_plug, !size1_plug in *. cbn [size1 pot] in *. change (1 + 1) with 2 in *.
  assert (SZ : csize c 2 = csize c 1 + 1).
  { clear. assert (G : forall h, csize c (h + 1) = csize c h + 1); [|apply (G 1)].
    induction c as [|[[d y] s] c IH]; intros h; cbn [csize]; [reflexivity|].
    replace (h + 1 + size1 s) with (h + size1 s + 1) by ring. apply IH. }
  rewrite SZ in H.
  pose proof (cpot_grow c 1 ltac:(lia)) as G. change (1 + 1) with 2 in G.
  set (P := pot (splayT c (Nd Lf x Lf))) in *. assert (1 <= P) by apply pot_pos.
  pose proof (csize_ge c 1) as CS. set (S := csize c 1 + 1) in *.
  pose proof (cpot_pos c 2 ltac:(lia)) as C2. pose proof (cpot_pos c 1 ltac:(lia)) as C1.
  set (A := 2 ^ Z.of_nat (length c)) in *. assert (0 < A) by (apply Z.pow_pos_nonneg; lia).
  assert (0 < S ^ 3) by (apply Z.pow_pos_nonneg; lia).
  assert (M : 4 * (A * P) <= cpot c 1 * S ^ 4).
  { replace (S ^ 4) with (S * S ^ 3) by ring. clear - H G H2. change (2 ^ 3) with 8 in H.
    assert (4 * (A * P) <= (cpot c 2 * 2) * S ^ 3) by lia.
    apply Z.le_trans with (1 := H0). rewrite Z.mul_assoc. apply Z.mul_le_mono_nonneg_r; lia. }
  replace (Z.of_nat (1 + length c + length c)) with (1 + Z.of_nat (length c) + Z.of_nat (length c)) by lia.
  rewrite !Z.pow_add_r by lia. fold A. change (2 ^ 1) with 2.
  assert (Q : (4 * (A * P)) * (4 * (A * P)) <= (cpot c 1 * S ^ 4) * (cpot c 1 * S ^ 4)) by (apply Z.mul_le_mono_nonneg; nia).
  replace ((1 * cpot c 1) ^ 2 * S ^ 8) with ((cpot c 1 * S ^ 4) * (cpot c 1 * S ^ 4)) by ring.
  apply Z.le_trans with (2 := Q). replace (2 * A * A * P ^ 2) with (2 * ((A * P) * (A * P))) by ring.
  replace (4 * (A * P) * (4 * (A * P))) with (16 * ((A * P) * (A * P))) by ring. nia.
Qed.
Lemma del_pot x t t' k : del_rel x t t' k ->
  2 ^ Z.of_nat k * pot t' ^ 2 <= pot t ^ 2 * size1 t ^ 8.
Proof.
  intros (c & l & r & -> & E & ->). pose proof (splay_pot (length c) c l x r (le_n _)) as H.
  rewrite E in H. cbn [pot] in H. set (t := plug c (Nd l x r)) in *.
  pose proof (size1_pos t') as Z1. pose proof (pot_pos t') as Z2. pose proof (pot_pos t) as Z3.
  pose proof (size1_pos t) as Z4.
  pose proof (size1_pos l) as L1. pose proof (size1_pos r) as R1.
  assert (X : 8 <= size1 (Nd l x r) ^ 3).
  { cbn [size1]. replace 8 with (2 ^ 3) by reflexivity. apply Z.pow_le_mono_l. lia. }
  set (A := 2 ^ Z.of_nat (length c)) in *. assert (0 < A) by (apply Z.pow_pos_nonneg; lia).
  assert (T : 0 < size1 t ^ 3) by (apply Z.pow_pos_nonneg; lia).
  assert (M : 4 * (A * pot t') <= pot t * size1 t ^ 3).
  { cbn [size1] in H. assert (A * pot t' * 8 <= A * ((1 + size1 t') * (1 * pot t')) * size1 (Nd l x r) ^ 3).
    { apply Z.mul_le_mono_nonneg; try lia; nia. }
    cbn [size1] in H1. lia. }
  replace (Z.of_nat (1 + length c)) with (1 + Z.of_nat (length c)) by lia.
  rewrite !Z.pow_add_r by lia. fold A. change (2 ^ 1) with 2.
  assert (Q : (4 * (A * pot t')) * (4 * (A * pot t')) <= (pot t * size1 t ^ 3) * (pot t * size1 t ^ 3)) by (apply Z.mul_le_mono_nonneg; nia).
  apply Z.le_trans with (pot t ^ 2 * size1 t ^ 6).
  - replace (pot t ^ 2 * size1 t ^ 6) with ((pot t * size1 t ^ 3) * (pot t * size1 t ^ 3)) by ring.
    apply Z.le_trans with (2 := Q). replace (2 * A * pot t' ^ 2) with (2 * (A * pot t' * pot t')) by ring.
    replace (4 * (A * pot t') * (4 * (A * pot t'))) with (16 * A * (A * pot t' * pot t')) by ring.
    assert (0 <= A * pot t' * pot t') by nia. nia.
  - apply Z.mul_le_mono_nonneg_l; [nia|]. apply Z.pow_le_mono_r; lia.
Qed.

(** * Whole histories *)
Lemma insert_newC_ok key val n t h rt k v : st key val h rt t [] -> sorted key (inorder t) -> length h = n ->
  key n = k -> val n = v ->
  exists h' t' c, insert_newC (h, rt) k v = Ok ((h', troot t'), c) /\ st key val h' (troot t') t' [] /\
    ins_rel n t t' c /\ inorder t' = place key n (inorder t) /\ length h' = S n.
Proof.
  intros S SO L K W. unfold insert_newC, new_node. cbn [fst snd]. rewrite L.
  destruct (st_nil _ _ _ _ _ S) as (R & N & RT).
  assert (ST : st key val (h ++ [B None None None k v]) rt t []).
  { subst rt. apply nil_st; [|assumption]. eapply rp_frame; [exact R|]. intros z Z.
    apply nth_error_app1. eapply rp_ids; eassumption. }
  destruct (insertC_ok key val (h ++ [B None None None k v]) rt t n ST SO) as (h' & rt' & t' & c & E & S' & RL & I' & LEN).
  - rewrite nth_error_app2, L, Nat.sub_diag by lia. simpl. subst k v. reflexivity.
  - intros H. pose proof (rp_ids _ _ _ _ _ R n H). lia.
  - pose proof (st_nil _ _ _ _ _ S') as (_ & _ & ->). exists h', t', c. split; [assumption|]. split; [assumption|].
    split; [assumption|]. split; [assumption|]. rewrite LEN, app_length. simpl. lia.
Qed.

Lemma runC_pot key val M os : forall n l h rt t m l', st key val h rt t [] -> inorder t = l -> sorted key l -> length h = n ->
  (length l <= n)%nat ->
  (forall i kv, nth_error (created os) i = Some kv -> key (n + i)%nat = fst kv /\ val (n + i)%nat = snd kv) ->
  history key n l os = Some (m, l') -> Z.of_nat m <= M ->
  exists s' t' k, runC (h, rt) os = Ok (s', k) /\
    2 ^ Z.of_nat k * pot t' ^ 2 <= pot t ^ 2 * (M + 1) ^ (8 * Z.of_nat (length os)).
Proof.
  induction os as [|[k v|x] os IH]; intros n l h rt t m l' S I SO L LN C H MM; cbn [runC history created] in *.
  - exists (h, rt), t, 0%nat. split; [reflexivity|]. cbn [length]. change (2 ^ Z.of_nat 0) with 1.
    replace (8 * Z.of_nat 0) with 0 by lia. rewrite Z.pow_0_r. lia.
  - destruct (C 0%nat (k, v) eq_refl) as [K W]. rewrite Nat.add_0_r in K, W. subst l.
    destruct (insert_newC_ok key val n t h rt k v S SO L K W) as (h' & t' & c & E & S' & RL & I' & LEN).
    cbn [stepC]. rewrite E. cbn [bind].
    assert (PL : length (place key n (inorder t)) = Datatypes.S (length (inorder t))).
    { clear. induction (inorder t) as [|a q IHq]; [reflexivity|]. simpl. destruct (key a <=? key n)%Z; simpl; congruence. }
    destruct (IH (Datatypes.S n) (place key n (inorder t)) h' (troot t') t' m l' S' I') as (s2 & t2 & k2 & E2 & P2);
      [now apply place_sorted|assumption|lia| |assumption|assumption|].
    { intros i kv G. replace (Datatypes.S n + i)%nat with (n + Datatypes.S i)%nat by lia. apply C. exact G. }
    rewrite E2. cbn [bind]. exists s2, t2, (c + k2)%nat. split; [reflexivity|].
    pose proof (ins_pot _ _ _ _ RL) as P1.
    assert (MN : size1 t + 1 <= M + 1).
    { rewrite size1_length. pose proof (history_count _ _ _ _ _ _ H). lia. }
    pose proof (size1_pos t) as T1. pose proof (pot_pos t) as PT.
    replace (8 * Z.of_nat (length (Ins k v :: os))) with (8 + 8 * Z.of_nat (length os)) by (cbn [length]; lia).
    rewrite Nat2Z.inj_add, !Z.pow_add_r by lia.
    set (Q := (M + 1) ^ (8 * Z.of_nat (length os))) in *. assert (0 <= Q) by (apply Z.pow_nonneg; lia).
    assert (P3 : (size1 t + 1) ^ 8 <= (M + 1) ^ 8) by (apply Z.pow_le_mono_l; lia).
    assert (0 < 2 ^ Z.of_nat c) by (apply Z.pow_pos_nonneg; lia).
    apply Z.le_trans with (2 ^ Z.of_nat c * (pot t' ^ 2 * Q)).
    + rewrite <- Z.mul_assoc. apply Z.mul_le_mono_nonneg_l; [lia|exact P2].
    + rewrite !Z.mul_assoc. apply Z.mul_le_mono_nonneg_r; [assumption|].
      apply Z.le_trans with (1 := P1). apply Z.mul_le_mono_nonneg_l; [nia|assumption].
  - destruct l as [|y l]; [discriminate|]. destruct (Nat.eqb_spec x y) as [->|]; [|discriminate].
    destruct (eraseC_ok key val h rt t y l S I) as (h' & t' & c & E & S' & RL & I' & LEN).
    cbn [stepC]. rewrite E. cbn [bind].
    destruct (IH n l h' (troot t') t' m l' S' I') as (s2 & t2 & k2 & E2 & P2);
      [apply SO|congruence|simpl in LN; lia|assumption|assumption|assumption|].
    rewrite E2. cbn [bind]. exists s2, t2, (c + k2)%nat. split; [reflexivity|].
    pose proof (del_pot _ _ _ _ RL) as P1.
    assert (MN : size1 t <= M + 1).
    { rewrite size1_length, I. pose proof (history_count _ _ _ _ _ _ H). lia. }
    pose proof (size1_pos t) as T1. pose proof (pot_pos t) as PT.
    replace (8 * Z.of_nat (length (Del y :: os))) with (8 + 8 * Z.of_nat (length os)) by (cbn [length]; lia).
    rewrite Nat2Z.inj_add, !Z.pow_add_r by lia.
    set (Q := (M + 1) ^ (8 * Z.of_nat (length os))) in *. assert (0 <= Q) by (apply Z.pow_nonneg; lia).
    assert (P3 : size1 t ^ 8 <= (M + 1) ^ 8) by (apply Z.pow_le_mono_l; lia).
    assert (0 < 2 ^ Z.of_nat c) by (apply Z.pow_pos_nonneg; lia).
    apply Z.le_trans with (2 ^ Z.of_nat c * (pot t' ^ 2 * Q)).
    + rewrite <- Z.mul_assoc. apply Z.mul_le_mono_nonneg_l; [lia|exact P2].
    + rewrite !Z.mul_assoc. apply Z.mul_le_mono_nonneg_r; [assumption|].
      apply Z.le_trans with (1 := P1). apply Z.mul_le_mono_nonneg_l; [nia|assumption].
Qed.

Lemma history_cost os n l : history (keys (created os)) 0 [] os = Some (n, l) ->
  exists s k, runC empty os = Ok (s, k) /\
    2 ^ Z.of_nat k <= (Z.of_nat n + 1) ^ (8 * Z.of_nat (length os)).
Proof.
  intros H.
  destruct (runC_pot (keys (created os)) (vals (created os)) (Z.of_nat n) os 0 [] [] None Lf n l) as (s & t & k & E & P);
    try assumption; try reflexivity; try lia.
  - apply nil_st; [exact I|constructor].
  - intros i kv E. destruct (keys_created os [] i kv E) as [A B]. rewrite !app_nil_r in *. auto.
  - exists s, k. split; [exact E|]. cbn [pot] in P. rewrite Z.pow_1_l, Z.mul_1_l in P by lia.
    apply Z.le_trans with (2 := P). pose proof (pot_pos t). assert (0 < 2 ^ Z.of_nat k) by (apply Z.pow_pos_nonneg; lia). nia.
Qed.

(** * Keys inserted in increasing order *)
Local Close Scope Z_scope.
Local Open Scope nat_scope.
Fixpoint lchain (n : nat) : tree := match n with O => Lf | S m => Nd (lchain m) m Lf end.
Lemma inorder_lchain n : inorder (lchain n) = seq 0 n.
Proof. induction n as [|n IH]; [reflexivity|]. rewrite seq_S. cbn [lchain inorder]. now rewrite IH. Qed.

Lemma runC_app os os' : forall s, runC s (os ++ os') =
  (' (s, a) <- runC s os ;; ' (s, b) <- runC s os' ;; Ok (s, a + b)).
Proof.
  induction os as [|o os IH]; intros s; cbn [runC app bind].
  - destruct (runC s os') as [[? ?]| | |]; reflexivity.
  - destruct (stepC s o) as [[s1 a]| | |]; cbn [bind]; try reflexivity. rewrite IH.
    destruct (runC s1 os) as [[s2 b]| | |]; cbn [bind]; try reflexivity.
    destruct (runC s2 os') as [[s3 d]| | |]; cbn [bind]; try reflexivity. now rewrite Nat.add_assoc.
Qed.

(** the position of the hole decides the directions *)
Lemma hole_last c x : forall t A, inorder (plug c t) = A ++ [x] -> NoDup (A ++ [x]) -> In x (inorder t) ->
  Forall (fun f => fst (fst f) = true) c.
Proof.
  induction c as [|[[d y] s] c IH]; intros t A E N X; constructor.
  - destruct d; [reflexivity|]. exfalso. cbn [plug] in E.
    destruct (inorder_form c) as (P & Q & F). rewrite F in E. cbn [ndd inorder] in E.
    apply in_split in X. destruct X as (U & V & X). rewrite X in E.
    destruct (exists_last (l := V ++ y :: inorder s ++ Q)) as (W & w & EW); [intros HH; destruct V; discriminate|].
    assert (E2 : (P ++ U ++ x :: W) ++ [w] = A ++ [x]).
    { rewrite <- E. repeat (rewrite <- app_assoc; cbn [app]). rewrite <- EW. reflexivity. }
    apply app_inj_tail in E2. destruct E2 as [E2 ->]. rewrite <- E2 in N.
    apply NoDup_app_inv in N. destruct N as (_ & _ & N). apply (N x); [|left; reflexivity].
    apply in_or_app. right. apply in_or_app. right. left. reflexivity.
  - cbn [plug] in E. apply (IH _ A E N). destruct d; cbn [ndd inorder]; apply in_or_app; simpl; auto.
Qed.
Lemma hole_first c x : forall t A, inorder (plug c t) = x :: A -> NoDup (x :: A) -> In x (inorder t) ->
  Forall (fun f => fst (fst f) = false) c.
Proof.
  induction c as [|[[d y] s] c IH]; intros t A E N X; constructor.
  - destruct d; [|reflexivity]. exfalso. cbn [plug] in E.
    destruct (inorder_form c) as (P & Q & F). rewrite F in E. cbn [ndd inorder] in E.
    inversion N as [|? ? N1 N2]; subst. apply N1.
    assert (IX : In x (P ++ inorder s ++ y :: inorder t ++ Q) ).
    { apply in_or_app. right. apply in_or_app. right. right. apply in_or_app. auto. }
    destruct (P ++ inorder s) as [|w W] eqn:EW.
    + apply app_eq_nil in EW. destruct EW as [-> EW]. rewrite EW in E. cbn in E. injection E as -> <-.
      apply in_or_app. auto.
    + assert (E2 : (w :: W) ++ y :: inorder t ++ Q = x :: A).
      { rewrite <- EW, <- E, <- !app_assoc. reflexivity. }
      cbn in E2. injection E2 as -> <-. apply in_or_app. right. right. apply in_or_app. auto.
  - cbn [plug] in E. apply (IH _ A E N). destruct d; cbn [ndd inorder]; apply in_or_app; simpl; auto.
Qed.
Lemma place_last key n l : (forall a, In a l -> (key a <= key n)%Z) -> place key n l = l ++ [n].
Proof.
  induction l as [|a l IH]; intros H; [reflexivity|]. simpl.
  destruct (Z.leb_spec (key a) (key n)) as [L|L]; [rewrite IH; [reflexivity|intros b Bb; apply H; now right]|].
  specialize (H a (or_introl eq_refl)). lia.
Qed.
Lemma place_first key n l : (forall a, In a l -> (key n < key a)%Z) -> place key n l = n :: l.
Proof.
  destruct l as [|a l]; intros H; [reflexivity|]. simpl.
  destruct (Z.leb_spec (key a) (key n)) as [L|L]; [|reflexivity]. specialize (H a (or_introl eq_refl)). lia.
Qed.
Lemma chain_right c : Forall (fun f => fst (fst f) = true) c -> forall n, plug c Lf = lchain n ->
  c = match n with O => [] | S m => [(true, m, lchain m)] end.
Proof.
  induction c as [|[[d y] s] c _] using rev_ind; intros F n E.
  - destruct n; [reflexivity|discriminate].
  - rewrite plug_snoc in E. apply Forall_app in F. destruct F as [F1 F2].
    inversion F2 as [|? ? F3 _]; subst. cbn [fst] in F3. subst d. cbn [ndd] in E.
    destruct n as [|n]; [discriminate|]. cbn [lchain] in E. injection E as E1 -> E2. subst s.
    destruct c as [|[[d y] s] c] using rev_ind; [reflexivity|]. rewrite plug_snoc in E2. destruct d; discriminate.
Qed.
Lemma chain_left c : Forall (fun f => fst (fst f) = false) c -> forall n, plug c Lf = lchain n -> length c = n.
Proof.
  induction c as [|[[d y] s] c IH] using rev_ind; intros F n E.
  - destruct n; [reflexivity|discriminate].
  - rewrite plug_snoc in E. apply Forall_app in F. destruct F as [F1 F2].
    inversion F2 as [|? ? F3 _]; subst. cbn [fst] in F3. subst d. cbn [ndd] in E.
    destruct n as [|n]; [discriminate|]. cbn [lchain] in E. injection E as E1 -> E2.
    rewrite app_length, (IH F1 n E1). simpl. lia.
Qed.
Lemma sorted_asc key n : (forall i, i < n -> key i = Z.of_nat i) -> sorted key (seq 0 n).
Proof.
  intros K. assert (G : forall m a, a + m <= n -> sorted key (seq a m)); [|apply G; lia].
  induction m as [|m IH]; intros a L; [exact I|]. cbn [seq sorted]. split; [|apply IH; lia].
  intros y Y. apply in_seq in Y. rewrite !K by lia. lia.
Qed.
Lemma asc_run key val N : (forall i, i < N -> key i = Z.of_nat i /\ val i = 0%Z) -> forall n, n <= N ->
  exists h k, runC empty (ascending n) = Ok ((h, troot (lchain n)), k) /\ st key val h (troot (lchain n)) (lchain n) [] /\
    length h = n /\ k <= 3 * n.
Proof.
  intros KV. induction n as [|n IH]; intros L.
  - exists [], 0. split; [reflexivity|]. split; [apply nil_st; [exact I|constructor]|]. auto.
  - destruct IH as (h & k & E & S & LH & LK); [lia|]. cbn [ascending]. rewrite runC_app, E. cbn [bind runC stepC].
    destruct (insert_newC_ok key val n (lchain n) h (troot (lchain n)) (Z.of_nat n) 0%Z) as (h' & t' & c & E' & S' & RL & I' & LEN);
      [assumption| |assumption|apply KV; lia|apply KV; lia|].
    { rewrite inorder_lchain. apply sorted_asc. intros i Hi. apply KV. lia. }
    rewrite E'. cbn [bind].
    destruct RL as (cc & P1 & P2 & P3).
    assert (PL : inorder (plug cc (Nd Lf n Lf)) = seq 0 n ++ [n]).
    { rewrite <- (inorder_splayT key (fun _ => 0%Z) (length cc) cc Lf n Lf (le_n _)), <- P2, I', inorder_lchain. apply place_last.
      intros a A. apply in_seq in A. destruct (KV a) as [-> _]; [lia|]. destruct (KV n) as [-> _]; [lia|]. lia. }
    assert (NN : NoDup (seq 0 n ++ [n])) by (change [n] with [0 + n]; rewrite <- (seq_S n 0); apply seq_NoDup).
    pose proof (hole_last cc n _ _ PL NN (or_introl eq_refl)) as F.
    pose proof (chain_right cc F n (eq_sym P1)) as EC.
    assert (T : t' = lchain (Datatypes.S n) /\ c <= 3).
    { subst cc t' c. destruct n as [|n]; [split; [reflexivity|simpl; lia]|]. split; [reflexivity|simpl; lia]. }
    destruct T as [-> LC]. exists h', (k + (c + 0)). split; [reflexivity|]. split; [assumption|]. split; [assumption|]. lia.
Qed.
Lemma find_chain key h : forall n fuel, (forall i, i < n -> key i = Z.of_nat i) -> linked_down key h (lchain n) -> 0 < n -> n <= fuel ->
  find_loopC fuel h 0 (troot (lchain n)) = Ok (Some 0, n).
Proof.
  induction n as [|n IH]; intros fuel K D P L; [lia|]. destruct fuel as [|f]; [lia|].
  cbn [lchain linked_down] in D. destruct D as ((nd & E & C0 & C1 & RK) & DL & _).
  cbn [find_loopC lchain troot peq]. rewrite (rrank_ok _ _ _ E), RK, (K n) by lia. cbn [bind].
  destruct n as [|n]; [reflexivity|].
  destruct (Z.eqb_spec (Z.of_nat (S n)) 0); [lia|]. destruct (Z.ltb_spec (Z.of_nat (S n)) 0); [lia|].
  rewrite (rch_ok _ _ _ _ E). cbn [bind chd]. rewrite C0. rewrite IH; [reflexivity| |assumption|lia|lia].
  intros i Hi. apply K. lia.
Qed.
Lemma asc_find n : 0 < n -> exists s k, runC empty (ascending n) = Ok (s, k) /\ k <= 3 * n /\ findC s 0 = Ok (Some 0, n).
Proof.
  intros P. destruct (asc_run Z.of_nat (fun _ => 0%Z) n ltac:(auto) n (le_n _)) as (h & k & E & S & L & K).
  exists (h, troot (lchain n)), k. split; [assumption|]. split; [assumption|].
  unfold findC. cbn [fst snd]. apply (find_chain Z.of_nat); auto; [|lia].
  destruct (st_nil _ _ _ _ _ S) as (R & _ & _). eapply rp_down. exact R.
Qed.
Lemma asc_insert n : exists s k s', runC empty (ascending n) = Ok (s, k) /\ k <= 3 * n /\
  insert_newC s (-1) 0 = Ok (s', 1 + 2 * n).
Proof.
  set (key := fun i => if i <? n then Z.of_nat i else (-1)%Z).
  assert (KB : forall i, i < n -> key i = Z.of_nat i) by (intros i Hi; unfold key; destruct (Nat.ltb_spec i n); [reflexivity|lia]).
  assert (KN : key n = (-1)%Z) by (unfold key; destruct (Nat.ltb_spec n n); [lia|reflexivity]).
  destruct (asc_run key (fun _ => 0%Z) n ltac:(auto) n (le_n _)) as (h & k & E & S & L & K).
  destruct (insert_newC_ok key (fun _ => 0%Z) n (lchain n) h (troot (lchain n)) (-1)%Z 0%Z) as (h' & t' & c & E' & S' & RL & I' & LEN); auto.
  { rewrite inorder_lchain. now apply sorted_asc. }
  exists (h, troot (lchain n)), k, (h', troot t'). split; [assumption|]. split; [assumption|].
  destruct RL as (cc & P1 & P2 & P3).
  assert (PL : inorder (plug cc (Nd Lf n Lf)) = n :: seq 0 n).
  { rewrite <- (inorder_splayT key (fun _ => 0%Z) (length cc) cc Lf n Lf (le_n _)), <- P2, I', inorder_lchain. apply place_first.
    intros a A. apply in_seq in A. rewrite KN. rewrite (KB a) by (destruct A; assumption). lia. }
  assert (NN : NoDup (n :: seq 0 n)).
  { constructor; [|apply seq_NoDup]. intros H. apply in_seq in H. lia. }
  pose proof (hole_first cc n _ _ PL NN (or_introl eq_refl)) as F.
  pose proof (chain_left cc F n (eq_sym P1)) as EC. replace c with (1 + 2 * n) in E' by (rewrite P3, EC; lia). exact E'.
Qed.
