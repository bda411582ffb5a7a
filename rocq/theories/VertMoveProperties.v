(** Properties of vertices handled as values (C120). *)
From Verif Require Import Base GraphModel GraphSpec GraphProofs VertMoveModel VertMoveSpec VertMoveProofs.
Local Open Scope nat_scope.

Lemma careful_state p w : careful 0 [] [] p -> xrun start p = Ok w ->
  exists dead, own (xarcs p) (xverts p) dead w /\ length (vs w) = xverts p.
Proof.
  intros C H. destruct (careful_run p 0 [] [] start C own_start eq_refl ltac:(intros t [])) as (w' & dead & E & O & L & _).
  rewrite H in E. injection E as <-. exists dead. auto.
Qed.

(** two vertices that list the same edge cannot both be destroyed, in whatever
    order and whatever else happens, unless one of them is assigned to *)
Theorem C120_shared : forall w u v e p, u <> v -> holds w u e -> holds w v e ->
  ~ overwrites u p -> ~ overwrites v p -> destroys u p -> destroys v p -> xrun w p = UB.
Proof. exact shared_destroyed. Qed.
(** nor can a vertex that lists a freed edge *)
Theorem C120_doomed : forall w v e p, holds w v e -> freed w e -> ~ overwrites v p -> destroys v p -> xrun w p = UB.
Proof. intros w v e p. apply doomed_destroyed. Qed.
(** moving only vertices without leaving edges is safe: every edge is freed
    exactly when the vertex it leaves is destroyed *)
Theorem C120_careful : forall p, careful 0 [] [] p ->
  exists w, xrun start p = Ok w /\ length (es w) = length (xarcs p) /\
    forall i a b, nth_error (xarcs p) i = Some (a, b) ->
      exists e, nth_error (es w) i = Some e /\ efrom e = a /\ eto e = b /\
        (elive e = true <-> exists x, getv w a = Ok x /\ In i (outE x)).
Proof.
  intros p C. destruct (careful_run p 0 [] [] start C own_start eq_refl ltac:(intros t [])) as (w & dead & E & O & L & _).
  exists w. cbn [app plus] in *. split; [exact E|]. split; [now destruct O as (_ & LE & _)|].
  intros i a b Ei. pose proof O as (_ & _ & HV & HE). destruct (HE i a b Ei) as (La & z & Ez & F1 & F2 & F3).
  exists z. split; [exact Ez|]. split; [exact F1|]. split; [exact F2|]. rewrite F3. split.
  - intros D. destruct (own_get _ _ _ _ a O La D) as (x & G & OX). exists x. split; [exact G|]. rewrite OX. apply leaving_in. eauto.
  - intros (x & G & _). now destruct (own_alive _ _ _ _ _ _ O L G) as (_ & D & _).
Qed.
(** std::swap exchanges values, validity and edge lists but not ids, and frees
    every edge leaving its first argument, and no other *)
Theorem C120_swap : forall p w u v x y, careful 0 [] [] p -> xrun start p = Ok w ->
  u <> v -> getv w u = Ok x -> getv w v = Ok y ->
  exists w' x' y', xrun start (p ++ [Swap u v]) = Ok w' /\ getv w' u = Ok x' /\ getv w' v = Ok y' /\
    (vval x', vuse x', inE x', outE x', vid x') = (vval y, vuse y, inE y, outE y, vid x) /\
    (vval y', vuse y', inE y', outE y', vid y') = (vval x, vuse x, inE x, outE x, vid y) /\
    forall i a b, nth_error (xarcs p) i = Some (a, b) -> (freed w' i <-> a = u \/ freed w i).
Proof.
  intros p w u v x y C H N Gx Gy. destruct (careful_state p w C H) as (dead & O & L).
  destruct (swap_own _ _ _ _ u v x y O L N Gx Gy) as (w' & E & U & V' & F1 & F2).
  exists w', (moved x y), (moved y x). split; [rewrite xrun_app, H; cbn [bind xrun xstep]; now rewrite E|].
  split; [exact U|]. split; [exact V'|]. split; [reflexivity|]. split; [reflexivity|].
  intros i a b Ei. destruct (Nat.eq_dec a u) as [->|Na].
  - split; [auto|]. intros _. apply F1. apply leaving_in. eauto.
  - rewrite F2; [tauto|]. rewrite leaving_in. intros (b' & K). congruence.
Qed.
(** so swapping away a vertex with a leaving edge is fatal once the vertex
    that received the edge is destroyed *)
Theorem C120_swap_fatal : forall p w u v x y b q, careful 0 [] [] p -> xrun start p = Ok w ->
  u <> v -> getv w u = Ok x -> getv w v = Ok y -> In (u, b) (xarcs p) ->
  ~ overwrites v q -> destroys v q -> xrun start (p ++ Swap u v :: q) = UB.
Proof.
  intros p w u v x y b q C H N Gx Gy I Ov Dv. destruct (careful_state p w C H) as (dead & O & L).
  destruct (swap_own _ _ _ _ u v x y O L N Gx Gy) as (w' & E & U & V' & F1 & F2).
  rewrite xrun_app, H. cbn [bind xrun xstep]. rewrite E. cbn [bind].
  apply In_nth_error in I. destruct I as (i & Ei). assert (Il : In i (leaving (xarcs p) u)) by (apply leaving_in; eauto).
  apply (doomed_destroyed v i q); [|now apply F1|exact Ov|exact Dv]. exists (moved y x). split; [exact V'|]. cbn [moved outE].
  destruct (own_alive _ _ _ _ _ _ O L Gx) as (_ & _ & OX). now rewrite OX.
Qed.
(** a growing vector of vertices: the elements in the new storage have the old
    values and lists, but every edge leaving an element has been freed *)
Theorem C120_grow : forall p w l, careful 0 [] [] p -> xrun start p = Ok w -> NoDup l ->
  (forall v, In v l -> exists x, getv w v = Ok x) ->
  exists w', xrun start (p ++ [Grow l]) = Ok w' /\
    forall j v x, nth_error l j = Some v -> getv w v = Ok x ->
      exists y, getv w' (xverts p + j) = Ok y /\ (vval y, vuse y, inE y, outE y) = (vval x, vuse x, inE x, outE x) /\
        forall i b, nth_error (xarcs p) i = Some (v, b) -> In i (outE y) /\ freed w' i.
Proof.
  intros p w l C H ND HA. destruct (careful_state p w C H) as (dead & O & L).
  destruct (grow_own _ _ _ _ l O L ND HA) as (w' & E & K). exists w'. split; [rewrite xrun_app, H; cbn [bind xrun xstep]; now rewrite E|].
  intros j v x Ej G. destruct (K j v x Ej G) as (y & Gy & F1 & F2 & F3 & F4 & F5 & F6). exists y. split; [exact Gy|].
  split; [congruence|]. intros i b Ei. assert (In i (outE x)) by (rewrite F5; apply leaving_in; eauto). split; [now rewrite F4|now apply F6].
Qed.
(** so a std::vector of vertices that grows after an element got a leaving edge
    cannot be destroyed *)
Theorem C120_grow_fatal : forall p w l j v b q, careful 0 [] [] p -> xrun start p = Ok w -> NoDup l ->
  (forall v, In v l -> exists x, getv w v = Ok x) -> nth_error l j = Some v -> In (v, b) (xarcs p) ->
  ~ overwrites (xverts p + j) q -> destroys (xverts p + j) q -> xrun start (p ++ Grow l :: q) = UB.
Proof.
  intros p w l j v b q C H ND HA Ej I Ov Dv. destruct (C120_grow p w l C H ND HA) as (w' & E & K).
  destruct (HA v (nth_error_In _ _ Ej)) as (x & G). destruct (K j v x Ej G) as (y & Gy & _ & F).
  apply In_nth_error in I. destruct I as (i & Ei). destruct (F i b Ei) as (Io & Fr).
  replace (p ++ Grow l :: q) with ((p ++ [Grow l]) ++ q) by (now rewrite <- app_assoc). rewrite xrun_app, E. cbn [bind].
  apply (doomed_destroyed (xverts p + j) i q); [now exists y|exact Fr|exact Ov|exact Dv].
Qed.
(** setters change one field of one vertex; [operator<] compares the values *)
Theorem C120_setters : forall w v a z b, getv w v = Ok a ->
  exists w1 w2, set_val w v z = Ok w1 /\ set_use w v b = Ok w2 /\
    get_val w1 v = Ok z /\ is_valid w1 v = is_valid w v /\ get_val w2 v = get_val w v /\ is_valid w2 v = Ok b /\
    (forall u c, getv w u = Ok c -> u <> v ->
       vertex_lt w1 u v = Ok (vval c <? z)%Z /\ vertex_lt w1 v u = Ok (z <? vval c)%Z /\ vertex_lt w2 u v = vertex_lt w u v).
Proof.
  intros w v a z b G. pose proof (getv_bound _ _ _ G) as B. pose proof (getv_ok _ _ _ G) as [_ Lv].
  unfold set_val, set_use, get_val, is_valid, vertex_lt. rewrite G. cbn [bind]. do 2 eexists. split; [reflexivity|]. split; [reflexivity|].
  rewrite !getv_setv_eq by (cbn; assumption). cbn [bind vval vuse]. do 4 (split; [reflexivity|]).
  intros u c Gc N. rewrite !getv_setv_neq by congruence. rewrite Gc. cbn [bind]. auto.
Qed.
(** two vertices in a vector, joined by an edge after the vector has grown once;
    swapping them, or growing again, is fatal; destroying them is not *)
Example C120_example :
  let p := [Op (NewV 5%Z); Op (NewV 3%Z); Grow [0; 1]; Op (AddE 2 3 7%Z)] in
  careful 0 [] [] p /\ xverts p = 4 /\ (exists w, xrun start (p ++ [Op (DelV 2); Op (DelV 3)]) = Ok w) /\
  xrun start (p ++ [Swap 2 3; Op (DelV 3)]) = UB /\ xrun start (p ++ [Grow [2; 3]; Op (DelV 4)]) = UB /\
  (exists w, xrun start (p ++ [Swap 3 2; Op (DelV 3); Op (DelV 2)]) = Ok w).
Proof.
  cbv zeta. split; [|split; [reflexivity|split; [|split; [now vm_compute|split; [now vm_compute|]]]]].
  - cbn. split; [repeat constructor; cbn; intuition lia|]. split; [repeat constructor; intuition lia|].
    split; [repeat constructor; intros ? []|]. intuition lia.
  - eexists. now vm_compute.
  - eexists. now vm_compute.
Qed.

Print Assumptions C120_shared.
Print Assumptions C120_doomed.
Print Assumptions C120_careful.
Print Assumptions C120_swap.
Print Assumptions C120_swap_fatal.
Print Assumptions C120_grow.
Print Assumptions C120_grow_fatal.
Print Assumptions C120_setters.
