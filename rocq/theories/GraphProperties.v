(** C45, C46: vertices, edges and who owns them. *)
From Verif Require Import Base GraphModel GraphSpec GraphProofs.
Local Open Scope nat_scope.

(** Whatever is done (including copies and assignments), every vertex and every
    edge object keeps the id it got at creation, so [==] is object identity. *)
Theorem C45_ids os w : run start os = Ok w ->
  (forall u v x y, nth_error (vs w) u = Some x -> nth_error (vs w) v = Some y -> u <> v -> vid x <> vid y) /\
  (forall d e x y, nth_error (es w) d = Some x -> nth_error (es w) e = Some y -> d <> e -> eid x <> eid y) /\
  (forall u v b, vertex_eq w u v = Ok b -> (b = true <-> u = v)) /\
  (forall d e b, edge_eq w d e = Ok b -> (b = true <-> d = e)).
Proof.
  intros R. destruct (run_ids os start w start_ids R) as (_ & _ & IV & IE).
  split; [intros u v x y X Y N; rewrite (IV _ _ X), (IV _ _ Y); assumption|].
  split; [intros u v x y X Y N; rewrite (IE _ _ X), (IE _ _ Y); assumption|].
  split; intros u v b H; unfold vertex_eq, edge_eq in H.
  - apply bind_ok in H. destruct H as (x & X & H). apply bind_ok in H. destruct H as (y & Y & H). injection H as <-.
    apply getv_ok in X. apply getv_ok in Y. rewrite (IV _ _ (proj1 X)), (IV _ _ (proj1 Y)). apply Nat.eqb_eq.
  - apply bind_ok in H. destruct H as (x & X & H). apply bind_ok in H. destruct H as (y & Y & H). injection H as <-.
    apply gete_ok in X. apply gete_ok in Y. rewrite (IE _ _ (proj1 X)), (IE _ _ (proj1 Y)). apply Nat.eqb_eq.
Qed.
Example C45_ids_example :
  omap (fun w => map vid (vs w)) (run start [NewV 5; NewV 6; AddE 0 1 7; CopyV 0; AssignV 2 1; CopyE 0]) = Ok [0; 1; 2] /\
  (w <- run start [NewV 5; NewV 5; AssignV 0 1] ;; vertex_eq w 0 1) = Ok false.
Proof. split; reflexivity. Qed.

(** Creating vertices and edges and destroying vertices: every vertex not yet
    destroyed lists exactly its leaving and entering edges in creation order, with
    the right end points. *)
Theorem C45_graph os : legal 0 [] os ->
  exists w, run start os = Ok w /\ length (vs w) = nverts os /\ length (es w) = length (arcs os) /\
    (forall v, v < nverts os -> ~ In (DelV v) os ->
       exists x, getv w v = Ok x /\ outE x = leaving (arcs os) v /\ inE x = entering (arcs os) v) /\
    (forall i a b, nth_error (arcs os) i = Some (a, b) ->
       exists e, nth_error (es w) i = Some e /\ efrom e = a /\ eto e = b).
Proof.
  intros LG. destruct (legal_graph os LG) as (w & R & G). exists w. split; [assumption|].
  pose proof G as (_ & L & LE & HV & HE). split; [assumption|]. split; [assumption|]. split.
  - intros v Lv D. rewrite <- in_dels in D. destruct (getv_live _ _ _ _ v G Lv D) as (x & X & _ & _ & Y). eauto.
  - intros i a b E. destruct (HE i a b E) as (_ & _ & x & X1 & X2 & X3 & _). eauto.
Qed.
Theorem C45_degree_sums os w : legal 0 [] os -> (forall v, ~ In (DelV v) os) -> run start os = Ok w ->
  exists ind outd,
    (forall v, v < nverts os -> in_degree w v = Ok (ind v) /\ out_degree w v = Ok (outd v)) /\
    total ind (nverts os) = length (arcs os) /\ total outd (nverts os) = length (arcs os).
Proof.
  intros LG ND R. destruct (C45_graph os LG) as (w' & R' & _ & _ & HV & _). assert (w' = w) by congruence. subst w'.
  destruct (legal_graph os LG) as (w' & R'' & _ & _ & _ & _ & HE).
  exists (fun v => length (entering (arcs os) v)), (fun v => length (leaving (arcs os) v)). split; [|split].
  - intros v Lv. destruct (HV v Lv (ND v)) as (x & X & O & I). unfold in_degree, out_degree. rewrite X.
    cbn [bind]. rewrite O, I. auto.
  - apply entering_total. intros i a b E. now apply HE in E.
  - apply leaving_total. intros i a b E. now apply HE in E.
Qed.
(** each edge is listed once by exactly one source and once by exactly one target *)
Theorem C45_listed_once os w i a b : legal 0 [] os -> run start os = Ok w ->
  nth_error (arcs os) i = Some (a, b) ->
  (forall v x, getv w v = Ok x -> (In i (outE x) <-> v = a) /\ (In i (inE x) <-> v = b) /\
     NoDup (outE x) /\ NoDup (inE x)).
Proof.
  intros LG R E v x X. destruct (legal_graph os LG) as (w' & R' & G). assert (w' = w) by congruence. subst w'.
  apply getv_ok in X. destruct X as [X LV]. pose proof G as (_ & L & _ & HV & _).
  assert (Lv : v < nverts os) by (rewrite <- L; apply nth_error_Some; congruence).
  destruct (HV v Lv) as (y & Y & LY & H). assert (y = x) by congruence. subst y.
  apply LY in LV. destruct (H LV) as [-> ->]. rewrite leaving_in, entering_in, E.
  split; [split; [intros [c [= -> _]]; reflexivity|intros ->; eauto]|].
  split; [split; [intros [c [= _ ->]]; reflexivity|intros ->; eauto]|].
  split; [apply leaving_nodup|apply entering_nodup].
Qed.
Example C45_example :
  legal 0 [] [NewV 1; NewV 2; AddE 0 1 5; AddE 1 1 6; AddE 0 1 7; NewV 3; AddE 2 0 8] /\
  omap (fun w => map (fun x => (inE x, outE x)) (vs w))
    (run start [NewV 1; NewV 2; AddE 0 1 5; AddE 1 1 6; AddE 0 1 7; NewV 3; AddE 2 0 8])
  = Ok [([3], [0; 2]); ([0; 1; 2], [1]); ([], [3])].
Proof. split; [cbn; intuition lia|reflexivity]. Qed.

(** Without copies no edge is freed twice, and an edge object is alive exactly as
    long as its source vertex: destroying all vertices frees all edges. *)
Theorem C46_edge_lifetime os : legal 0 [] os ->
  exists w, run start os = Ok w /\
    (forall v, v < nverts os -> exists x, nth_error (vs w) v = Some x /\ (vlive x = true <-> ~ In (DelV v) os)) /\
    (forall i a b, nth_error (arcs os) i = Some (a, b) ->
       exists e, nth_error (es w) i = Some e /\ (elive e = true <-> ~ In (DelV a) os)).
Proof.
  intros LG. destruct (legal_graph os LG) as (w & R & _ & _ & _ & HV & HE). exists w. split; [assumption|]. split.
  - intros v Lv. destruct (HV v Lv) as (x & X & LX & _). exists x. rewrite in_dels in LX. auto.
  - intros i a b E. destruct (HE i a b E) as (_ & _ & x & X & _ & _ & LX). exists x. rewrite in_dels in LX. auto.
Qed.
(** Copying a vertex that has an out-edge and then destroying original and copy,
    in either order, frees an edge twice. *)
Lemma run_app os : forall w os', run w (os ++ os') = bind (run w os) (fun w' => run w' os').
Proof.
  induction os as [|o os IH]; intros w os'; [reflexivity|]. simpl. destruct (step w o); simpl; auto.
Qed.
Theorem C46_copy os v i b : legal 0 [] os -> v < nverts os -> ~ In (DelV v) os ->
  nth_error (arcs os) i = Some (v, b) ->
  run start (os ++ [CopyV v; DelV v; DelV (nverts os)]) = UB /\
  run start (os ++ [CopyV v; DelV (nverts os); DelV v]) = UB.
Proof.
  intros LG Lv D E. destruct (legal_graph os LG) as (w & R & G). rewrite !run_app, R. cbn [bind].
  rewrite <- in_dels in D. destruct (getv_live _ _ _ _ v G Lv D) as (x & X & NX & LX & O & _).
  pose proof G as (_ & L & _). cbn [run step]. unfold copy_vertex. rewrite X. cbn [bind].
  assert (NE : outE x <> []).
  { rewrite O. intros C. assert (In i (leaving (arcs os) v)) as I by (apply leaving_in; eauto). rewrite C in I. destruct I. }
  split.
  - eapply (shared_ub (World _ _ _ _) v (nverts os)); [lia| | | | | |]; cbn [vs].
    + rewrite nth_error_app1 by lia. exact NX.
    + rewrite nth_error_app2, L, Nat.sub_diag by lia. reflexivity.
    + assumption. + reflexivity. + reflexivity. + assumption.
  - eapply (shared_ub (World _ _ _ _) (nverts os) v); [lia| | | | | |]; cbn [vs].
    + rewrite nth_error_app2, L, Nat.sub_diag by lia. reflexivity.
    + rewrite nth_error_app1 by lia. exact NX.
    + reflexivity. + assumption. + reflexivity. + assumption.
Qed.
(** Assigning such a vertex to another one has the same effect; assigning a
    vertex to itself loses all its edges (never freed, no longer listed). *)
Theorem C46_assign os d v i b : legal 0 [] os -> v < nverts os -> ~ In (DelV v) os ->
  d < nverts os -> ~ In (DelV d) os -> d <> v -> nth_error (arcs os) i = Some (v, b) ->
  run start (os ++ [AssignV d v; DelV v; DelV d]) = UB /\
  run start (os ++ [AssignV d v; DelV d; DelV v]) = UB.
Proof.
  intros LG Lv D Ld Dd N E. destruct (legal_graph os LG) as (w & R & G). rewrite !run_app, R. cbn [bind].
  rewrite <- in_dels in D, Dd. destruct (getv_live _ _ _ _ v G Lv D) as (x & X & NX & LX & O & _).
  destruct (getv_live _ _ _ _ d G Ld Dd) as (y & Y & NY & LY & _ & _).
  pose proof G as (_ & L & _).
  assert (NE : outE x <> []).
  { rewrite O. intros C. assert (In i (leaving (arcs os) v)) as I by (apply leaving_in; eauto). rewrite C in I. destruct I. }
  assert (AS : exists w', assign_vertex w d v = Ok w' /\ nth_error (vs w') v = Some x /\
     exists y', nth_error (vs w') d = Some y' /\ vlive y' = true /\ outE y' = outE x).
  { unfold assign_vertex. rewrite X, Y. cbn [bind].
    unfold getv at 1. unfold setv at 1. cbn [vs]. rewrite nth_error_upd_eq by lia. cbn [vlive]. rewrite LY. cbn [bind].
    unfold getv at 1. unfold setv at 1. cbn [vs]. rewrite nth_error_upd_neq, NX by assumption. rewrite LX. cbn [bind].
    eexists. split; [reflexivity|]. split; [cbn [vs setv]; rewrite !nth_error_upd_neq by assumption; exact NX|].
    eexists. split; [cbn [vs setv]; apply nth_error_upd_eq; rewrite upd_length; lia|]. split; reflexivity. }
  destruct AS as (w' & AS & NX' & y' & NY' & LY' & OY').
  change (bind (assign_vertex w d v) (fun w => run w [DelV v; DelV d]) = UB /\
          bind (assign_vertex w d v) (fun w => run w [DelV d; DelV v]) = UB).
  rewrite AS. cbn [bind]. split.
  - apply (shared_ub w' v d x y'); auto.
  - apply (shared_ub w' d v y' x); auto. congruence.
Qed.
Theorem C46_self_assign os v : legal 0 [] os -> v < nverts os -> ~ In (DelV v) os ->
  exists w x, run start (os ++ [AssignV v v]) = Ok w /\ getv w v = Ok x /\ outE x = [] /\ inE x = [] /\
    (forall i b, nth_error (arcs os) i = Some (v, b) -> exists e w', nth_error (es w) i = Some e /\ elive e = true /\
       run w [DelV v] = Ok w' /\ nth_error (es w') i = Some e).
Proof.
  intros LG Lv D. destruct (legal_graph os LG) as (w & R & G). rewrite !run_app, R. cbn [bind].
  rewrite <- in_dels in D. destruct (getv_live _ _ _ _ v G Lv D) as (x & X & NX & LX & O & _).
  pose proof G as (_ & L & _ & _ & HE). cbn [run step]. unfold assign_vertex. rewrite X. cbn [bind].
  set (x' := V (vlive x) (vval x) (vuse x) (vid x) [] []).
  assert (S1 : forall es' a c, getv (World (upd (vs w) v x') es' a c) v = Ok x').
  { intros. unfold getv. cbn [vs]. rewrite nth_error_upd_eq by lia. unfold x' at 1. cbn [vlive]. now rewrite LX. }
  unfold setv at 1 2. rewrite !S1. cbn [bind]. do 2 eexists. split; [reflexivity|].
  assert (S2 : forall y, vlive y = true -> getv (setv (setv w v x') v y) v = Ok y).
  { intros y Hy. unfold getv, setv. cbn [vs]. rewrite nth_error_upd_eq by (rewrite upd_length; lia). now rewrite Hy. }
  split; [apply S2; exact LX|]. split; [reflexivity|]. split; [reflexivity|].
  intros i b E. destruct (HE i v b E) as (_ & _ & e & E1 & _ & _ & LE). exists e. eexists.
  split; [exact E1|]. split; [tauto|]. cbn [run step]. unfold destroy. rewrite S2 by exact LX. cbn [bind outE x' delete_all].
  rewrite S2 by exact LX. cbn [bind]. split; [reflexivity|]. exact E1.
Qed.
(** A destroyed vertex leaves the in-lists of its successors pointing to freed
    edges, so in-degrees keep counting them. *)
Theorem C46_dangling_in os i a b : legal 0 [] os -> nth_error (arcs os) i = Some (a, b) ->
  In (DelV a) os -> ~ In (DelV b) os ->
  exists w x e, run start os = Ok w /\ getv w b = Ok x /\ In i (inE x) /\ nth_error (es w) i = Some e /\ elive e = false.
Proof.
  intros LG E A B. destruct (legal_graph os LG) as (w & R & G). pose proof G as (_ & _ & _ & _ & HE).
  destruct (HE i a b E) as (La & Lb & e & X & _ & _ & LX). rewrite in_dels in LX.
  rewrite <- in_dels in B. destruct (getv_live _ _ _ _ b G Lb B) as (x & GX & _ & _ & _ & I).
  exists w, x, e. split; [assumption|]. split; [assumption|]. split; [rewrite I; apply entering_in; eauto|].
  split; [assumption|]. destruct (elive e); [exfalso; now apply LX|reflexivity].
Qed.
Example C46_example :
  legal 0 [] [NewV 1; NewV 2; AddE 0 1 5; AddE 1 0 6; DelV 0; DelV 1] /\
  omap (fun w => map elive (es w)) (run start [NewV 1; NewV 2; AddE 0 1 5; AddE 1 0 6; DelV 0]) = Ok [false; true] /\
  omap (fun w => map elive (es w)) (run start [NewV 1; NewV 2; AddE 0 1 5; AddE 1 0 6; DelV 0; DelV 1]) = Ok [false; false] /\
  nth_error (arcs [NewV 1; NewV 2; AddE 0 1 5]) 0 = Some (0, 1) /\
  run start ([NewV 1; NewV 2; AddE 0 1 5] ++ [CopyV 0; DelV 0; DelV 2]) = UB /\
  (exists w, run start ([NewV 1; NewV 2; AddE 0 1 5] ++ [CopyV 1; DelV 1; DelV 2; DelV 0]) = Ok w).
Proof. split; [cbn; intuition lia|]. repeat (split; [reflexivity|]). eexists. reflexivity. Qed.
Print Assumptions C45_ids.
Print Assumptions C45_degree_sums.
Print Assumptions C46_edge_lifetime.
Print Assumptions C46_copy.
Print Assumptions C45_graph.
Print Assumptions C45_listed_once.
Print Assumptions C46_assign.
Print Assumptions C46_self_assign.
Print Assumptions C46_dangling_in.
