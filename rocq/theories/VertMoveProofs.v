From Verif Require Import Base GraphModel GraphSpec GraphProofs VertMoveModel VertMoveSpec.
Local Open Scope nat_scope.

(** ** outcomes *)
Definition ok_or_ub {A} (m : outcome A) : Prop := (exists a, m = Ok a) \/ m = UB.
Lemma oub_bind {A B} (m : outcome A) (f : A -> outcome B) : ok_or_ub m -> (forall a, ok_or_ub (f a)) -> ok_or_ub (bind m f).
Proof. intros [(a & ->)| ->] H; cbn [bind]; [apply H|now right]. Qed.
Lemma oub_ok {A} (a : A) : ok_or_ub (Ok a). Proof. left. eauto. Qed.
Lemma oub_getv w v : ok_or_ub (getv w v).
Proof. unfold getv. destruct (nth_error (vs w) v) as [x|]; [|now right]. destruct (vlive x); [apply oub_ok|now right]. Qed.
Lemma oub_gete w v : ok_or_ub (gete w v).
Proof. unfold gete. destruct (nth_error (es w) v) as [x|]; [|now right]. destruct (elive x); [apply oub_ok|now right]. Qed.
Ltac oub := repeat first [apply oub_ok | apply oub_getv | apply oub_gete | (apply oub_bind; [|intros ?])].
Lemma oub_step w o : ok_or_ub (step w o).
Proof.
  destruct o; cbn [step]; unfold add_edge, destroy, copy_vertex, assign_vertex, copy_edge, assign_edge; oub.
  destruct (delete_all_outcome (outE a) w) as [(w' & ->)| ->]; [apply oub_ok|now right].
Qed.
Lemma oub_run os : forall w, ok_or_ub (run w os).
Proof. induction os as [|o os IH]; intros w; cbn [run]; [apply oub_ok|]. apply oub_bind; [apply oub_step|apply IH]. Qed.
Lemma oub_xrun p : forall w, ok_or_ub (xrun w p).
Proof.
  induction p as [|o p IH]; intros w; cbn [xrun]; [apply oub_ok|]. apply oub_bind; [|apply IH].
  destruct o; cbn [xstep]; unfold set_val, set_use, swap, grow; try apply oub_run; try apply oub_step; oub.
Qed.
Lemma run_app os os' : forall w, run w (os ++ os') = (w <- run w os ;; run w os').
Proof. induction os as [|o os IH]; intros w; cbn [run app bind]; [reflexivity|]. destruct (step w o); cbn [bind]; auto. Qed.
Lemma xrun_app p q : forall w, xrun w (p ++ q) = (w <- xrun w p ;; xrun w q).
Proof. induction p as [|o p IH]; intros w; cbn [xrun app bind]; [reflexivity|]. destruct (xstep w o); cbn [bind]; auto. Qed.

(** ** vertices holding an edge *)
Lemma getv_some w v x : nth_error (vs w) v = Some x -> vlive x = true -> getv w v = Ok x.
Proof. intros E L. unfold getv. now rewrite E, L. Qed.
Lemma getv_bound w v x : getv w v = Ok x -> v < length (vs w).
Proof. intros G. apply getv_ok in G. apply nth_error_Some. destruct G. congruence. Qed.
Lemma getv_setv_eq w v x : v < length (vs w) -> vlive x = true -> getv (setv w v x) v = Ok x.
Proof. intros L LV. apply getv_some; [|exact LV]. cbn. now apply nth_error_upd_eq. Qed.
Lemma getv_setv_neq w u v x : u <> v -> getv (setv w u x) v = getv w v.
Proof. intros N. unfold getv. cbn. now rewrite nth_error_upd_neq. Qed.
Lemma getv_push w x n1 n2 es' v : v < length (vs w) -> getv (World (vs w ++ [x]) es' n1 n2) v = getv w v.
Proof. intros L. unfold getv. cbn. now rewrite nth_error_app1. Qed.
Lemma getv_es v0 e1 e2 a b c d v : getv (World v0 e1 a b) v = getv (World v0 e2 c d) v.
Proof. reflexivity. Qed.
Lemma getv_vs w w' v : vs w = vs w' -> getv w v = getv w' v.
Proof. intros E. unfold getv. now rewrite E. Qed.

(** what one call does to the holders of an edge *)
Lemma step_holds w o w' v e : step w o = Ok w' -> holds w v e -> (forall s, o <> AssignV v s) -> o <> DelV v -> holds w' v e.
Proof.
  intros H (x & G & I) NA ND. pose proof (getv_bound _ _ _ G) as B. destruct o as [z|a b z|a|a|d s|a|d s]; cbn [step] in H.
  - injection H as <-. exists x. split; [|exact I]. unfold new_vertex. now rewrite getv_push.
  - unfold add_edge in H. apply bind_ok in H. destruct H as (xa & Ga & H). apply bind_ok in H. destruct H as (yb & Gb & H). injection H as <-.
    set (w1 := setv (new_edge w a b z) a _) in *.
    assert (H1 : holds w1 v e).
    { unfold w1. destruct (Nat.eq_dec a v) as [->|N].
      - assert (xa = x) as -> by congruence. eexists. split; [apply getv_setv_eq; [exact B|cbn; now apply getv_ok in G]|]. cbn. apply in_or_app. now left.
      - exists x. split; [|exact I]. rewrite getv_setv_neq by assumption. exact G. }
    destruct H1 as (x1 & G1 & I1). destruct (Nat.eq_dec b v) as [->|N].
    + assert (yb = x1) as -> by congruence. eexists. split; [apply getv_setv_eq; [apply (getv_bound _ _ _ G1)|cbn; now apply getv_ok in G1]|]. exact I1.
    + exists x1. split; [|exact I1]. now rewrite getv_setv_neq.
  - unfold destroy in H. apply bind_ok in H. destruct H as (xa & Ga & H). apply bind_ok in H. destruct H as (w1 & D & H).
    apply bind_ok in H. destruct H as (x1 & G1 & H). injection H as <-. exists x. split; [|exact I].
    rewrite getv_setv_neq by congruence. rewrite (getv_vs w1 w) by (now apply delete_all_vs in D). exact G.
  - unfold copy_vertex in H. apply bind_ok in H. destruct H as (xa & Ga & H). injection H as <-. exists x. split; [|exact I]. now rewrite getv_push.
  - unfold assign_vertex in H. apply bind_ok in H. destruct H as (xd & Gd & H). apply bind_ok in H. destruct H as (ys & Gs & H). cbv zeta in H.
    apply bind_ok in H. destruct H as (xd1 & Gd1 & H). apply bind_ok in H. destruct H as (ys1 & Gs1 & H). injection H as <-.
    assert (d <> v) by (intros ->; now apply (NA s)). exists x. split; [|exact I]. now rewrite !getv_setv_neq.
  - unfold copy_edge in H. apply bind_ok in H. destruct H as (xa & Ga & H). injection H as <-. exists x. split; [|exact I]. exact G.
  - unfold assign_edge in H. apply bind_ok in H. destruct H as (xa & Ga & H). apply bind_ok in H. destruct H as (xb & Gb & H). injection H as <-. exists x. split; [|exact I]. exact G.
Qed.
Lemma step_freed w o w' e : step w o = Ok w' -> freed w e -> freed w' e.
Proof.
  intros H (x & E & L). destruct o as [z|a b z|a|a|d s|a|d s]; cbn [step] in H.
  - injection H as <-. now exists x.
  - unfold add_edge in H. apply bind_ok in H. destruct H as (xa & Ga & H). apply bind_ok in H. destruct H as (yb & Gb & H). injection H as <-.
    exists x. split; [|exact L]. cbn. rewrite nth_error_app1; [exact E|]. apply nth_error_Some. congruence.
  - unfold destroy in H. apply bind_ok in H. destruct H as (xa & Ga & H). apply bind_ok in H. destruct H as (w1 & D & H).
    apply bind_ok in H. destruct H as (x1 & G1 & H). injection H as <-. apply (delete_all_dead _ _ _ e D). left. now exists x.
  - unfold copy_vertex in H. apply bind_ok in H. destruct H as (xa & Ga & H). injection H as <-. now exists x.
  - unfold assign_vertex in H. apply bind_ok in H. destruct H as (xd & Gd & H). apply bind_ok in H. destruct H as (ys & Gs & H). cbv zeta in H.
    apply bind_ok in H. destruct H as (xd1 & Gd1 & H). apply bind_ok in H. destruct H as (ys1 & Gs1 & H). injection H as <-. now exists x.
  - unfold copy_edge in H. apply bind_ok in H. destruct H as (xa & Ga & H). injection H as <-. exists x. split; [|exact L].
    cbn. rewrite nth_error_app1; [exact E|]. apply nth_error_Some. congruence.
  - unfold assign_edge in H. apply bind_ok in H. destruct H as (xa & Ga & H). apply bind_ok in H. destruct H as (xb & Gb & H). injection H as <-.
    exists x. split; [|exact L]. cbn. rewrite nth_error_upd_neq; [exact E|]. intros ->. apply gete_ok in Ga. destruct Ga. congruence.
Qed.
Lemma destroy_frees w v w' e : step w (DelV v) = Ok w' -> holds w v e -> freed w' e.
Proof.
  intros H (x & G & I). cbn [step] in H. unfold destroy in H. rewrite G in H. cbn [bind] in H.
  apply bind_ok in H. destruct H as (w1 & D & H). apply bind_ok in H. destruct H as (x1 & G1 & H). injection H as <-.
  apply (delete_all_dead _ _ _ e D). now right.
Qed.
Lemma delete_dead_ub l : forall w e, In e l -> freed w e -> delete_all w l = UB.
Proof.
  induction l as [|d l IH]; intros w e I F; [destruct I|]. cbn [delete_all]. destruct (oub_gete w d) as [(x & G)| ->]; [|reflexivity].
  rewrite G. cbn [bind]. pose proof (gete_ok _ _ _ G) as [N L]. destruct F as (y & Ny & Ly).
  destruct I as [->|I]; [congruence|]. apply (IH _ e I). exists y. split; [|exact Ly]. cbn. rewrite nth_error_upd_neq; [exact Ny|]. intros ->. congruence.
Qed.
Lemma destroy_doomed w v e : holds w v e -> freed w e -> step w (DelV v) = UB.
Proof.
  intros (x & G & I) F. cbn [step]. unfold destroy. rewrite G. cbn [bind]. rewrite (delete_dead_ub _ w e I F). reflexivity.
Qed.

(** ** two holders of one edge *)
Section Shared.
Variables (u v e : nat).
Hypothesis Huv : u <> v.
(** [du], [dv]: destroyed already *)
Definition sh (du dv : bool) (w : world) : Prop :=
  (du = false -> holds w u e) /\ (dv = false -> holds w v e) /\ (du || dv = true -> freed w e) /\ du && dv = false.
Definition isdel (v : nat) (o : op) : bool := match o with DelV a => a =? v | _ => false end.
Definition fresh_for (o : op) : Prop := forall s, o <> AssignV u s /\ o <> AssignV v s.
Lemma step_sh o w w' du dv : fresh_for o -> step w o = Ok w' -> sh du dv w -> sh (du || isdel u o) (dv || isdel v o) w'.
Proof.
  intros F H (A & B & C & D).
  assert (Hd : isdel u o = true -> o = DelV u) by (destruct o; cbn; try discriminate; intros E; apply Nat.eqb_eq in E; now subst).
  assert (Hd' : isdel v o = true -> o = DelV v) by (destruct o; cbn; try discriminate; intros E; apply Nat.eqb_eq in E; now subst).
  assert (Nu : isdel u o = false -> o <> DelV u) by (intros E ->; cbn in E; rewrite Nat.eqb_refl in E; discriminate).
  assert (Nv : isdel v o = false -> o <> DelV v) by (intros E ->; cbn in E; rewrite Nat.eqb_refl in E; discriminate).
  split; [|split; [|split]].
  - intros E. apply orb_false_iff in E. destruct E as [-> E]. apply (step_holds w o); auto; try now apply F.
  - intros E. apply orb_false_iff in E. destruct E as [-> E]. apply (step_holds w o); auto; try now apply F.
  - intros E. destruct (du || dv) eqn:Ed; [apply (step_freed w o); auto|].
    apply orb_false_iff in Ed. destruct Ed as [-> ->]. cbn [orb] in E. apply orb_true_iff in E. destruct E as [E|E].
    + apply Hd in E. subst o. apply (destroy_frees w u); auto.
    + apply Hd' in E. subst o. apply (destroy_frees w v); auto.
  - destruct (isdel u o) eqn:E1; [|destruct (isdel v o) eqn:E2].
    + assert (isdel v o = false) as -> by (rewrite (Hd eq_refl); cbn; now apply Nat.eqb_neq). rewrite orb_false_r.
      destruct dv; [|apply andb_false_r]. destruct du; [discriminate|].
      rewrite (Hd eq_refl) in H. rewrite (destroy_doomed w u e) in H; [discriminate|auto|apply C; reflexivity].
    + rewrite orb_false_r. destruct du; [|reflexivity]. destruct dv; [discriminate|].
      rewrite (Hd' eq_refl) in H. rewrite (destroy_doomed w v e) in H; [discriminate|auto|apply C; reflexivity].
    + rewrite !orb_false_r. exact D.
Qed.
Lemma run_sh os : forall w w' du dv, Forall fresh_for os -> run w os = Ok w' -> sh du dv w ->
  sh (du || existsb (isdel u) os) (dv || existsb (isdel v) os) w'.
Proof.
  induction os as [|o os IH]; intros w w' du dv F H S; cbn [run existsb] in *.
  - injection H as <-. now rewrite !orb_false_r.
  - apply bind_ok in H. destruct H as (w1 & H1 & H). inversion F; subst. rewrite !orb_assoc.
    apply (IH w1); [assumption|assumption|]. now apply (step_sh o w).
Qed.
Definition xdel (v : nat) (o : xop) : bool :=
  match o with Op o => isdel v o | Grow l => existsb (Nat.eqb v) l | _ => false end.
Lemma set_sh w a x du dv : getv w a = Ok x -> forall y, vlive y = vlive x -> outE y = outE x -> sh du dv w -> sh du dv (setv w a y).
Proof.
  intros G y L O (A & B & C & D). pose proof (getv_bound _ _ _ G) as Bd.
  assert (K : forall t, holds w t e -> holds (setv w a y) t e).
  { intros t (z & Gz & I). destruct (Nat.eq_dec a t) as [->|N].
    - assert (z = x) as -> by congruence. exists y. split; [|now rewrite O]. apply getv_setv_eq; [assumption|]. rewrite L. now apply getv_ok in G.
    - exists z. split; [|exact I]. now rewrite getv_setv_neq. }
  split; [auto|split; [auto|split; [|assumption]]]. intros E. destruct (C E) as (z & Ez & Lz). now exists z.
Qed.
Lemma isdel_copies t l : existsb (isdel t) (map CopyV l) = false.
Proof. induction l; cbn; auto. Qed.
Lemma isdel_dels t l : existsb (isdel t) (map DelV l) = existsb (Nat.eqb t) l.
Proof. induction l as [|a l IH]; cbn; [reflexivity|]. rewrite IH. f_equal. apply Nat.eqb_sym. Qed.
Lemma xstep_sh o w w' du dv : u < length (vs w) -> v < length (vs w) -> ~ overwrites u [o] -> ~ overwrites v [o] ->
  xstep w o = Ok w' -> sh du dv w -> sh (du || xdel u o) (dv || xdel v o) w'.
Proof.
  intros Lu Lv Ou Ov H S. destruct o as [o|a x|a b|a b|l]; cbn [xstep xdel] in *.
  - apply (step_sh o w); auto. intros s. split; intros ->; [apply Ou|apply Ov]; exists s; left; now left.
  - unfold set_val in H. apply bind_ok in H. destruct H as (z & G & H). injection H as <-. rewrite !orb_false_r. now apply (set_sh w a z).
  - unfold set_use in H. apply bind_ok in H. destruct H as (z & G & H). injection H as <-. rewrite !orb_false_r. now apply (set_sh w a z).
  - unfold swap in H.
    assert (Na : a <> u /\ a <> v /\ b <> u /\ b <> v).
    { repeat split; intros ->; [apply Ou|apply Ov|apply Ou|apply Ov]; eexists; right; [left|left|right|right]; now left. }
    destruct Na as (N1 & N2 & N3 & N4).
    pose proof (fun F => run_sh _ w w' du dv F H S) as R. cbn [existsb isdel] in R.
    rewrite (proj2 (Nat.eqb_neq (length (vs w)) u)) in R by lia. rewrite (proj2 (Nat.eqb_neq (length (vs w)) v)) in R by lia.
    cbn [orb] in R. apply R. repeat constructor; try congruence.
  - unfold grow in H. pose proof (fun F => run_sh _ w w' du dv F H S) as R.
    rewrite !existsb_app, !isdel_copies, !isdel_dels in R. cbn [orb] in R. apply R. clear.
    apply Forall_app. split; apply Forall_map, Forall_forall; intros a _ s; split; discriminate.
Qed.
End Shared.
Lemma step_len w o w' : step w o = Ok w' -> length (vs w) <= length (vs w').
Proof.
  intros H. destruct o as [z|a b z|a|a|d s|a|d s]; cbn [step] in H.
  - injection H as <-. cbn. rewrite app_length. lia.
  - unfold add_edge in H. apply bind_ok in H. destruct H as (xa & Ga & H). apply bind_ok in H. destruct H as (yb & Gb & H). injection H as <-. cbn. rewrite !upd_length. lia.
  - unfold destroy in H. apply bind_ok in H. destruct H as (xa & Ga & H). apply bind_ok in H. destruct H as (w1 & D & H).
    apply bind_ok in H. destruct H as (x1 & G1 & H). injection H as <-. cbn. rewrite upd_length. apply delete_all_vs in D. now rewrite D.
  - unfold copy_vertex in H. apply bind_ok in H. destruct H as (xa & Ga & H). injection H as <-. cbn. rewrite app_length. lia.
  - unfold assign_vertex in H. apply bind_ok in H. destruct H as (xd & Gd & H). apply bind_ok in H. destruct H as (ys & Gs & H). cbv zeta in H.
    apply bind_ok in H. destruct H as (xd1 & Gd1 & H). apply bind_ok in H. destruct H as (ys1 & Gs1 & H). injection H as <-. cbn. now rewrite !upd_length.
  - unfold copy_edge in H. apply bind_ok in H. destruct H as (xa & Ga & H). injection H as <-. cbn. lia.
  - unfold assign_edge in H. apply bind_ok in H. destruct H as (xa & Ga & H). apply bind_ok in H. destruct H as (xb & Gb & H). injection H as <-. cbn. lia.
Qed.
Lemma run_len os : forall w w', run w os = Ok w' -> length (vs w) <= length (vs w').
Proof.
  induction os as [|o os IH]; intros w w' H; cbn [run] in H; [injection H as <-; lia|].
  apply bind_ok in H. destruct H as (w1 & H1 & H). apply step_len in H1. apply IH in H. lia.
Qed.
Lemma xstep_len w o w' : xstep w o = Ok w' -> length (vs w) <= length (vs w').
Proof.
  intros H. destruct o as [o|a x|a b|a b|l]; cbn [xstep] in H; [now apply step_len in H| | |now apply run_len in H|now apply run_len in H].
  - unfold set_val in H. apply bind_ok in H. destruct H as (z & G & H). injection H as <-. cbn. now rewrite upd_length.
  - unfold set_use in H. apply bind_ok in H. destruct H as (z & G & H). injection H as <-. cbn. now rewrite upd_length.
Qed.
Lemma ow_cons v o p : ~ overwrites v (o :: p) -> ~ overwrites v [o] /\ ~ overwrites v p.
Proof.
  intros H. split; intros (s & K); apply H; exists s.
  - destruct K as [[->|[]]|[[->|[]]|[->|[]]]]; [left|right; left|right; right]; now left.
  - destruct K as [K|[K|K]]; [left|right; left|right; right]; now right.
Qed.
Lemma xrun_sh u v e p : u <> v -> forall w w' du dv, u < length (vs w) -> v < length (vs w) ->
  ~ overwrites u p -> ~ overwrites v p -> xrun w p = Ok w' -> sh u v e du dv w ->
  sh u v e (du || existsb (xdel u) p) (dv || existsb (xdel v) p) w'.
Proof.
  intros N. induction p as [|o p IH]; intros w w' du dv Lu Lv Ou Ov H S; cbn [xrun existsb] in *.
  - injection H as <-. now rewrite !orb_false_r.
  - apply bind_ok in H. destruct H as (w1 & H1 & H). apply ow_cons in Ou. apply ow_cons in Ov. destruct Ou as [Ou Ou'], Ov as [Ov Ov'].
    pose proof (xstep_len _ _ _ H1). rewrite !orb_assoc.
    apply (IH w1); try assumption; try lia. now apply (xstep_sh u v e N o w).
Qed.
Lemma destroys_xdel v p : destroys v p -> existsb (xdel v) p = true.
Proof.
  intros [I|(l & I & J)]; apply existsb_exists; eexists; (split; [exact I|]); cbn.
  - apply Nat.eqb_refl.
  - apply existsb_exists. exists v. split; [exact J|apply Nat.eqb_refl].
Qed.
Lemma shared_destroyed w u v e p : u <> v -> holds w u e -> holds w v e -> ~ overwrites u p -> ~ overwrites v p ->
  destroys u p -> destroys v p -> xrun w p = UB.
Proof.
  intros N Hu Hv Ou Ov Du Dv. destruct (oub_xrun p w) as [(w' & H)|H]; [|exact H]. exfalso.
  assert (Lu : u < length (vs w)) by (destruct Hu as (x & G & _); now apply getv_bound in G).
  assert (Lv : v < length (vs w)) by (destruct Hv as (x & G & _); now apply getv_bound in G).
  pose proof (xrun_sh u v e p N w w' false false Lu Lv Ou Ov H) as S.
  rewrite (destroys_xdel u p Du), (destroys_xdel v p Dv) in S.
  destruct S as (_ & _ & _ & S); [|discriminate]. split; [auto|split; [auto|split; [discriminate|reflexivity]]].
Qed.

(** ** a holder of a freed edge *)
Lemma step_doomed v e o w w' : (forall s, o <> AssignV v s) -> step w o = Ok w' -> holds w v e -> freed w e ->
  isdel v o = false /\ holds w' v e /\ freed w' e.
Proof.
  intros A H Ho Fr. assert (ND : o <> DelV v) by (intros ->; rewrite (destroy_doomed w v e Ho Fr) in H; discriminate).
  split; [destruct o; try reflexivity; cbn; apply Nat.eqb_neq; congruence|]. split; [now apply (step_holds w o)|now apply (step_freed w o)].
Qed.
Lemma run_doomed v e os : forall w w', Forall (fun o => forall s, o <> AssignV v s) os -> run w os = Ok w' -> holds w v e -> freed w e ->
  existsb (isdel v) os = false /\ holds w' v e /\ freed w' e.
Proof.
  induction os as [|o os IH]; intros w w' F H Ho Fr; cbn [run existsb] in *; [injection H as <-; auto|].
  apply bind_ok in H. destruct H as (w1 & H1 & H). inversion F as [|? ? F1 F2]; subst.
  destruct (step_doomed v e o w w1 F1 H1 Ho Fr) as (D & Ho1 & Fr1). rewrite D. cbn [orb]. now apply (IH w1).
Qed.
Lemma set_doomed v e w a x : getv w a = Ok x -> forall y, vlive y = vlive x -> outE y = outE x -> holds w v e -> freed w e ->
  holds (setv w a y) v e /\ freed (setv w a y) e.
Proof.
  intros G y L O Ho Fr. pose proof (set_sh (S v) v e w a x true false G y L O) as S.
  destruct S as (_ & B & C & _); [split; [discriminate|split; [auto|split; [auto|reflexivity]]]|]. split; [now apply B|now apply C].
Qed.
Lemma xstep_doomed v e o w w' : ~ overwrites v [o] -> xstep w o = Ok w' -> holds w v e -> freed w e ->
  xdel v o = false /\ holds w' v e /\ freed w' e.
Proof.
  intros Ov H Ho Fr. assert (Lv : v < length (vs w)) by (destruct Ho as (x & G & _); now apply getv_bound in G).
  destruct o as [o|a x|a b|a b|l]; cbn [xstep xdel] in *.
  - apply (step_doomed v e o w w'); auto. intros s ->. apply Ov. exists s. left. now left.
  - unfold set_val in H. apply bind_ok in H. destruct H as (z & G & H). injection H as <-. split; [reflexivity|]. now apply (set_doomed v e w a z).
  - unfold set_use in H. apply bind_ok in H. destruct H as (z & G & H). injection H as <-. split; [reflexivity|]. now apply (set_doomed v e w a z).
  - assert (N1 : a <> v) by (intros ->; apply Ov; exists b; right; left; now left).
    assert (N2 : b <> v) by (intros ->; apply Ov; exists a; right; right; now left).
    unfold swap in H. pose proof (fun F => run_doomed v e _ w w' F H Ho Fr) as (_ & K); [|auto].
    repeat constructor; congruence.
  - unfold grow in H. pose proof (fun F => run_doomed v e _ w w' F H Ho Fr) as (D & K).
    + apply Forall_app. split; apply Forall_map, Forall_forall; intros t _ s; discriminate.
    + rewrite existsb_app, isdel_copies, isdel_dels in D. auto.
Qed.
Lemma doomed_destroyed v e p : forall w, holds w v e -> freed w e -> ~ overwrites v p -> destroys v p -> xrun w p = UB.
Proof.
  intros w Ho Fr Ov Dv. destruct (oub_xrun p w) as [(w' & H)|H]; [|exact H]. exfalso. apply destroys_xdel in Dv.
  revert w Ho Fr Ov H. induction p as [|o p IH]; intros w Ho Fr Ov H; cbn [xrun existsb] in *; [discriminate|].
  apply bind_ok in H. destruct H as (w1 & H1 & H). apply ow_cons in Ov. destruct Ov as [O1 O2].
  destruct (xstep_doomed v e o w w1 O1 H1 Ho Fr) as (D & Ho1 & Fr1). rewrite D in Dv. cbn [orb] in Dv. now apply (IH Dv w1).
Qed.
Lemma xstep_freed w o w' e : xstep w o = Ok w' -> freed w e -> freed w' e.
Proof.
  assert (R : forall os w w', run w os = Ok w' -> freed w e -> freed w' e).
  { induction os as [|q os IH]; intros x x' H F; cbn [run] in H; [injection H as <-; exact F|].
    apply bind_ok in H. destruct H as (w1 & H1 & H). apply (IH w1); [exact H|]. now apply (step_freed x q). }
  intros H F. destruct o as [o|a x|a b|a b|l]; cbn [xstep] in H; [now apply (step_freed w o)| | |exact (R _ w w' H F)|exact (R _ w w' H F)].
  - unfold set_val in H. apply bind_ok in H. destruct H as (z & G & H). injection H as <-. exact F.
  - unfold set_use in H. apply bind_ok in H. destruct H as (z & G & H). injection H as <-. exact F.
Qed.

(** ** careful programs *)
Definition own (g : list (nat * nat)) (n : nat) (dead : list nat) (w : world) : Prop :=
  n <= length (vs w) /\ length (es w) = length g /\
  (forall v, v < n -> exists x, nth_error (vs w) v = Some x /\ (vlive x = true <-> ~ In v dead) /\ (~ In v dead -> outE x = leaving g v)) /\
  (forall i a b, nth_error g i = Some (a, b) -> a < n /\
     exists x, nth_error (es w) i = Some x /\ efrom x = a /\ eto x = b /\ (elive x = true <-> ~ In a dead)).
Lemma own_get g n dead w v : own g n dead w -> v < n -> ~ In v dead -> exists x, getv w v = Ok x /\ outE x = leaving g v.
Proof.
  intros (_ & _ & HV & _) L D. destruct (HV v L) as (x & E & A & B). exists x. split; [apply getv_some; [exact E|now apply A]|now apply B].
Qed.
Lemma bare_leaving g v : bare g v -> leaving g v = [].
Proof. intros B. apply leaving_oob. intros i a b E ->. apply (B b). now apply nth_error_In in E. Qed.
(** writing a vertex that keeps its list and its life *)
Lemma own_setv g n dead w v x y : own g n dead w -> getv w v = Ok x -> vlive y = true -> outE y = outE x -> own g n dead (setv w v y).
Proof.
  intros (L & LE & HV & HE) G LY O. split; [cbn; now rewrite upd_length|]. split; [exact LE|]. split; [|exact HE].
  intros t Lt. destruct (HV t Lt) as (z & E & A & B). cbn. destruct (Nat.eq_dec v t) as [->|N].
  - rewrite nth_error_upd_eq by lia. exists y. split; [reflexivity|]. apply getv_ok in G. destruct G as [G1 G2].
    assert (z = x) as -> by congruence. split; [rewrite LY; rewrite G2 in A; exact A|]. intros D. rewrite O. now apply B.
  - rewrite nth_error_upd_neq by assumption. now exists z.
Qed.
Lemma own_push g n dead w x n1 : own g n dead w -> own g n dead (World (vs w ++ [x]) (es w) n1 (nextE w)).
Proof.
  intros (L & LE & HV & HE). split; [cbn; rewrite app_length; lia|]. split; [exact LE|]. split; [|exact HE].
  intros t Lt. cbn. rewrite nth_error_app1 by lia. now apply HV.
Qed.
(** the newest vertex becomes one of the n *)
Lemma own_more g n dead w x : own g n dead w -> length (vs w) = S n -> nth_error (vs w) n = Some x -> vlive x = true -> outE x = [] ->
  (forall t, In t dead -> t < n) -> own g (S n) dead w.
Proof.
  intros (L & LE & HV & HE) LN E LX O DB. split; [lia|]. split; [exact LE|]. split.
  - intros t Lt. destruct (Nat.eq_dec t n) as [->|N]; [|apply HV; lia]. exists x. split; [exact E|].
    split; [split; [intros _ I; apply DB in I; lia|auto]|]. intros _. rewrite O. symmetry. apply leaving_oob.
    intros i a b Ei. destruct (HE i a b Ei). lia.
  - intros i a b Ei. destruct (HE i a b Ei) as [A H]. split; [lia|exact H].
Qed.
Lemma own_destroy g n dead w v : own g n dead w -> v < n -> ~ In v dead ->
  exists w', step w (DelV v) = Ok w' /\ own g n (v :: dead) w' /\ length (vs w') = length (vs w) /\
    (forall t, n <= t -> getv w' t = getv w t).
Proof.
  intros O Lv Dv. pose proof O as (L & LE & HV & HE). destruct (own_get _ _ _ _ v O Lv Dv) as (x & G & OX).
  destruct (delete_all_ok (outE x) w) as (w1 & D & A1 & A2 & A3 & A4 & A5).
  - rewrite OX. apply leaving_nodup.
  - intros e I. rewrite OX in I. apply leaving_in in I. destruct I as (b & E). destruct (HE e v b E) as (_ & y & Ey & _ & _ & Ly).
    exists y. split; [exact Ey|now apply Ly].
  - cbn [step]. unfold destroy. rewrite G. cbn [bind]. rewrite D. cbn [bind]. rewrite (getv_vs w1 w v A1), G. cbn [bind].
    eexists. split; [reflexivity|]. split; [|split; [cbn; now rewrite upd_length, A1|]].
    + split; [cbn; now rewrite upd_length, A1|]. split; [cbn; congruence|]. split.
      * intros t Lt. cbn. rewrite A1. destruct (Nat.eq_dec v t) as [->|N].
        -- rewrite nth_error_upd_eq by lia. eexists. split; [reflexivity|]. cbn [vlive outE]. split; [split; [discriminate|intros K; exfalso; apply K; now left]|].
           intros K. exfalso. apply K. now left.
        -- rewrite nth_error_upd_neq by assumption. destruct (HV t Lt) as (z & E & P & Q). exists z. split; [exact E|]. cbn [In].
           split; [rewrite P; tauto|]. intros K. apply Q. tauto.
      * intros i a b E. destruct (HE i a b E) as (La & y & Ey & F1 & F2 & F3). split; [exact La|].
        destruct (A5 i y Ey) as (z & Ez & Z1 & Z2 & Z3 & Z4). exists z. cbn. split; [exact Ez|]. split; [congruence|]. split; [congruence|].
        rewrite Z4, F3, OX, leaving_in. split.
        -- intros [K1 K2] [->|I]; [|contradiction]. apply K2. eauto.
        -- intros K. split; [tauto|]. intros (b' & E'). apply K. left. congruence.
    + intros t Lt. rewrite getv_setv_neq by lia. now apply getv_vs.
Qed.
Lemma own_add g n dead w u v x : own g n dead w -> u < n -> ~ In u dead -> v < n -> ~ In v dead ->
  exists w', step w (AddE u v x) = Ok w' /\ own (g ++ [(u, v)]) n dead w' /\ length (vs w') = length (vs w).
Proof.
  intros O Lu Du Lv Dv. pose proof O as (L & LE & HV & HE). destruct (own_get _ _ _ _ u O Lu Du) as (xu & Gu & Ou).
  destruct (own_get _ _ _ _ v O Lv Dv) as (xv & Gv & Ov). cbn [step]. unfold add_edge. rewrite Gu. cbn [bind].
  set (xu' := V (vlive xu) (vval xu) (vuse xu) (vid xu) (inE xu) (outE xu ++ [length (es w)])).
  set (w1 := setv (new_edge w u v x) u xu').
  assert (O1 : own (g ++ [(u, v)]) n dead w1).
  { pose proof (getv_ok _ _ _ Gu) as [Eu Lvu]. split; [cbn; now rewrite upd_length|]. split; [cbn; rewrite !app_length, LE; reflexivity|]. split.
    - intros t Lt. cbn. destruct (Nat.eq_dec u t) as [->|N].
      + rewrite nth_error_upd_eq by lia. exists xu'. split; [reflexivity|]. cbn [vlive outE xu']. split; [rewrite Lvu; tauto|].
        intros _. rewrite leaving_snoc, Nat.eqb_refl, Ou, LE. reflexivity.
      + rewrite nth_error_upd_neq by assumption. destruct (HV t Lt) as (z & E & P & Q). exists z. split; [exact E|]. split; [exact P|].
        intros K. rewrite leaving_snoc, (proj2 (Nat.eqb_neq u t) N), app_nil_r. now apply Q.
    - intros i a b E. cbn. apply nth_error_snoc in E. destruct E as [E|[-> [= -> ->]]].
      + destruct (HE i a b E) as (La & y & Ey & F). split; [exact La|]. exists y. split; [|exact F]. rewrite nth_error_app1; [exact Ey|].
        apply nth_error_Some. congruence.
      + split; [exact Lu|]. eexists. rewrite <- LE, nth_error_app2, Nat.sub_diag by lia. cbn. split; [reflexivity|]. cbn. tauto. }
  destruct (own_get _ _ _ _ v O1 Lv Dv) as (y & Gy & Oy). rewrite Gy. cbn [bind]. eexists. split; [reflexivity|].
  split; [|cbn; now rewrite !upd_length]. apply (own_setv _ _ _ _ _ y); [exact O1|exact Gy| |reflexivity]. cbn. now apply getv_ok in Gy.
Qed.
Lemma own_copy g n dead w v : own g n dead w -> length (vs w) = n -> v < n -> ~ In v dead -> bare g v -> (forall t, In t dead -> t < n) ->
  exists w', step w (CopyV v) = Ok w' /\ own g (S n) dead w' /\ length (vs w') = S n.
Proof.
  intros O LN Lv Dv B DB. destruct (own_get _ _ _ _ v O Lv Dv) as (x & G & OX). cbn [step]. unfold copy_vertex. rewrite G. cbn [bind].
  eexists. split; [reflexivity|]. assert (LL : length (vs w ++ [V true (vval x) (vuse x) (nextV w) (inE x) (outE x)]) = S n) by (rewrite app_length, LN; cbn; lia).
  split; [|exact LL]. eapply own_more; [now apply own_push|exact LL| | | |exact DB].
  - cbn. rewrite <- LN, nth_error_app2, Nat.sub_diag by lia. reflexivity.
  - reflexivity.
  - cbn. rewrite OX. now apply bare_leaving.
Qed.
Lemma own_assign g n dead w d s : own g n dead w -> d < n -> ~ In d dead -> bare g d -> s < n -> ~ In s dead -> bare g s ->
  exists w', step w (AssignV d s) = Ok w' /\ own g n dead w' /\ length (vs w') = length (vs w).
Proof.
  intros O Ld Dd Bd Ls Ds Bs. destruct (own_get _ _ _ _ d O Ld Dd) as (x & Gx & Ox). destruct (own_get _ _ _ _ s O Ls Ds) as (y & Gy & Oy).
  rewrite bare_leaving in Ox, Oy by assumption. cbn [step]. unfold assign_vertex. rewrite Gx. cbn [bind]. rewrite Gy. cbn [bind]. cbv zeta.
  set (w1 := setv w d _). assert (O1 : own g n dead w1) by (apply (own_setv _ _ _ _ _ x); [assumption|assumption|cbn; now apply getv_ok in Gx|now rewrite Ox]).
  destruct (own_get _ _ _ _ d O1 Ld Dd) as (x1 & Gx1 & Ox1). destruct (own_get _ _ _ _ s O1 Ls Ds) as (y1 & Gy1 & Oy1).
  rewrite bare_leaving in Ox1, Oy1 by assumption. rewrite Gx1. cbn [bind]. rewrite Gy1. cbn [bind]. eexists. split; [reflexivity|].
  split; [|cbn; now rewrite !upd_length]. apply (own_setv _ _ _ _ _ x1); [assumption|assumption|cbn; now apply getv_ok in Gx1|cbn; congruence].
Qed.
Lemma own_copies g dead l : forall n w, own g n dead w -> length (vs w) = n -> (forall t, In t dead -> t < n) ->
  Forall (fun v => v < n /\ ~ In v dead) l -> Forall (bare g) l ->
  exists w', run w (map CopyV l) = Ok w' /\ own g (n + length l) dead w' /\ length (vs w') = n + length l.
Proof.
  induction l as [|v l IH]; intros n w O LN DB F B; cbn [map run length].
  - exists w. rewrite Nat.add_0_r. auto.
  - inversion F as [|? ? [F1 F2] F']; subst. inversion B as [|? ? B1 B']; subst.
    destruct (own_copy _ _ _ _ v O eq_refl F1 F2 B1 DB) as (w1 & -> & O1 & L1). cbn [bind].
    destruct (IH _ w1 O1 L1) as (w2 & E & O2 & L2); [intros t I; specialize (DB t I); lia| |exact B'|].
    + eapply Forall_impl; [|exact F']. cbn. intros a [? ?]. split; [lia|assumption].
    + exists w2. rewrite <- plus_n_Sm. auto.
Qed.
Lemma own_dels g n l : forall dead w, own g n dead w -> NoDup l -> Forall (fun v => v < n /\ ~ In v dead) l ->
  exists w', run w (map DelV l) = Ok w' /\ own g n (rev l ++ dead) w' /\ length (vs w') = length (vs w) /\
    (forall t, n <= t -> getv w' t = getv w t).
Proof.
  induction l as [|v l IH]; intros dead w O N F; cbn [map run rev app].
  - exists w. auto.
  - inversion F as [|? ? [F1 F2] F']; subst. inversion N as [|? ? N1 N2]; subst.
    destruct (own_destroy _ _ _ _ v O F1 F2) as (w1 & -> & O1 & L1 & K1). cbn [bind].
    destruct (IH _ w1 O1 N2) as (w2 & E & O2 & L2 & K2).
    + apply Forall_forall. intros t I. rewrite Forall_forall in F'. destruct (F' t I). split; [assumption|]. intros [->|K]; contradiction.
    + exists w2. split; [exact E|]. rewrite <- app_assoc. cbn [app]. split; [exact O2|]. split; [congruence|].
      intros t Lt. rewrite K2 by lia. now apply K1.
Qed.
Lemma own_start : own [] 0 [] start.
Proof. split; [cbn; lia|]. split; [reflexivity|]. split; [intros v L; lia|]. intros [|i] a b E; discriminate. Qed.

(** the vertices a program destroys, temporaries included; [n] objects so far *)
Fixpoint gone (n : nat) (p : list xop) : list nat :=
  match p with
  | [] => []
  | Op (NewV _) :: p => gone (S n) p
  | Op (CopyV _) :: p => gone (S n) p
  | Op (DelV v) :: p => v :: gone n p
  | Swap _ _ :: p => n :: gone (S n) p
  | Grow l :: p => l ++ gone (n + length l) p
  | _ :: p => gone n p
  end.
Lemma careful_run p : forall n dead g w, careful n dead g p -> own g n dead w -> length (vs w) = n -> (forall t, In t dead -> t < n) ->
  exists w' dead', xrun w p = Ok w' /\ own (g ++ xarcs p) (n + xverts p) dead' w' /\ length (vs w') = n + xverts p /\
    (forall t, In t dead' <-> In t dead \/ In t (gone n p)) /\ (forall t, In t dead' -> t < n + xverts p) /\
    (forall q, careful (n + xverts p) dead' (g ++ xarcs p) q -> careful n dead g (p ++ q)).
Proof.
  induction p as [|o p IH]; intros n dead g w C O LN DB; cbn [xrun xarcs xverts gone app].
  - exists w, dead. rewrite app_nil_r, Nat.add_0_r. cbn [In]. split; [reflexivity|]. split; [exact O|]. split; [exact LN|]. split; [tauto|]. split; [exact DB|auto].
  - destruct o as [[z|u v z|v|v|d s|a|d s]|v z|v b|u v|l]; cbn [careful xstep xarcs xverts gone] in *.
    + cbn [step bind]. assert (LL : length (vs (new_vertex w z)) = S n) by (cbn; rewrite app_length, LN; cbn; lia).
      assert (O1 : own g (S n) dead (new_vertex w z)).
      { eapply own_more; [now apply own_push|exact LL| | | |exact DB]; [cbn; rewrite <- LN, nth_error_app2, Nat.sub_diag by lia; reflexivity|reflexivity|reflexivity]. }
      destruct (IH _ _ _ _ C O1 LL) as (w' & dead' & E & O' & L' & D' & B' & K); [intros t I; specialize (DB t I); lia|].
      exists w', dead'. rewrite <- plus_n_Sm. auto 10.
    + destruct C as ((Lu & Du) & (Lv & Dv) & C). destruct (own_add _ _ _ _ u v z O Lu Du Lv Dv) as (w1 & -> & O1 & L1). cbn [bind].
      destruct (IH _ _ _ _ C O1) as (w' & dead' & E & O' & L' & D' & B' & K); [congruence|exact DB|]. rewrite <- app_assoc in O'. cbn [app] in O'.
      exists w', dead'. split; [exact E|]. split; [exact O'|]. split; [exact L'|]. split; [exact D'|]. split; [exact B'|].
      intros q Q. split; [auto|]. split; [auto|]. apply K. rewrite <- app_assoc. exact Q.
    + destruct C as ((Lv & Dv) & C). destruct (own_destroy _ _ _ _ v O Lv Dv) as (w1 & -> & O1 & L1 & _). cbn [bind].
      destruct (IH _ _ _ _ C O1) as (w' & dead' & E & O' & L' & D' & B' & K); [congruence|intros t [<-|I]; auto|].
      exists w', dead'. split; [exact E|]. split; [exact O'|]. split; [exact L'|]. split; [|split; [exact B'|auto]]. intros t. rewrite D'. cbn [In]. tauto.
    + destruct C as ((Lv & Dv) & Bv & C). destruct (own_copy _ _ _ _ v O LN Lv Dv Bv DB) as (w1 & -> & O1 & L1). cbn [bind].
      destruct (IH _ _ _ _ C O1 L1) as (w' & dead' & E & O' & L' & D' & B' & K); [intros t I; specialize (DB t I); lia|].
      exists w', dead'. rewrite <- plus_n_Sm. auto 10.
    + destruct C as ((Ld & Dd) & Bd & (Ls & Ds) & Bs & C). destruct (own_assign _ _ _ _ d s O Ld Dd Bd Ls Ds Bs) as (w1 & -> & O1 & L1). cbn [bind].
      destruct (IH _ _ _ _ C O1) as (w' & dead' & E & O' & L' & D' & B' & K); [congruence|exact DB|]. exists w', dead'. auto 15.
    + destruct C.
    + destruct C.
    + destruct C as ((Lv & Dv) & C). destruct (own_get _ _ _ _ v O Lv Dv) as (x & G & OX). unfold set_val. rewrite G. cbn [bind].
      destruct (IH _ _ _ (setv w v (V (vlive x) z (vuse x) (vid x) (inE x) (outE x))) C) as (w' & dead' & E & O' & L' & D' & B' & K).
      * apply (own_setv _ _ _ _ _ x); [assumption|assumption|cbn; now apply getv_ok in G|reflexivity].
      * cbn. now rewrite upd_length.
      * exact DB.
      * exists w', dead'. auto 10.
    + destruct C as ((Lv & Dv) & C). destruct (own_get _ _ _ _ v O Lv Dv) as (x & G & OX). unfold set_use. rewrite G. cbn [bind].
      destruct (IH _ _ _ (setv w v (V (vlive x) (vval x) b (vid x) (inE x) (outE x))) C) as (w' & dead' & E & O' & L' & D' & B' & K).
      * apply (own_setv _ _ _ _ _ x); [assumption|assumption|cbn; now apply getv_ok in G|reflexivity].
      * cbn. now rewrite upd_length.
      * exact DB.
      * exists w', dead'. auto 10.
    + destruct C as ((Lu & Du) & Bu & (Lv & Dv) & Bv & C). unfold swap. rewrite LN. cbn [run].
      destruct (own_copy _ _ _ _ u O LN Lu Du Bu DB) as (w1 & -> & O1 & L1). cbn [bind].
      assert (Nn : ~ In n dead) by (intros I; apply DB in I; lia).
      assert (Bn : bare g n).
      { intros t I. apply In_nth_error in I. destruct I as (i & E). destruct O as (_ & _ & _ & HE). destruct (HE i n t E). lia. }
      destruct (own_assign _ _ _ _ u v O1 ltac:(lia) Du Bu ltac:(lia) Dv Bv) as (w2 & -> & O2 & L2). cbn [bind].
      destruct (own_assign _ _ _ _ v n O2 ltac:(lia) Dv Bv ltac:(lia) Nn Bn) as (w3 & -> & O3 & L3). cbn [bind].
      destruct (own_destroy _ _ _ _ n O3 ltac:(lia) Nn) as (w4 & -> & O4 & L4 & _). cbn [bind].
      destruct (IH _ _ _ _ C O4) as (w' & dead' & E & O' & L' & D' & B' & K); [congruence|intros t [<-|I]; [lia|specialize (DB t I); lia]|].
      exists w', dead'. rewrite <- plus_n_Sm. split; [exact E|]. split; [exact O'|]. split; [exact L'|]. split; [|split; [exact B'|auto 10]]. intros t. rewrite D'. cbn [In]. tauto.
    + destruct C as (N & F & B & C). unfold grow. rewrite run_app.
      destruct (own_copies _ _ l n w O LN DB F B) as (w1 & -> & O1 & L1). cbn [bind].
      destruct (own_dels g (n + length l) l dead w1 O1 N) as (w2 & -> & O2 & L2 & _).
      { eapply Forall_impl; [|exact F]. cbn. intros t [? ?]. split; [lia|assumption]. }
      cbn [bind]. destruct (IH _ _ _ _ C O2) as (w' & dead' & E & O' & L' & D' & B' & K); [congruence| |].
      { intros t I. apply in_app_or in I. destruct I as [I|I]; [|specialize (DB t I); lia]. apply in_rev in I. rewrite Forall_forall in F. destruct (F t I). lia. }
      exists w', dead'. rewrite Nat.add_assoc. split; [exact E|]. split; [exact O'|]. split; [exact L'|]. split; [|split; [exact B'|auto 10]].
      intros t. rewrite D', !in_app_iff, <- in_rev. tauto.
Qed.

(** ** swapping two vertices *)
Definition moved (x y : vertex) : vertex := V true (vval y) (vuse y) (vid x) (inE y) (outE y).
Lemma assign_ok w d s x y : d <> s -> getv w d = Ok x -> getv w s = Ok y ->
  exists w', step w (AssignV d s) = Ok w' /\ getv w' d = Ok (moved x y) /\ (forall t, t <> d -> getv w' t = getv w t) /\
    es w' = es w /\ length (vs w') = length (vs w).
Proof.
  intros N Gx Gy. pose proof (getv_bound _ _ _ Gx) as B. pose proof (getv_ok _ _ _ Gx) as [_ Lx]. cbn [step]. unfold assign_vertex.
  rewrite Gx. cbn [bind]. rewrite Gy. cbn [bind]. cbv zeta. rewrite getv_setv_eq by (cbn; assumption). cbn [bind].
  rewrite getv_setv_neq by assumption. rewrite Gy. cbn [bind vlive vval vuse vid]. eexists. split; [reflexivity|].
  split; [|split; [|split; [reflexivity|cbn; now rewrite !upd_length]]].
  - rewrite Lx. apply getv_setv_eq; [cbn; now rewrite upd_length|reflexivity].
  - intros t Nt. now rewrite !getv_setv_neq by congruence.
Qed.
Lemma own_edges g n dead w v : own g n dead w -> v < n -> ~ In v dead ->
  forall e, In e (leaving g v) -> exists z, nth_error (es w) e = Some z /\ elive z = true.
Proof.
  intros (_ & _ & _ & HE) Lv Dv e I. apply leaving_in in I. destruct I as (b & E). destruct (HE e v b E) as (_ & y & Ey & _ & _ & Ly).
  exists y. split; [exact Ey|now apply Ly].
Qed.
Lemma own_alive g n dead w v x : own g n dead w -> length (vs w) = n -> getv w v = Ok x -> v < n /\ ~ In v dead /\ outE x = leaving g v.
Proof.
  intros (_ & _ & HV & _) LN G. pose proof (getv_bound _ _ _ G) as B. rewrite LN in B. apply getv_ok in G. destruct G as [E L].
  destruct (HV v B) as (z & Ez & A & O). assert (z = x) as -> by congruence. apply A in L. auto.
Qed.
Lemma swap_own g n dead w u v x y : own g n dead w -> length (vs w) = n -> u <> v -> getv w u = Ok x -> getv w v = Ok y ->
  exists w', swap w u v = Ok w' /\ getv w' u = Ok (moved x y) /\ getv w' v = Ok (moved y x) /\
    (forall e, In e (leaving g u) -> freed w' e) /\ (forall e, ~ In e (leaving g u) -> freed w' e <-> freed w e).
Proof.
  intros O LN N Gx Gy. destruct (own_alive _ _ _ _ _ _ O LN Gx) as (Lu & Du & Ou). destruct (own_alive _ _ _ _ _ _ O LN Gy) as (Lv & Dv & Ov).
  unfold swap. rewrite LN. cbn [run]. cbn [step]. unfold copy_vertex. rewrite Gx. cbn [bind].
  set (c := V true (vval x) (vuse x) (nextV w) (inE x) (outE x)). set (w1 := World _ _ _ _).
  assert (G1 : forall t, t < n -> getv w1 t = getv w t) by (intros t Lt; unfold w1; apply getv_push; lia).
  assert (Gn : getv w1 n = Ok c).
  { apply getv_some; [|reflexivity]. cbn. rewrite nth_error_app2, LN, Nat.sub_diag by lia. reflexivity. }
  change (assign_vertex w1 u v) with (step w1 (AssignV u v)).
  destruct (assign_ok w1 u v x y N) as (w2 & -> & U2 & K2 & E2 & L2); [now rewrite G1|now rewrite G1|]. cbn [bind].
  change (assign_vertex w2 v n) with (step w2 (AssignV v n)).
  destruct (assign_ok w2 v n y c) as (w3 & -> & U3 & K3 & E3 & L3); [lia|rewrite K2, G1 by congruence; exact Gy|rewrite K2 by lia; exact Gn|]. cbn [bind].
  unfold destroy. rewrite K3, K2, Gn by lia. cbn [bind outE c]. rewrite Ou.
  assert (E0 : es w3 = es w) by (rewrite E3, E2; reflexivity).
  destruct (delete_all_ok (leaving g u) w3) as (w4 & D & A1 & _ & _ & _ & A5); [apply leaving_nodup| |].
  { intros e I. rewrite E0. now apply (own_edges g n dead w u). }
  rewrite D. cbn [bind]. rewrite (getv_vs w4 w3) by assumption. rewrite K3, K2, Gn by lia. cbn [bind]. eexists. split; [reflexivity|].
  split; [|split; [|split]].
  - rewrite getv_setv_neq by lia. rewrite (getv_vs w4 w3) by assumption. rewrite K3 by assumption. exact U2.
  - rewrite getv_setv_neq by lia. rewrite (getv_vs w4 w3) by assumption. rewrite U3. reflexivity.
  - intros e I. apply (delete_all_dead _ _ _ e D). now right.
  - intros e NI. split.
    + intros (z & Ez & Lz). cbn in Ez. destruct (nth_error (es w3) e) as [z0|] eqn:Eq.
      * destruct (A5 e z0 Eq) as (z' & Ez' & _ & _ & _ & Z). assert (z' = z) as -> by congruence.
        exists z0. split; [congruence|]. destruct (elive z0); [|reflexivity]. destruct Z as [_ Z]. rewrite Z in Lz by auto. exact Lz.
      * exfalso. apply nth_error_None in Eq. assert (e < length (es w4)) by (apply nth_error_Some; congruence).
        assert (length (es w4) = length (es w3)) by (clear - D; revert D; generalize (leaving g u) w3; induction l as [|a l IH]; intros w0 H; cbn [delete_all] in H; [now injection H as <-|];
          apply bind_ok in H; destruct H as (q & _ & H); apply IH in H; rewrite H; cbn; apply upd_length). lia.
    + intros F. apply (delete_all_dead _ _ _ e D). left. destruct F as (z & Ez & Lz). exists z. split; [congruence|exact Lz].
Qed.

(** ** moving vertices to new storage *)
Lemma copies_any g n dead l : forall w, own g n dead w -> (forall v, In v l -> v < length (vs w) /\ exists x, getv w v = Ok x) ->
  exists w', run w (map CopyV l) = Ok w' /\ own g n dead w' /\ length (vs w') = length (vs w) + length l /\
    (forall t, t < length (vs w) -> getv w' t = getv w t) /\
    (forall j v x, nth_error l j = Some v -> getv w v = Ok x ->
       exists y, getv w' (length (vs w) + j) = Ok y /\ vval y = vval x /\ vuse y = vuse x /\ inE y = inE x /\ outE y = outE x).
Proof.
  induction l as [|v l IH]; intros w O H; cbn [map run length].
  - exists w. split; [reflexivity|]. split; [exact O|]. split; [lia|]. split; [auto|]. intros [|j] v x E; discriminate.
  - destruct (H v (or_introl eq_refl)) as (Lv & x & G). cbn [step]. unfold copy_vertex. rewrite G. cbn [bind].
    set (w1 := World _ _ _ _). assert (L1 : length (vs w1) = S (length (vs w))) by (cbn; rewrite app_length; cbn; lia).
    assert (G1 : forall t, t < length (vs w) -> getv w1 t = getv w t) by (intros t Lt; now apply getv_push).
    destruct (IH w1) as (w2 & E & O2 & L2 & K2 & C2).
    + now apply own_push.
    + intros t I. destruct (H t (or_intror I)) as (Lt & z & Gz). split; [lia|]. exists z. now rewrite G1.
    + exists w2. split; [exact E|]. split; [exact O2|]. split; [lia|]. split; [intros t Lt; rewrite K2 by lia; now apply G1|].
      intros [|j] t z Et Gt; cbn [nth_error] in Et.
      * injection Et as <-. assert (z = x) as -> by congruence. eexists. rewrite Nat.add_0_r, K2 by lia. split.
        -- apply getv_some; [cbn; rewrite nth_error_app2, Nat.sub_diag by lia; reflexivity|reflexivity].
        -- cbn. auto.
      * destruct (C2 j t z Et) as (y & Gy & F).
        -- rewrite G1; [exact Gt|]. now apply getv_bound in Gt.
        -- exists y. split; [|exact F]. rewrite L1 in Gy. rewrite <- plus_n_Sm. exact Gy.
Qed.
Lemma grow_own g n dead w l : own g n dead w -> length (vs w) = n -> NoDup l -> (forall v, In v l -> exists x, getv w v = Ok x) ->
  exists w', grow w l = Ok w' /\
    forall j v x, nth_error l j = Some v -> getv w v = Ok x ->
      exists y, getv w' (n + j) = Ok y /\ vval y = vval x /\ vuse y = vuse x /\ inE y = inE x /\ outE y = outE x /\ outE x = leaving g v /\
        forall e, In e (outE x) -> freed w' e.
Proof.
  intros O LN ND H. unfold grow. rewrite run_app.
  assert (HA : forall v, In v l -> v < n /\ ~ In v dead).
  { intros v I. destruct (H v I) as (x & G). destruct (own_alive _ _ _ _ _ _ O LN G) as (A & B & _). auto. }
  destruct (copies_any g n dead l w O) as (w1 & -> & O1 & L1 & K1 & C1).
  { intros v I. rewrite LN. split; [now apply HA|now apply H]. }
  cbn [bind]. destruct (own_dels g n l dead w1 O1 ND) as (w2 & E & O2 & L2 & K2); [apply Forall_forall; exact HA|].
  exists w2. split; [exact E|]. intros j v x Ej G. destruct (own_alive _ _ _ _ _ _ O LN G) as (A & B & OX).
  destruct (C1 j v x Ej G) as (y & Gy & F1 & F2 & F3 & F4). rewrite LN in Gy. exists y. rewrite K2 by lia.
  split; [exact Gy|]. split; [exact F1|]. split; [exact F2|]. split; [exact F3|]. split; [exact F4|]. split; [exact OX|].
  intros e I. rewrite OX in I. apply leaving_in in I. destruct I as (b & Ee). destruct O2 as (_ & _ & _ & HE).
  destruct (HE e v b Ee) as (_ & z & Ez & _ & _ & Z). exists z. split; [exact Ez|]. destruct (elive z); [|reflexivity]. exfalso.
  apply (proj1 Z eq_refl). apply in_or_app. left. apply in_rev. rewrite rev_involutive. now apply nth_error_In in Ej.
Qed.
