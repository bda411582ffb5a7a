From Verif Require Import Base GraphModel GraphSpec.
Local Open Scope nat_scope.

(** * Spec facts *)
Lemma leaving_snoc g a b v :
  leaving (g ++ [(a, b)]) v = leaving g v ++ (if a =? v then [length g] else []).
Proof.
  unfold leaving. rewrite app_length. simpl length. rewrite seq_app, filter_app. f_equal.
  - apply filter_ext_in. intros i I. apply in_seq in I. rewrite nth_error_app1 by lia. reflexivity.
  - simpl. rewrite nth_error_app2, Nat.sub_diag by lia. simpl. now destruct (a =? v).
Qed.
Lemma entering_snoc g a b v :
  entering (g ++ [(a, b)]) v = entering g v ++ (if b =? v then [length g] else []).
Proof.
  unfold entering. rewrite app_length. simpl length. rewrite seq_app, filter_app. f_equal.
  - apply filter_ext_in. intros i I. apply in_seq in I. rewrite nth_error_app1 by lia. reflexivity.
  - simpl. rewrite nth_error_app2, Nat.sub_diag by lia. simpl. now destruct (b =? v).
Qed.
Lemma leaving_in g v i : In i (leaving g v) <-> exists b, nth_error g i = Some (v, b).
Proof.
  unfold leaving. rewrite filter_In, in_seq. split.
  - intros [L H]. destruct (nth_error g i) as [[a b]|] eqn:E; [|discriminate].
    apply Nat.eqb_eq in H. subst. eauto.
  - intros [b E]. rewrite E, Nat.eqb_refl. split; [|reflexivity].
    assert (i < length g) by (apply nth_error_Some; congruence). lia.
Qed.
Lemma entering_in g v i : In i (entering g v) <-> exists a, nth_error g i = Some (a, v).
Proof.
  unfold entering. rewrite filter_In, in_seq. split.
  - intros [L H]. destruct (nth_error g i) as [[a b]|] eqn:E; [|discriminate].
    apply Nat.eqb_eq in H. subst. eauto.
  - intros [b E]. rewrite E, Nat.eqb_refl. split; [|reflexivity].
    assert (i < length g) by (apply nth_error_Some; congruence). lia.
Qed.
Lemma leaving_nodup g v : NoDup (leaving g v).
Proof. apply NoDup_filter, seq_NoDup. Qed.
Lemma entering_nodup g v : NoDup (entering g v).
Proof. apply NoDup_filter, seq_NoDup. Qed.
Lemma leaving_oob g v : (forall i a b, nth_error g i = Some (a, b) -> a <> v) -> leaving g v = [].
Proof.
  intros H. destruct (leaving g v) as [|i l] eqn:E; [reflexivity|].
  assert (In i (leaving g v)) as I by (rewrite E; left; reflexivity).
  apply leaving_in in I. destruct I as [b I]. exfalso. eapply H; [exact I|reflexivity].
Qed.
Lemma entering_oob g v : (forall i a b, nth_error g i = Some (a, b) -> b <> v) -> entering g v = [].
Proof.
  intros H. destruct (entering g v) as [|i l] eqn:E; [reflexivity|].
  assert (In i (entering g v)) as I by (rewrite E; left; reflexivity).
  apply entering_in in I. destruct I as [b I]. exfalso. eapply H; [exact I|reflexivity].
Qed.
Lemma total_ext f g n : (forall i, i < n -> f i = g i) -> total f n = total g n.
Proof. intros H. unfold total. f_equal. apply map_ext_in. intros i I. apply in_seq in I. apply H. lia. Qed.
Lemma total_S f n : total f (S n) = total f n + f n.
Proof. unfold total. rewrite seq_S, map_app, list_sum_app. simpl. lia. Qed.
Lemma total_bump f n a : a < n -> total (fun v => f v + (if a =? v then 1 else 0)) n = total f n + 1.
Proof.
  induction n as [|n IH]; intros L; [lia|]. rewrite !total_S.
  destruct (Nat.eqb_spec a n) as [->|N].
  - rewrite (total_ext _ f); [lia|]. intros i I. destruct (Nat.eqb_spec n i); lia.
  - rewrite IH by lia. lia.
Qed.
Lemma total_0 n : total (fun _ => 0) n = 0.
Proof. induction n; [reflexivity|]. rewrite total_S, IHn. reflexivity. Qed.
Lemma leaving_total g n : (forall i a b, nth_error g i = Some (a, b) -> a < n) ->
  total (fun v => length (leaving g v)) n = length g.
Proof.
  induction g as [|[a b] g IH] using rev_ind; intros H; [apply total_0|].
  rewrite app_length. simpl. rewrite <- IH.
  - rewrite (total_ext _ (fun v => length (leaving g v) + (if a =? v then 1 else 0))).
    + apply total_bump. apply (H (length g) a b). rewrite nth_error_app2, Nat.sub_diag by lia. reflexivity.
    + intros i I. rewrite leaving_snoc, app_length. f_equal. now destruct (a =? i).
  - intros i c d E. apply (H i c d). rewrite nth_error_app1; [assumption|]. apply nth_error_Some. congruence.
Qed.
Lemma entering_total g n : (forall i a b, nth_error g i = Some (a, b) -> b < n) ->
  total (fun v => length (entering g v)) n = length g.
Proof.
  induction g as [|[a b] g IH] using rev_ind; intros H; [apply total_0|].
  rewrite app_length. simpl. rewrite <- IH.
  - rewrite (total_ext _ (fun v => length (entering g v) + (if b =? v then 1 else 0))).
    + apply total_bump. apply (H (length g) a b). rewrite nth_error_app2, Nat.sub_diag by lia. reflexivity.
    + intros i I. rewrite entering_snoc, app_length. f_equal. now destruct (b =? i).
  - intros i c d E. apply (H i c d). rewrite nth_error_app1; [assumption|]. apply nth_error_Some. congruence.
Qed.

(** * Ids *)
Definition ids_ok (w : world) : Prop :=
  nextV w = length (vs w) /\ nextE w = length (es w) /\
  (forall v x, nth_error (vs w) v = Some x -> vid x = v) /\
  (forall e x, nth_error (es w) e = Some x -> eid x = e).
Lemma getv_ok w v x : getv w v = Ok x -> nth_error (vs w) v = Some x /\ vlive x = true.
Proof.
  unfold getv. destruct (nth_error (vs w) v) as [y|]; [|discriminate].
  destruct (vlive y) eqn:E; [|discriminate]. intros [= ->]. auto.
Qed.
Lemma gete_ok w v x : gete w v = Ok x -> nth_error (es w) v = Some x /\ elive x = true.
Proof.
  unfold gete. destruct (nth_error (es w) v) as [y|]; [|discriminate].
  destruct (elive y) eqn:E; [|discriminate]. intros [= ->]. auto.
Qed.
Lemma nth_error_upd {A} (l : list A) i x j y : nth_error (upd l i x) j = Some y ->
  (i = j /\ y = x) \/ (i <> j /\ nth_error l j = Some y).
Proof.
  intros E. destruct (Nat.eq_dec i j) as [->|N].
  - assert (L : j < length (upd l j x)) by (apply nth_error_Some; congruence). rewrite upd_length in L.
    rewrite nth_error_upd_eq in E by assumption. left. split; congruence.
  - rewrite nth_error_upd_neq in E by assumption. auto.
Qed.
Lemma nth_error_snoc {A} (l : list A) x j y : nth_error (l ++ [x]) j = Some y ->
  nth_error l j = Some y \/ (j = length l /\ y = x).
Proof.
  intros E. destruct (lt_dec j (length l)) as [L|L].
  - rewrite nth_error_app1 in E by assumption. auto.
  - rewrite nth_error_app2 in E by lia. destruct (j - length l) as [|k] eqn:D; simpl in E.
    + right. split; [lia|congruence].
    + destruct k; discriminate.
Qed.
Lemma setv_ids w v x y : ids_ok w -> nth_error (vs w) v = Some x -> vid y = vid x -> ids_ok (setv w v y).
Proof.
  intros (A & B & C & D) E F. unfold setv. split; [simpl; now rewrite upd_length|]. split; [assumption|].
  split; [|assumption]. simpl. intros u z G. apply nth_error_upd in G. destruct G as [[-> ->]|[_ G]]; [|auto].
  rewrite F. auto.
Qed.
Lemma sete_ids w v x y : ids_ok w -> nth_error (es w) v = Some x -> eid y = eid x -> ids_ok (sete w v y).
Proof.
  intros (A & B & C & D) E F. unfold sete. split; [assumption|]. split; [simpl; now rewrite upd_length|].
  split; [assumption|]. simpl. intros u z G. apply nth_error_upd in G. destruct G as [[-> ->]|[_ G]]; [|auto].
  rewrite F. auto.
Qed.
Lemma pushv_ids w x : ids_ok w -> vid x = nextV w ->
  ids_ok (World (vs w ++ [x]) (es w) (S (nextV w)) (nextE w)).
Proof.
  intros (A & B & C & D) E. split; [simpl; rewrite app_length; simpl; lia|]. split; [assumption|].
  split; [|assumption]. simpl. intros v y G. apply nth_error_snoc in G. destruct G as [G|[-> ->]]; [auto|congruence].
Qed.
Lemma pushe_ids w x : ids_ok w -> eid x = nextE w ->
  ids_ok (World (vs w) (es w ++ [x]) (nextV w) (S (nextE w))).
Proof.
  intros (A & B & C & D) E. split; [assumption|]. split; [simpl; rewrite app_length; simpl; lia|].
  split; [assumption|]. simpl. intros v y G. apply nth_error_snoc in G. destruct G as [G|[-> ->]]; [auto|congruence].
Qed.
Lemma delete_all_ids l : forall w w', ids_ok w -> delete_all w l = Ok w' -> ids_ok w'.
Proof.
  induction l as [|e l IH]; simpl; intros w w' I H; [now injection H as <-|].
  apply bind_ok in H. destruct H as (x & G & H). apply gete_ok in G. destruct G as [G _].
  eapply IH; [|exact H]. eapply sete_ids; [eassumption|exact G|reflexivity].
Qed.
Lemma step_ids w o w' : ids_ok w -> step w o = Ok w' -> ids_ok w'.
Proof.
  intros I H. destruct o as [x|u v x|v|v|d s|e|d s]; simpl in H.
  - injection H as <-. now apply pushv_ids.
  - unfold add_edge in H. apply bind_ok in H. destruct H as (xu & G & H). apply getv_ok in G. destruct G as [G _].
    apply bind_ok in H. destruct H as (y & G2 & H). apply getv_ok in G2. destruct G2 as [G2 _].
    injection H as <-. eapply setv_ids; [|exact G2|reflexivity].
    eapply setv_ids; [|exact G|reflexivity]. now apply pushe_ids.
  - unfold destroy in H. apply bind_ok in H. destruct H as (x & G & H).
    apply bind_ok in H. destruct H as (w1 & DA & H). apply bind_ok in H. destruct H as (x1 & G1 & H).
    injection H as <-. apply getv_ok in G1. destruct G1 as [G1 _].
    eapply setv_ids; [|exact G1|reflexivity]. eapply delete_all_ids; eassumption.
  - unfold copy_vertex in H. apply bind_ok in H. destruct H as (x & G & H). injection H as <-. now apply pushv_ids.
  - unfold assign_vertex in H. apply bind_ok in H. destruct H as (x & G & H).
    apply bind_ok in H. destruct H as (y & G1 & H). apply bind_ok in H. destruct H as (x1 & G2 & H).
    apply bind_ok in H. destruct H as (y1 & G3 & H). injection H as <-.
    apply getv_ok in G2. destruct G2 as [G2 _]. eapply setv_ids; [|exact G2|reflexivity].
    apply getv_ok in G. destruct G as [G _]. eapply setv_ids; [eassumption|exact G|reflexivity].
  - unfold copy_edge in H. apply bind_ok in H. destruct H as (x & G & H). injection H as <-. now apply pushe_ids.
  - unfold assign_edge in H. apply bind_ok in H. destruct H as (x & G & H).
    apply bind_ok in H. destruct H as (y & G1 & H). injection H as <-.
    apply gete_ok in G. destruct G as [G _]. eapply sete_ids; [eassumption|exact G|reflexivity].
Qed.
Lemma run_ids os : forall w w', ids_ok w -> run w os = Ok w' -> ids_ok w'.
Proof.
  induction os as [|o os IH]; simpl; intros w w' I H; [now injection H as <-|].
  apply bind_ok in H. destruct H as (w1 & G & H). eapply IH; [|exact H]. eapply step_ids; eassumption.
Qed.
Lemma start_ids : ids_ok start.
Proof. repeat split; try reflexivity; intros [|i] x H; discriminate. Qed.

(** * Deleting edges *)
Lemma delete_all_ok l : forall w, NoDup l ->
  (forall e, In e l -> exists x, nth_error (es w) e = Some x /\ elive x = true) ->
  exists w', delete_all w l = Ok w' /\ vs w' = vs w /\ nextV w' = nextV w /\ nextE w' = nextE w /\
    length (es w') = length (es w) /\
    (forall e x, nth_error (es w) e = Some x ->
       exists x', nth_error (es w') e = Some x' /\ efrom x' = efrom x /\ eto x' = eto x /\ eid x' = eid x /\
         (elive x' = true <-> elive x = true /\ ~ In e l)).
Proof.
  induction l as [|e l IH]; simpl; intros w N H.
  - exists w. split; [reflexivity|]. do 4 (split; [reflexivity|]). intros e x E. exists x. tauto.
  - inversion N as [|? ? N1 N2]; subst. destruct (H e (or_introl eq_refl)) as (x & E & LV).
    unfold gete. rewrite E, LV. cbn [bind].
    set (x' := Ed false (efrom x) (eto x) (eval x) (euse x) (eid x)).
    destruct (IH (sete w e x')) as (w' & D & A1 & A2 & A3 & A4 & A5); [assumption| |].
    { intros d Dl. destruct (H d (or_intror Dl)) as (y & E' & LV'). exists y. simpl.
      rewrite nth_error_upd_neq by (intros ->; contradiction). auto. }
    exists w'. split; [assumption|]. split; [assumption|]. split; [assumption|]. split; [assumption|].
    split; [rewrite A4; simpl; apply upd_length|].
    intros d y E'. destruct (Nat.eq_dec e d) as [->|ND].
    + assert (y = x) by congruence. subst y.
      destruct (A5 d x') as (z & Z1 & Z2 & Z3 & Z4 & Z5).
      { simpl. apply nth_error_upd_eq. apply nth_error_Some. congruence. }
      exists z. split; [assumption|]. split; [assumption|]. split; [assumption|]. split; [assumption|].
      rewrite Z5. simpl. split; [intros [F _]; discriminate|tauto].
    + destruct (A5 d y) as (z & Z1 & Z2 & Z3 & Z4 & Z5).
      { simpl. rewrite nth_error_upd_neq; assumption. }
      exists z. split; [assumption|]. split; [assumption|]. split; [assumption|]. split; [assumption|].
      rewrite Z5. tauto.
Qed.
Lemma delete_all_outcome l : forall w, (exists w', delete_all w l = Ok w') \/ delete_all w l = UB.
Proof.
  induction l as [|e l IH]; simpl; intros w; [eauto|].
  unfold gete. destruct (nth_error (es w) e) as [x|]; [|auto]. destruct (elive x); [|auto]. cbn [bind]. apply IH.
Qed.
Definition edead (w : world) (e : nat) : Prop := exists x, nth_error (es w) e = Some x /\ elive x = false.
Lemma delete_all_dead l : forall w w' e, delete_all w l = Ok w' -> edead w e \/ In e l -> edead w' e.
Proof.
  induction l as [|d l IH]; simpl; intros w w' e H D.
  - injection H as <-. destruct D as [D|[]]. assumption.
  - apply bind_ok in H. destruct H as (x & G & H). apply gete_ok in G. destruct G as [G LV].
    eapply IH; [exact H|]. destruct (Nat.eq_dec d e) as [->|ND].
    + left. eexists. split; [simpl; apply nth_error_upd_eq; apply nth_error_Some; congruence|reflexivity].
    + destruct D as [(y & Y1 & Y2)|[->|D]]; [|congruence|auto].
      left. exists y. simpl. now rewrite nth_error_upd_neq.
Qed.
Lemma delete_all_vs l : forall w w', delete_all w l = Ok w' -> vs w' = vs w.
Proof.
  induction l as [|d l IH]; simpl; intros w w' H; [now injection H as <-|].
  apply bind_ok in H. destruct H as (x & G & H). apply IH in H. exact H.
Qed.
(** two live vertices that own the same edges cannot both be destroyed *)
Lemma shared_ub w a b x y : a <> b -> nth_error (vs w) a = Some x -> nth_error (vs w) b = Some y ->
  vlive x = true -> vlive y = true -> outE x = outE y -> outE x <> [] ->
  run w [DelV a; DelV b] = UB.
Proof.
  intros NE A B LA LB EQ NN. cbn [run step]. unfold destroy at 1. unfold getv at 1. rewrite A, LA. cbn [bind].
  destruct (delete_all_outcome (outE x) w) as [[w1 D]| ->]; [|reflexivity]. rewrite D. cbn [bind].
  pose proof (delete_all_vs _ _ _ D) as VS. unfold getv at 1. rewrite VS, A, LA. cbn [bind].
  unfold destroy, getv at 1. simpl vs. rewrite nth_error_upd_neq by assumption. rewrite VS, B, LB. cbn [bind].
  rewrite <- EQ. destruct (outE x) as [|e l] eqn:EO; [congruence|].
  destruct (delete_all_dead _ _ _ e D) as (z & Z1 & Z2); [right; left; reflexivity|].
  cbn [delete_all]. unfold gete. simpl es. rewrite Z1, Z2. reflexivity.
Qed.

(** * Legal histories *)
Fixpoint dels (os : list op) : list nat :=
  match os with [] => [] | DelV v :: os => v :: dels os | _ :: os => dels os end.
Definition graph_ok (g : list (nat * nat)) (n : nat) (dead : list nat) (w : world) : Prop :=
  ids_ok w /\ length (vs w) = n /\ length (es w) = length g /\
  (forall v, v < n -> exists x, nth_error (vs w) v = Some x /\ (vlive x = true <-> ~ In v dead) /\
     (~ In v dead -> outE x = leaving g v /\ inE x = entering g v)) /\
  (forall i a b, nth_error g i = Some (a, b) -> a < n /\ b < n /\
     exists x, nth_error (es w) i = Some x /\ efrom x = a /\ eto x = b /\ (elive x = true <-> ~ In a dead)).

Lemma getv_live g n dead w v : graph_ok g n dead w -> v < n -> ~ In v dead ->
  exists x, getv w v = Ok x /\ nth_error (vs w) v = Some x /\ vlive x = true /\
    outE x = leaving g v /\ inE x = entering g v.
Proof.
  intros (_ & _ & _ & HV & _) L D. destruct (HV v L) as (x & E & LV & LS). exists x.
  apply LV in D as D'. unfold getv. rewrite E, D'. split; [reflexivity|]. split; [reflexivity|].
  split; [auto|]. apply LS. assumption.
Qed.

Lemma new_ok g n dead w x : graph_ok g n dead w -> (forall v, In v dead -> v < n) ->
  graph_ok g (S n) dead (new_vertex w x).
Proof.
  intros (I & L & LE & HV & HE) DB. split; [now apply pushv_ids|]. split; [simpl; rewrite app_length; simpl; lia|].
  split; [exact LE|]. split.
  - intros v Lv. simpl. destruct (Nat.eq_dec v n) as [->|N].
    + rewrite nth_error_app2, L, Nat.sub_diag by lia. eexists. split; [reflexivity|]. simpl.
      split; [split; [|auto]; intros _ D; apply DB in D; lia|]. intros _.
      split; [symmetry; apply leaving_oob|symmetry; apply entering_oob]; intros i a b E; apply HE in E; lia.
    + rewrite nth_error_app1 by lia. apply HV. lia.
  - intros i a b E. destruct (HE i a b E) as (A & B & H). split; [lia|]. split; [lia|]. exact H.
Qed.

Lemma add_ok g n dead w u v x : graph_ok g n dead w -> u < n -> ~ In u dead -> v < n -> ~ In v dead ->
  exists w', add_edge w u v x = Ok w' /\ graph_ok (g ++ [(u, v)]) n dead w'.
Proof.
  intros G Lu Du Lv Dv. pose proof G as (I & L & LE & HV & HE).
  destruct (getv_live _ _ _ _ u G Lu Du) as (xu & Gu & Eu & LVu & Ou & Iu).
  destruct (getv_live _ _ _ _ v G Lv Dv) as (xv & Gv & Ev & LVv & Ov & Iv).
  unfold add_edge. rewrite Gu. cbn [bind].
  set (xu' := V (vlive xu) (vval xu) (vuse xu) (vid xu) (inE xu) (outE xu ++ [length (es w)])).
  assert (R : exists y, getv (setv (new_edge w u v x) u xu') v = Ok y /\
     nth_error (upd (vs w) u xu') v = Some y /\ vlive y = true /\ vid y = vid xv /\
     inE y = entering g v /\ outE y = if u =? v then leaving g v ++ [length g] else leaving g v).
  { unfold getv. simpl. destruct (Nat.eqb_spec u v) as [->|N].
    - assert (xv = xu) by congruence. subst xv. exists xu'.
      rewrite nth_error_upd_eq by lia. simpl. rewrite LVu. split; [reflexivity|].
      split; [reflexivity|]. split; [auto|]. split; [reflexivity|]. split; [assumption|].
      rewrite Ou, LE. reflexivity.
    - exists xv. rewrite nth_error_upd_neq, Ev by assumption. rewrite LVv. auto 10. }
  destruct R as (y & Gy & Ny & LVy & IDy & INy & OUTy). rewrite Gy. cbn [bind].
  eexists. split; [reflexivity|].
  set (y' := V (vlive y) (vval y) (vuse y) (vid y) (inE y ++ [length (es w)]) (outE y)).
  split; [|split; [|split; [|split]]].
  - eapply setv_ids; [|exact Ny|reflexivity]. eapply setv_ids; [|exact Eu|reflexivity]. now apply pushe_ids.
  - simpl. now rewrite !upd_length.
  - simpl. rewrite !app_length. simpl. lia.
  - intros t Lt. simpl. destruct (Nat.eq_dec v t) as [->|Nv].
    + rewrite nth_error_upd_eq by (rewrite upd_length; lia). exists y'. split; [reflexivity|].
      split; [simpl; tauto|]. intros _. rewrite leaving_snoc, entering_snoc, Nat.eqb_refl. simpl.
      rewrite INy, OUTy, LE. split; [|reflexivity]. destruct (u =? t); [reflexivity|now rewrite app_nil_r].
    + rewrite nth_error_upd_neq by assumption.
      destruct (Nat.eq_dec u t) as [->|Nu].
      * rewrite nth_error_upd_eq by lia. exists xu'. split; [reflexivity|]. split; [simpl; tauto|].
        intros _. rewrite leaving_snoc, entering_snoc, Nat.eqb_refl. simpl.
        destruct (Nat.eqb_spec v t); [congruence|]. rewrite app_nil_r, Ou, Iu, LE. auto.
      * rewrite nth_error_upd_neq by assumption. destruct (HV t Lt) as (z & Z1 & Z2 & Z3). exists z.
        split; [assumption|]. split; [assumption|]. intros D. destruct (Z3 D) as [Z4 Z5].
        rewrite leaving_snoc, entering_snoc.
        destruct (Nat.eqb_spec v t); [congruence|]. destruct (Nat.eqb_spec u t); [congruence|].
        rewrite !app_nil_r. auto.
  - intros i a b E. simpl. apply nth_error_snoc in E. destruct E as [E|[-> [= -> ->]]].
    + destruct (HE i a b E) as (A & B & H). split; [assumption|]. split; [assumption|].
      rewrite nth_error_app1 by (rewrite LE; apply nth_error_Some; congruence). exact H.
    + split; [assumption|]. split; [assumption|]. rewrite <- LE, nth_error_app2, Nat.sub_diag by lia.
      eexists. split; [reflexivity|]. simpl. tauto.
Qed.

Lemma del_ok g n dead w v : graph_ok g n dead w -> v < n -> ~ In v dead ->
  exists w', destroy w v = Ok w' /\ graph_ok g n (v :: dead) w'.
Proof.
  intros G Lv Dv. pose proof G as (I & L & LE & HV & HE).
  destruct (getv_live _ _ _ _ v G Lv Dv) as (xv & Gv & Ev & LVv & Ov & Iv).
  unfold destroy. rewrite Gv. cbn [bind]. rewrite Ov.
  destruct (delete_all_ok (leaving g v) w (leaving_nodup g v)) as (w1 & D & A1 & A2 & A3 & A4 & A5).
  { intros e Ie. apply leaving_in in Ie. destruct Ie as [b E]. destruct (HE e v b E) as (_ & _ & x & X1 & X2 & X3 & X4).
    exists x. split; [assumption|]. now apply X4. }
  rewrite D. cbn [bind]. pose proof (delete_all_ids _ _ _ I D) as I1.
  unfold getv. rewrite A1, Ev, LVv. cbn [bind]. eexists. split; [reflexivity|].
  split; [|split; [|split; [|split]]].
  - eapply setv_ids; [exact I1|rewrite A1; exact Ev|reflexivity].
  - simpl. now rewrite upd_length, A1.
  - simpl. congruence.
  - intros t Lt. simpl. rewrite A1. destruct (Nat.eq_dec v t) as [->|N].
    + rewrite nth_error_upd_eq by lia. eexists. split; [reflexivity|]. simpl.
      split; [split; [discriminate|tauto]|]. tauto.
    + rewrite nth_error_upd_neq by assumption. destruct (HV t Lt) as (z & Z1 & Z2 & Z3). exists z.
      split; [assumption|]. simpl. split; [rewrite Z2; tauto|]. intros H. apply Z3. tauto.
  - intros i a b E. destruct (HE i a b E) as (A & B & x & X1 & X2 & X3 & X4).
    split; [assumption|]. split; [assumption|]. simpl.
    destruct (A5 i x X1) as (x' & Y1 & Y2 & Y3 & Y4 & Y5). exists x'. split; [assumption|].
    split; [congruence|]. split; [congruence|]. rewrite Y5, X4, leaving_in.
    split.
    + intros [H1 H2] [<-|H3]; [|contradiction]. apply H2. eauto.
    + intros H. split; [tauto|]. intros [b' E']. apply H. left. congruence.
Qed.

Lemma legal_run os : forall g n dead w, graph_ok g n dead w -> (forall v, In v dead -> v < n) -> legal n dead os ->
  exists w', run w os = Ok w' /\ graph_ok (g ++ arcs os) (n + nverts os) (rev (dels os) ++ dead) w'.
Proof.
  induction os as [|o os IH]; intros g n dead w G DB LG; cbn [run arcs nverts dels].
  - exists w. rewrite app_nil_r, Nat.add_0_r. auto.
  - destruct o as [x|u v x|v|v|d s|e|d s]; cbn [legal] in LG; try contradiction; cbn [step bind].
    + destruct (IH g (S n) dead (new_vertex w x)) as (w' & R & G').
      { now apply new_ok. } { intros v D. apply DB in D. lia. } { assumption. }
      exists w'. split; [assumption|]. replace (n + S (nverts os)) with (S n + nverts os) by lia. assumption.
    + destruct LG as (A & B & C & D & LG). destruct (add_ok g n dead w u v x G A B C D) as (w1 & E & G1).
      rewrite E. cbn [bind]. destruct (IH _ _ _ _ G1 DB LG) as (w' & R & G'). exists w'. split; [assumption|].
      rewrite <- app_assoc in G'. exact G'.
    + destruct LG as (A & B & LG). destruct (del_ok g n dead w v G A B) as (w1 & E & G1).
      rewrite E. cbn [bind]. destruct (IH g n (v :: dead) w1 G1) as (w' & R & G'); [|assumption|].
      { intros t [<-|T]; [assumption|auto]. }
      exists w'. split; [assumption|]. simpl. rewrite <- app_assoc. exact G'.
Qed.
Lemma start_ok : graph_ok [] 0 [] start.
Proof.
  split; [apply start_ids|]. split; [reflexivity|]. split; [reflexivity|]. split; [intros; lia|].
  intros [|i] a b E; discriminate.
Qed.
Lemma legal_graph os : legal 0 [] os ->
  exists w, run start os = Ok w /\ graph_ok (arcs os) (nverts os) (rev (dels os)) w.
Proof.
  intros LG. destruct (legal_run os [] 0 [] start start_ok) as (w & R & G); [intros v []|assumption|].
  exists w. split; [assumption|]. now rewrite app_nil_r in G.
Qed.
Lemma in_dels os v : In v (rev (dels os)) <-> In (DelV v) os.
Proof.
  rewrite <- in_rev. induction os as [|o os IH]; [reflexivity|].
  destruct o; simpl; rewrite ?IH; split; intros H; try tauto;
    try (destruct H as [H|H]; [discriminate|tauto]).
  - destruct H as [->|H]; auto.
  - destruct H as [[= ->]|H]; auto.
Qed.
