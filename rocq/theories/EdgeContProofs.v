(** Proofs about Edge objects in containers. *)
From Verif Require Import Base ContModel ContSpec ContProofs EdgeContModel EdgeContSpec.
From Coq Require Import Sorting.Sorted Sorting.Permutation.
Local Open Scope Z_scope.
Notation idf := (fun e : edge => e).

Lemma fresh_eq n : fresh n = if n + 1 <=? int32_max then (if int32_min <=? n + 1 then Ok (n, n + 1) else UB) else UB.
Proof.
  unfold fresh, chk32, in_int32. destruct (Z.leb_spec (n + 1) int32_max); destruct (Z.leb_spec int32_min (n + 1)); reflexivity.
Qed.
Lemma fresh_ok n : 0 <= n -> n < int32_max -> fresh n = Ok (n, n + 1).
Proof.
  intros A B. rewrite fresh_eq. destruct (Z.leb_spec (n + 1) int32_max); [|lia].
  destruct (Z.leb_spec int32_min (n + 1)); [reflexivity|unfold int32_min in *; lia].
Qed.
Lemma fresh_ub n : int32_max <= n -> fresh n = UB.
Proof. intros A. rewrite fresh_eq. destruct (Z.leb_spec (n + 1) int32_max); [lia|reflexivity]. Qed.
Lemma fresh_inv n i m : fresh n = Ok (i, m) -> i = n /\ m = n + 1 /\ n < int32_max.
Proof.
  rewrite fresh_eq. destruct (Z.leb_spec (n + 1) int32_max); [|discriminate].
  destruct (_ <=? _); [|discriminate]. intros [= <- <-]. lia.
Qed.
Lemma copy_inv n a b m : copy_edge n a = Ok (b, m) -> same_data a b /\ e_id b = n /\ m = n + 1 /\ n < int32_max.
Proof.
  unfold copy_edge. destruct (fresh n) as [[i k]| | |] eqn:F; cbn [bind]; try discriminate.
  apply fresh_inv in F. intros [= <- <-]. unfold same_data. cbn. intuition.
Qed.
Lemma copy_cases n a : (int32_max <= n /\ copy_edge n a = UB) \/ (n < int32_max /\ (0 <= n -> exists b, copy_edge n a = Ok (b, n + 1))).
Proof.
  unfold copy_edge. destruct (Z.leb_spec int32_max n) as [L|L].
  - left. split; [assumption|]. now rewrite fresh_ub.
  - right. split; [assumption|]. intros P. rewrite fresh_ok by assumption. eexists. reflexivity.
Qed.

(** ** the ordered containers *)
Lemma lt_spec a b : edge_lt a b = true <-> e_val a < e_val b.
Proof. unfold edge_lt. apply Z.ltb_lt. Qed.
Lemma lt_spec' a b : edge_lt a b = false <-> e_val b <= e_val a.
Proof. unfold edge_lt. apply Z.ltb_ge. Qed.
Ltac ltcase a b := let C := fresh "C" in destruct (edge_lt a b) eqn:C; [apply lt_spec in C|apply lt_spec' in C].
Lemma find_weak a l : nondecreasing l -> (t_find idf edge_lt a l = None <-> ~ has_weight (e_val a) l).
Proof.
  intros S. induction S as [|x l S IH F]; cbn [t_find].
  - split; [intros _ (y & [] & _)|reflexivity].
  - rewrite Forall_forall in F. ltcase x a; [|ltcase a x].
    + rewrite IH. split; intros H (y & I & Ey).
      * destruct I as [<-|I]; [lia|]. apply H. exists y. auto.
      * apply H. exists y. split; [now right|assumption].
    + split; [|reflexivity]. intros _ (y & [<-|I] & Ey); [lia|]. specialize (F y I). lia.
    + split; [discriminate|]. intros H. contradiction H. exists x. split; [now left|lia].
Qed.
Lemma incr_nondecr l : increasing l -> nondecreasing l.
Proof.
  intros S. induction S as [|x l S IH F]; constructor; [exact IH|].
  eapply Forall_impl; [|exact F]. intros y H. cbn in H. lia.
Qed.
Lemma insert_in b l : ~ has_weight (e_val b) l -> forall x, In x (t_insert idf edge_lt b l) <-> x = b \/ In x l.
Proof.
  induction l as [|y l IH]; intros N x; cbn [t_insert]; [cbn; intuition|].
  ltcase y b; [|ltcase b y].
  - cbn [In]. rewrite IH; [intuition|]. intros (z & I & Ez). apply N. exists z. split; [now right|assumption].
  - cbn [In]. intuition.
  - contradiction N. exists y. split; [now left|lia].
Qed.
Lemma insert_incr b l : increasing l -> ~ has_weight (e_val b) l -> increasing (t_insert idf edge_lt b l).
Proof.
  intros S. induction S as [|y l S IH F]; intros N; cbn [t_insert]; [repeat constructor|].
  assert (N' : ~ has_weight (e_val b) l) by (intros (z & I & Ez); apply N; exists z; split; [now right|assumption]).
  rewrite Forall_forall in F. ltcase y b; [|ltcase b y].
  - constructor; [now apply IH|]. apply Forall_forall. intros z I. apply (insert_in b l N') in I.
    destruct I as [->|I]; [lia|]. exact (F z I).
  - constructor; [constructor; [assumption|now apply Forall_forall]|]. constructor; [assumption|].
    apply Forall_forall. intros z I. specialize (F z I). lia.
  - constructor; [assumption|]. now apply Forall_forall.
Qed.
Lemma erase_filter a l : nondecreasing l -> t_erase idf edge_lt a l = filter (fun x => negb (e_val x =? e_val a)) l.
Proof.
  intros S. induction S as [|y l S IH F]; cbn [t_erase filter]; [reflexivity|]. rewrite Forall_forall in F.
  ltcase y a; [|ltcase a y].
  - destruct (Z.eqb_spec (e_val y) (e_val a)); [lia|]. cbn [negb]. now rewrite IH.
  - destruct (Z.eqb_spec (e_val y) (e_val a)); [lia|]. cbn [negb]. f_equal. symmetry.
    assert (G : forall z, In z l -> negb (e_val z =? e_val a) = true).
    { intros z I. specialize (F z I). destruct (Z.eqb_spec (e_val z) (e_val a)); [lia|reflexivity]. }
    clear - G. induction l as [|z l IH]; [reflexivity|]. cbn [filter]. rewrite (G z (or_introl eq_refl)). f_equal.
    apply IH. intros; apply G; now right.
  - destruct (Z.eqb_spec (e_val y) (e_val a)); [|lia]. cbn [negb]. exact IH.
Qed.
Lemma filter_incr {R : edge -> edge -> Prop} p l : StronglySorted R l -> StronglySorted R (filter p l).
Proof.
  intros S. induction S as [|y l S IH F]; cbn [filter]; [constructor|]. destruct (p y); [|exact IH].
  constructor; [exact IH|]. rewrite Forall_forall in F |- *. intros z I. apply filter_In in I. now apply F.
Qed.
Lemma range_filter a l : nondecreasing l -> t_range idf edge_lt a l = of_weight (e_val a) l.
Proof.
  unfold of_weight. intros S. induction S as [|y l S IH F]; cbn [t_range filter]; [reflexivity|]. rewrite Forall_forall in F.
  ltcase y a; [|ltcase a y].
  - destruct (Z.eqb_spec (e_val y) (e_val a)); [lia|]. exact IH.
  - destruct (Z.eqb_spec (e_val y) (e_val a)); [lia|]. symmetry.
    assert (G : forall z, In z l -> (e_val z =? e_val a) = false).
    { intros z I. specialize (F z I). apply Z.eqb_neq. lia. }
    clear - G. induction l as [|z l IH]; [reflexivity|]. cbn [filter]. rewrite (G z (or_introl eq_refl)).
    apply IH. intros; apply G; now right.
  - destruct (Z.eqb_spec (e_val y) (e_val a)); [|lia]. now rewrite IH.
Qed.
Lemma multi_split b l : nondecreasing l -> exists p q, l = p ++ q /\ t_insert_multi idf edge_lt b l = p ++ b :: q /\
  Forall (fun x => e_val x <= e_val b) p /\ Forall (fun x => e_val b < e_val x) q.
Proof.
  intros S. induction S as [|y l S IH F]; cbn [t_insert_multi]; [exists [], []; repeat split; constructor|].
  rewrite Forall_forall in F. ltcase b y.
  - exists [], (y :: l). repeat split; [constructor|]. constructor; [assumption|]. apply Forall_forall. intros z I.
    specialize (F z I). lia.
  - destruct IH as (p & q & -> & E & A & B). exists (y :: p), q. rewrite E. repeat split; [|exact B].
    constructor; [lia|exact A].
Qed.
Lemma ss_app {R : edge -> edge -> Prop} p q : StronglySorted R (p ++ q) <->
  StronglySorted R p /\ StronglySorted R q /\ forall x y, In x p -> In y q -> R x y.
Proof.
  induction p as [|a p IH]; cbn [app].
  - split; [intros H; split; [constructor|split; [exact H|intros ? ? []]]|tauto].
  - split.
    + intros H. apply StronglySorted_inv in H. destruct H as [H F]. apply IH in H. destruct H as (A & B & C).
      rewrite Forall_forall in F. split; [constructor; [exact A|]|split; [exact B|]].
      * apply Forall_forall. intros x I. apply F. apply in_or_app. now left.
      * intros x y [<-|I] J; [apply F, in_or_app; now right|now apply C].
    + intros (A & B & C). apply StronglySorted_inv in A. destruct A as [A F]. constructor.
      * apply IH. split; [exact A|split; [exact B|]]. intros; apply C; [now right|assumption].
      * rewrite Forall_forall in F |- *. intros x I. apply in_app_or in I. destruct I as [I|I]; [now apply F|]. apply C; [now left|assumption].
Qed.
Lemma multi_sorted b l : nondecreasing l -> nondecreasing (t_insert_multi idf edge_lt b l).
Proof.
  intros S. destruct (multi_split b l S) as (p & q & -> & -> & A & B). unfold nondecreasing in *.
  rewrite Forall_forall in A, B. apply ss_app in S. destruct S as (P & Q & C). apply ss_app. split; [exact P|]. split.
  - constructor; [exact Q|]. apply Forall_forall. intros x I. specialize (B x I). lia.
  - intros x y I [<-|J]; [now apply A|now apply C].
Qed.
(** sorting keeps the objects *)
Lemma ins_perm x l : Permutation (ins_sorted edge_lt x l) (x :: l).
Proof.
  induction l as [|y l IH]; cbn [ins_sorted]; [reflexivity|]. destruct (edge_lt y x); [|reflexivity].
  rewrite IH. apply perm_swap.
Qed.
Lemma sort_perm l : Permutation (list_sort edge_lt l) l.
Proof. unfold list_sort. induction l as [|x l IH]; cbn [fold_right]; [reflexivity|]. rewrite ins_perm. now constructor. Qed.
Lemma ins_sorted_ok x l : nondecreasing l -> nondecreasing (ins_sorted edge_lt x l).
Proof.
  intros S. induction S as [|y l S IH F]; cbn [ins_sorted]; [repeat constructor|]. ltcase y x.
  - constructor; [exact IH|]. rewrite Forall_forall in F |- *. intros z I.
    apply (Permutation_in _ (ins_perm x l)) in I. destruct I as [<-|I]; [lia|now apply F].
  - constructor; [now constructor|]. constructor; [lia|]. eapply Forall_impl; [|exact F]. intros z H. cbn in H. lia.
Qed.
Lemma sort_ok l : nondecreasing (list_sort edge_lt l).
Proof. unfold list_sort. induction l as [|x l IH]; cbn [fold_right]; [constructor|]. now apply ins_sorted_ok. Qed.
Lemma ins_stable w x l : of_weight w (ins_sorted edge_lt x l) = of_weight w (x :: l).
Proof.
  unfold of_weight. induction l as [|y l IH]; cbn [ins_sorted]; [reflexivity|]. ltcase y x; [|reflexivity].
  cbn [filter]. rewrite IH. cbn [filter].
  destruct (Z.eqb_spec (e_val y) w), (Z.eqb_spec (e_val x) w); try reflexivity. lia.
Qed.
Lemma sort_stable w l : of_weight w (list_sort edge_lt l) = of_weight w l.
Proof.
  unfold list_sort. induction l as [|x l IH]; cbn [fold_right]; [reflexivity|]. rewrite ins_stable.
  unfold of_weight in *. cbn [filter]. rewrite IH. reflexivity.
Qed.

(** ** the invariant *)
Definition inv (s : state) : Prop :=
  NoDup (map e_id (alive s)) /\ Forall (fun e => 0 <= e_id e < next s) (alive s) /\ 0 <= next s <= int32_max /\
  increasing (set_ s) /\ nondecreasing (mset s).
Lemma inv_start : inv start.
Proof. repeat split; try constructor. all: vm_compute; discriminate. Qed.
(** a state whose edges are among the old ones, up to order and data *)
Lemma inv_shrink s s' : inv s -> next s' = next s -> NoDup (map e_id (alive s')) ->
  incl (map e_id (alive s')) (map e_id (alive s)) -> increasing (set_ s') -> nondecreasing (mset s') -> inv s'.
Proof.
  intros (A & B & C & D1 & D2) N ND IC S1 S2. repeat split; try assumption; try lia.
  rewrite Forall_forall in B |- *. intros e I. specialize (IC (e_id e) (in_map e_id _ _ I)).
  apply in_map_iff in IC. destruct IC as (x & Ex & Ix). specialize (B x Ix). lia.
Qed.
Lemma inv_perm s s' : inv s -> next s' = next s -> Permutation (map e_id (alive s')) (map e_id (alive s)) ->
  increasing (set_ s') -> nondecreasing (mset s') -> inv s'.
Proof.
  intros I N P S1 S2. apply (inv_shrink s s' I N); try assumption.
  - eapply Permutation_NoDup; [symmetry; exact P|apply I].
  - intros x H. eapply Permutation_in; [exact P|exact H].
Qed.
(** one more edge, with the fresh id *)
Lemma inv_grow s s' b : inv s -> next s < int32_max -> next s' = next s + 1 -> e_id b = next s ->
  Permutation (map e_id (alive s')) (map e_id (b :: alive s)) ->
  increasing (set_ s') -> nondecreasing (mset s') -> inv s'.
Proof.
  intros (A & B & C & D1 & D2) L N Eb P S1 S2.
  assert (ND : NoDup (map e_id (b :: alive s))).
  { cbn [map]. constructor; [|exact A]. intros I. apply in_map_iff in I. destruct I as (x & Ex & Ix).
    rewrite Forall_forall in B. specialize (B x Ix). lia. }
  split; [eapply Permutation_NoDup; [symmetry; exact P|exact ND]|]. split; [|repeat split; try assumption; lia].
  apply Forall_forall. intros e I. assert (J : In (e_id e) (map e_id (b :: alive s))).
  { eapply Permutation_in; [exact P|now apply in_map]. }
  apply in_map_iff in J. destruct J as (x & Ex & [<-|Ix]); [lia|]. rewrite Forall_forall in B. specialize (B x Ix). lia.
Qed.
Lemma var_inv s v a : var s v = Ok a -> nth_error (vars s) v = Some a.
Proof. unfold var. destruct (nth_error _ _); [now intros [= ->]|discriminate]. Qed.
Lemma var_cases s v : (exists a, nth_error (vars s) v = Some a /\ var s v = Ok a) \/ (nth_error (vars s) v = None /\ var s v = UB).
Proof. unfold var. destruct (nth_error _ _) as [a|]; [left; exists a; auto|right; auto]. Qed.
Lemma map_upd (l : list edge) v a b : nth_error l v = Some a -> e_id b = e_id a -> map e_id (upd l v b) = map e_id l.
Proof.
  revert v. induction l as [|x l IH]; intros [|v] H Eb; try discriminate.
  - injection H as ->. cbn. now rewrite Eb.
  - cbn in *. f_equal. now apply IH.
Qed.
Lemma insert_perm b l : ~ has_weight (e_val b) l -> Permutation (t_insert idf edge_lt b l) (b :: l).
Proof.
  induction l as [|y l IH]; intros N; cbn [t_insert]; [reflexivity|]. ltcase y b; [|ltcase b y].
  - rewrite IH; [apply perm_swap|]. intros (z & I & Ez). apply N. exists z. split; [now right|assumption].
  - reflexivity.
  - contradiction N. exists y. split; [now left|lia].
Qed.
Lemma multi_perm b l : Permutation (t_insert_multi idf edge_lt b l) (b :: l).
Proof.
  induction l as [|y l IH]; cbn [t_insert_multi]; [reflexivity|]. destruct (edge_lt b y); [reflexivity|].
  rewrite IH. apply perm_swap.
Qed.
Lemma pop_inv (l : list edge) a r : seq_pop l = Ok (a, r) -> l = r ++ [a].
Proof. intros H. pose proof (pop_spec l) as P. now rewrite H in P. Qed.
Lemma pop_cases (l : list edge) : (l = [] /\ seq_pop l = Err) \/ exists a r, seq_pop l = Ok (a, r) /\ l = r ++ [a].
Proof.
  pose proof (pop_spec l) as P. destruct (seq_pop l) as [[a r]| | |]; try contradiction; [right; exists a, r; auto|left; auto].
Qed.
Lemma step_inv s o s' r : inv s -> step s o = Ok (s', r) -> inv s'.
Proof.
  intros I H. pose proof I as (A & B & C & S1 & S2).
  destruct o; cbn [step] in H;
    try (destruct (var s v) as [a| | |] eqn:V; cbn [bind] in H; try discriminate; apply var_inv in V);
    try (injection H as <- <-; exact I).
  - destruct (EdgeContModel.fresh (next s)) as [[i n]| | |] eqn:F; cbn [bind] in H; try discriminate. injection H as <- <-.
    apply fresh_inv in F. destruct F as (-> & -> & L).
    eapply inv_grow with (b := E from to val true (next s)); try eassumption; try reflexivity.
    unfold alive. cbn [vars set_ mset lst]. apply Permutation_map. rewrite <- app_assoc. cbn [app]. symmetry. apply Permutation_middle.
  - destruct (copy_edge (next s) a) as [[b n]| | |] eqn:K; cbn [bind] in H; try discriminate. injection H as <- <-.
    apply copy_inv in K. destruct K as (K1 & K2 & -> & L).
    eapply inv_grow with (b := b); try eassumption; try reflexivity.
    unfold alive. cbn [vars set_ mset lst]. apply Permutation_map. rewrite <- app_assoc. cbn [app]. symmetry. apply Permutation_middle.
  - destruct (var s dst) as [a| | |] eqn:V; cbn [bind] in H; try discriminate.
    destruct (var s src) as [b| | |] eqn:W; cbn [bind] in H; try discriminate. injection H as <- <-. apply var_inv in V.
    apply (inv_perm s); try assumption; try reflexivity. unfold alive, set_var. cbn [vars set_ mset lst].
    rewrite !(map_app _ (upd _ _ _)), (map_app _ (vars s)). rewrite (map_upd _ _ _ _ V); reflexivity.
  - injection H as <- <-. apply (inv_perm s); try assumption; try reflexivity. unfold alive, set_var. cbn [vars set_ mset lst].
    rewrite !(map_app _ (upd _ _ _)), (map_app _ (vars s)). rewrite (map_upd _ _ _ _ V); reflexivity.
  - injection H as <- <-. apply (inv_perm s); try assumption; try reflexivity. unfold alive, set_var. cbn [vars set_ mset lst].
    rewrite !(map_app _ (upd _ _ _)), (map_app _ (vars s)). rewrite (map_upd _ _ _ _ V); reflexivity.
  - destruct (t_find _ _ _ _) eqn:T; [injection H as <- <-; exact I|].
    apply (find_weak a _ (incr_nondecr _ S1)) in T.
    destruct (copy_edge (next s) a) as [[b n]| | |] eqn:K; cbn [bind] in H; try discriminate. injection H as <- <-.
    apply copy_inv in K. destruct K as ((_ & _ & Ev & _) & K2 & -> & L). rewrite Ev in T.
    eapply inv_grow with (b := b); try eassumption; try reflexivity; [|now apply insert_incr].
    unfold alive. cbn [vars set_ mset lst]. apply Permutation_map. rewrite (insert_perm b _ T). cbn [app]. symmetry. apply Permutation_middle.
  - injection H as <- <-. rewrite erase_filter by now apply incr_nondecr.
    apply (inv_shrink s); try assumption; try reflexivity; unfold alive; cbn [vars set_ mset lst].
    + unfold alive in A. rewrite !map_app in *. clear - A. rewrite !app_assoc in *.
      revert A. generalize (map e_id (vars s)). induction (set_ s) as [|y l IH]; intros h A; [exact A|].
      cbn [filter map] in *. destruct (negb _).
      * cbn [map]. specialize (IH (h ++ [e_id y])). rewrite <- !app_assoc in *. cbn [app] in *. exact (IH A).
      * apply IH. rewrite <- !app_assoc in *. cbn [app] in A. now apply NoDup_remove_1 in A.
    + apply incl_map. intros x J. rewrite !in_app_iff in *. rewrite filter_In in J. tauto.
    + now apply filter_incr.
  - destruct (copy_edge (next s) a) as [[b n]| | |] eqn:K; cbn [bind] in H; try discriminate. injection H as <- <-.
    apply copy_inv in K. destruct K as (_ & _ & -> & L). split; [exact A|]. split; [|cbn [next set_ mset]; repeat split; try assumption; lia].
    unfold alive in *. cbn [vars set_ mset lst next]. eapply Forall_impl; [|exact B]. intros; cbn in *; lia.
  - injection H as <- <-. apply (inv_shrink s); try assumption; try reflexivity; unfold alive in *; cbn [vars set_ mset lst app] in *.
    + rewrite !map_app in *. clear - A. revert A. induction (set_ s) as [|y l IH]; intros A; [exact A|].
      apply IH. cbn [map app] in A. now apply NoDup_remove_1 in A.
    + apply incl_map. intros x J. rewrite !in_app_iff in *. tauto.
    + constructor.
  - destruct (copy_edge (next s) a) as [[b n]| | |] eqn:K; cbn [bind] in H; try discriminate. injection H as <- <-.
    apply copy_inv in K. destruct K as (_ & K2 & -> & L).
    eapply inv_grow with (b := b); try eassumption; try reflexivity; [|now apply multi_sorted].
    unfold alive. cbn [vars set_ mset lst]. apply Permutation_map. rewrite (multi_perm b _). cbn [app].
    rewrite !(app_assoc (vars s)). symmetry. apply Permutation_middle.
  - destruct (t_find _ _ _ _) eqn:T; [|discriminate]. injection H as <- <-. rewrite erase_filter by assumption.
    apply (inv_shrink s); try assumption; try reflexivity; unfold alive; cbn [vars set_ mset lst].
    + unfold alive in A. rewrite !map_app in *. clear - A. rewrite !app_assoc in *.
      revert A. generalize (map e_id (vars s) ++ map e_id (set_ s)). induction (mset s) as [|y l IH]; intros h A; [exact A|].
      cbn [filter map] in *. destruct (negb _).
      * cbn [map]. specialize (IH (h ++ [e_id y])). rewrite <- !app_assoc in *. cbn [app] in *. exact (IH A).
      * apply IH. rewrite <- !app_assoc in *. cbn [app] in A. now apply NoDup_remove_1 in A.
    + apply incl_map. intros x J. rewrite !in_app_iff in *. rewrite filter_In in J. tauto.
    + now apply filter_incr.
  - injection H as <- <-. apply (inv_shrink s); try assumption; try reflexivity; unfold alive in *; cbn [vars set_ mset lst app] in *.
    + rewrite !map_app in *. clear - A. rewrite !app_assoc in *. revert A. generalize (map e_id (vars s) ++ map e_id (set_ s)).
      induction (mset s) as [|y l IH]; intros h A; [now rewrite app_nil_r in A|].
      apply IH. cbn [map] in A. rewrite <- !app_assoc in *. cbn [app] in A. now apply NoDup_remove_1 in A.
    + apply incl_map. intros x J. rewrite !in_app_iff in *. tauto.
    + constructor.
  - destruct (copy_edge (next s) a) as [[b n]| | |] eqn:K; cbn [bind] in H; try discriminate. injection H as <- <-.
    apply copy_inv in K. destruct K as (_ & K2 & -> & L).
    eapply inv_grow with (b := b); try eassumption; try reflexivity.
    unfold alive, seq_push. cbn [vars set_ mset lst]. apply Permutation_map. rewrite !app_assoc. symmetry. apply Permutation_cons_append.
  - destruct (copy_edge (next s) a) as [[b n]| | |] eqn:K; cbn [bind] in H; try discriminate. injection H as <- <-.
    apply copy_inv in K. destruct K as (_ & K2 & -> & L).
    eapply inv_grow with (b := b); try eassumption; try reflexivity.
    unfold alive, list_push_front. cbn [vars set_ mset lst]. apply Permutation_map. rewrite !app_assoc. symmetry. apply Permutation_middle.
  - destruct (seq_pop (lst s)) as [[a l]| | |] eqn:P; cbn [bind] in H; try discriminate. apply pop_inv in P.
    destruct (copy_edge (next s) a) as [[b n]| | |] eqn:K; cbn [bind] in H; try discriminate. injection H as <- <-.
    apply copy_inv in K. destruct K as (_ & K2 & -> & L).
    assert (J : inv (St (vars s) (set_ s) (mset s) l (next s))).
    { apply (inv_shrink s); try assumption; try reflexivity; unfold alive in *; cbn [vars set_ mset lst] in *; rewrite P in *.
      - rewrite !app_assoc in *. rewrite (map_app _ _ [a]) in A. cbn [map] in A. apply NoDup_remove_1 in A. now rewrite app_nil_r in A.
      - apply incl_map. intros x J. rewrite !in_app_iff in *. tauto. }
    eapply (inv_grow _ _ b J); try eassumption; try reflexivity.
    unfold alive. cbn [vars set_ mset lst]. apply Permutation_map. rewrite <- app_assoc. cbn [app]. symmetry. apply Permutation_middle.
  - injection H as <- <-. apply (inv_perm s); try assumption; try reflexivity. unfold alive. cbn [vars set_ mset lst].
    apply Permutation_map. now rewrite sort_perm.
  - injection H as <- <-. apply (inv_perm s); try assumption; try reflexivity. unfold alive, list_reverse. cbn [vars set_ mset lst].
    apply Permutation_map. now rewrite <- Permutation_rev.
  - destruct (var s w) as [b| | |]; cbn [bind] in H; try discriminate. injection H as <- <-. exact I.
  - destruct (var s w) as [b| | |]; cbn [bind] in H; try discriminate. injection H as <- <-. exact I.
Qed.
Lemma run_inv os : forall s s', inv s -> run_ops s os = Ok s' -> inv s'.
Proof.
  induction os as [|o os IH]; intros s s' I H; cbn [run_ops] in H; [now injection H as <-|].
  destruct (step s o) as [[s1 r]| | |] eqn:S; cbn [bind] in H; try discriminate.
  exact (IH s1 s' (step_inv _ _ _ _ I S) H).
Qed.

(** ** exactly when a call is undefined or fails *)
Lemma copy_bind {B} n a (k : edge * Z -> outcome B) : 0 <= n <= int32_max ->
  (forall b, copy_edge n a = Ok (b, n + 1) -> exists r, k (b, n + 1) = Ok r) ->
  (bind (copy_edge n a) k = UB <-> n = int32_max) /\ bind (copy_edge n a) k <> Err /\ bind (copy_edge n a) k <> Fuel.
Proof.
  intros R K. destruct (copy_cases n a) as [[L ->]|[L H]]; cbn [bind].
  - repeat split; try discriminate. intros _. lia.
  - destruct (H ltac:(lia)) as [b E]. rewrite E. cbn [bind]. destruct (K b E) as [r ->]. repeat split; try discriminate. intros ->. lia.
Qed.
Definition missing (s : state) (o : op) : Prop := exists v, In v (named o) /\ nth_error (vars s) v = None.
Lemma step_outcome s o : inv s ->
  (step s o = UB <-> missing s o \/ (constructs s o /\ next s = int32_max)) /\
  (step s o = Err <-> fails s o) /\ step s o <> Fuel.
Proof.
  intros I. pose proof I as (A & B & C & S1 & S2).
  assert (M1 : forall v (o' : op), named o' = [v] -> forall a, nth_error (vars s) v = Some a -> ~ missing s o').
  { intros v o' E a V (w & J & W). rewrite E in J. destruct J as [<-|[]]. congruence. }
  assert (M0 : forall (o' : op), named o' = [] -> ~ missing s o').
  { intros o' E (w & J & W). rewrite E in J. destruct J. }
  assert (M2 : forall v w (o' : op), named o' = [v; w] -> forall a b, nth_error (vars s) v = Some a -> nth_error (vars s) w = Some b -> ~ missing s o').
  { intros v w o' E a b V W (x & J & X). rewrite E in J. destruct J as [<-|[<-|[]]]; congruence. }
  assert (NM : forall v (o' : op), In v (named o') -> nth_error (vars s) v = None -> missing s o') by (intros v o' J N; exists v; auto).
  (* the three shapes of a call *)
  assert (TOT : forall o' r, step s o' = Ok r -> ~ missing s o' -> ~ (constructs s o' /\ next s = int32_max) -> ~ fails s o' ->
    (step s o' = UB <-> missing s o' \/ (constructs s o' /\ next s = int32_max)) /\ (step s o' = Err <-> fails s o') /\ step s o' <> Fuel).
  { intros o' r -> X Y Z. repeat split; try discriminate; intros; tauto. }
  assert (CPY : forall o' m, ~ missing s o' -> constructs s o' -> ~ fails s o' ->
     (m = UB <-> next s = int32_max) /\ m <> Err /\ m <> Fuel -> step s o' = m ->
    (step s o' = UB <-> missing s o' \/ (constructs s o' /\ next s = int32_max)) /\ (step s o' = Err <-> fails s o') /\ step s o' <> Fuel).
  { intros o' m X Y Z (P & Q & T) ->. rewrite P. repeat split; try assumption; try tauto. }
  assert (BAD : forall o' v, In v (named o') -> nth_error (vars s) v = None -> ~ fails s o' -> step s o' = UB ->
    (step s o' = UB <-> missing s o' \/ (constructs s o' /\ next s = int32_max)) /\ (step s o' = Err <-> fails s o') /\ step s o' <> Fuel).
  { intros o' v J N Z ->. repeat split; try discriminate; try tauto. intros _. left. eauto. }
  destruct o as [f t x|v|d v|v x|v x|v|v|v| | |v|v|v|v| | |v|v| | | | |v w|v w];
    try (eapply TOT; [reflexivity|now apply M0|cbn; tauto|cbn; tauto]);
    try (destruct (var_cases s v) as [(a & V & VE)|[V VE]];
         [|solve [eapply (BAD _ v); [cbn; auto|exact V|cbn; try tauto; intros (? & ? & _); congruence|cbn [step]; rewrite VE; reflexivity]
                 |destruct (var_cases s d) as [(a & V' & VE')|[V' VE']];
                  (eapply (BAD _ v); [cbn; auto|exact V|cbn; tauto|cbn [step]; rewrite ?VE'; cbn [bind]; rewrite ?VE; reflexivity])]]).
  - eapply CPY; [now apply M0|exact Logic.I|cbn; tauto| |reflexivity].
    cbn [step]. destruct (Z.eq_dec (next s) int32_max) as [E|E].
    + rewrite fresh_ub by lia. cbn [bind]. repeat split; try discriminate; auto.
    + rewrite fresh_ok by lia. cbn [bind]. repeat split; try discriminate. contradiction.
  - eapply CPY; [eapply M1; [reflexivity|exact V]|exact Logic.I|cbn; tauto| |cbn [step]; rewrite VE; cbn [bind]; reflexivity].
    apply copy_bind; [lia|]. intros. eexists. reflexivity.
  - destruct (var_cases s d) as [(b & W & WE)|[W WE]].
    + eapply TOT; [cbn [step]; rewrite WE; cbn [bind]; rewrite VE; reflexivity|eapply M2; [reflexivity|exact W|exact V]|cbn; tauto|cbn; tauto].
    + eapply (BAD _ d); [cbn; auto|exact W|cbn; tauto|cbn [step]; rewrite WE; reflexivity].
  - eapply TOT; [cbn [step]; rewrite VE; reflexivity|eapply M1; [reflexivity|exact V]|cbn; tauto|cbn; tauto].
  - eapply TOT; [cbn [step]; rewrite VE; reflexivity|eapply M1; [reflexivity|exact V]|cbn; tauto|cbn; tauto].
  - destruct (t_find (fun e => e) edge_lt a (set_ s)) eqn:T.
    + eapply TOT; [cbn [step]; rewrite VE; cbn [bind]; rewrite T; reflexivity|eapply M1; [reflexivity|exact V]| |cbn; tauto].
      intros [(a' & V' & N) _]. rewrite V in V'. injection V' as <-. apply (find_weak a _ (incr_nondecr _ S1)) in N. congruence.
    + eapply CPY; [eapply M1; [reflexivity|exact V]| |cbn; tauto| |cbn [step]; rewrite VE; cbn [bind]; rewrite T; reflexivity].
      * exists a. split; [exact V|]. now apply (find_weak a _ (incr_nondecr _ S1)).
      * apply copy_bind; [lia|]. intros. eexists. reflexivity.
  - eapply TOT; [cbn [step]; rewrite VE; reflexivity|eapply M1; [reflexivity|exact V]|cbn; tauto|cbn; tauto].
  - eapply CPY; [eapply M1; [reflexivity|exact V]|exact Logic.I|cbn; tauto| |cbn [step]; rewrite VE; cbn [bind]; reflexivity].
    apply copy_bind; [lia|]. intros. eexists. reflexivity.
  - eapply CPY; [eapply M1; [reflexivity|exact V]|exact Logic.I|cbn; tauto| |cbn [step]; rewrite VE; cbn [bind]; reflexivity].
    apply copy_bind; [lia|]. intros. eexists. reflexivity.
  - destruct (t_find (fun e => e) edge_lt a (mset s)) eqn:T.
    + eapply TOT; [cbn [step]; rewrite VE; cbn [bind]; rewrite T; reflexivity|eapply M1; [reflexivity|exact V]|cbn; tauto|].
      intros (a' & V' & N). rewrite V in V'. injection V' as <-. apply (find_weak a _ S2) in N. congruence.
    + cbn [step]. rewrite VE. cbn [bind]. rewrite T. apply (find_weak a _ S2) in T.
      assert (~ missing s (MErase v)) by (eapply M1; [reflexivity|exact V]).
      repeat split; try discriminate; cbn [constructs]; try tauto. intros _. exists a. auto.
  - eapply TOT; [cbn [step]; rewrite VE; reflexivity|eapply M1; [reflexivity|exact V]|cbn; tauto|cbn; tauto].
  - eapply TOT; [cbn [step]; rewrite VE; reflexivity|eapply M1; [reflexivity|exact V]|cbn; tauto|cbn; tauto].
  - eapply CPY; [eapply M1; [reflexivity|exact V]|exact Logic.I|cbn; tauto| |cbn [step]; rewrite VE; cbn [bind]; reflexivity].
    apply copy_bind; [lia|]. intros. eexists. reflexivity.
  - eapply CPY; [eapply M1; [reflexivity|exact V]|exact Logic.I|cbn; tauto| |cbn [step]; rewrite VE; cbn [bind]; reflexivity].
    apply copy_bind; [lia|]. intros. eexists. reflexivity.
  - destruct (pop_cases (lst s)) as [[L P]|(a & r & P & L)].
    + cbn [step]. rewrite P. cbn [bind]. assert (~ missing s LPop) by now apply M0.
      repeat split; try discriminate; cbn [constructs fails]; try tauto.
    + eapply CPY; [now apply M0| | | |cbn [step]; rewrite P; cbn [bind]; reflexivity].
      * cbn. rewrite L. now destruct r.
      * cbn. rewrite L. now destruct r.
      * apply copy_bind; [lia|]. intros. eexists. reflexivity.
  - destruct (var_cases s w) as [(b & W & WE)|[W WE]].
    + eapply TOT; [cbn [step]; rewrite VE; cbn [bind]; rewrite WE; reflexivity|eapply M2; [reflexivity|exact V|exact W]|cbn; tauto|cbn; tauto].
    + eapply (BAD _ w); [cbn; auto|exact W|cbn; tauto|cbn [step]; rewrite VE; cbn [bind]; rewrite WE; reflexivity].
  - destruct (var_cases s w) as [(b & W & WE)|[W WE]].
    + eapply TOT; [cbn [step]; rewrite VE; cbn [bind]; rewrite WE; reflexivity|eapply M2; [reflexivity|exact V|exact W]|cbn; tauto|cbn; tauto].
    + eapply (BAD _ w); [cbn; auto|exact W|cbn; tauto|cbn [step]; rewrite VE; cbn [bind]; rewrite WE; reflexivity].
Qed.

(** ** lookups use up ids *)
Lemma contains_step s v a : 0 <= next s -> nth_error (vars s) v = Some a -> next s < int32_max ->
  exists r, step s (SContains v) = Ok (St (vars s) (set_ s) (mset s) (lst s) (next s + 1), r).
Proof.
  intros P V L. cbn [step]. unfold var. rewrite V. cbn [bind]. unfold copy_edge. rewrite fresh_ok by assumption.
  cbn [bind]. eexists. reflexivity.
Qed.
Lemma lookups k : forall s v a, 0 <= next s <= int32_max -> nth_error (vars s) v = Some a ->
  run_ops s (repeat (SContains v) k) =
  if next s + Z.of_nat k <=? int32_max then Ok (St (vars s) (set_ s) (mset s) (lst s) (next s + Z.of_nat k)) else UB.
Proof.
  induction k as [|k IH]; intros s v a R V.
  - cbn [repeat run_ops Z.of_nat]. rewrite Z.add_0_r. destruct (Z.leb_spec (next s) int32_max); [now destruct s|lia].
  - cbn [repeat run_ops]. destruct (Z.eq_dec (next s) int32_max) as [E|E].
    + cbn [step]. unfold var. rewrite V. cbn [bind]. unfold copy_edge. rewrite fresh_ub by lia. cbn [bind].
      destruct (Z.leb_spec (next s + Z.of_nat (S k)) int32_max); [lia|reflexivity].
    + destruct (contains_step s v a ltac:(lia) V ltac:(lia)) as [r ->]. cbn [bind].
      rewrite (IH _ v a); [|cbn [next]; lia|exact V]. cbn [next vars set_ mset lst].
      replace (next s + 1 + Z.of_nat k) with (next s + Z.of_nat (S k)) by lia. reflexivity.
Qed.
(** ** copies of whole containers *)
Lemma copy_all_spec l : forall n, 0 <= n <= int32_max ->
  (int32_max < n + Z.of_nat (length l) /\ copy_all n l = UB) \/
  (exists l', copy_all n l = Ok (l', n + Z.of_nat (length l)) /\ Forall2 same_data l l' /\ Forall (fun e => n <= e_id e) l').
Proof.
  induction l as [|a l IH]; intros n R.
  - right. exists []. cbn [copy_all length Z.of_nat]. rewrite Z.add_0_r. repeat split; constructor.
  - cbn [copy_all]. destruct (copy_cases n a) as [[L ->]|[L H]]; cbn [bind].
    + left. split; [cbn [length]; lia|reflexivity].
    + destruct (H ltac:(lia)) as [b E]. rewrite E. cbn [bind]. apply copy_inv in E. destruct E as (SD & Eb & _ & _).
      destruct (IH (n + 1) ltac:(lia)) as [[L2 ->]|(l' & -> & F2 & F)]; cbn [bind].
      * left. split; [cbn [length]; lia|reflexivity].
      * right. exists (b :: l'). split; [|split].
        -- replace (n + 1 + Z.of_nat (length l)) with (n + Z.of_nat (length (a :: l))) by (cbn [length]; lia). reflexivity.
        -- now constructor.
        -- constructor; [lia|]. eapply Forall_impl; [|exact F]. intros; cbn in *; lia.
Qed.
