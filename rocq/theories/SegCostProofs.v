From Verif Require Import Base SegModel SegSpec SegCostModel SegCostSpec.
Local Open Scope Z_scope.

Lemma ok_pair {A B} (a c : A) (b d : B) : Ok (a, b) = Ok (c, d) -> a = c /\ b = d.
Proof. intros E. split; congruence. Qed.
(** * Forgetting the counters *)
Lemma omap_bind {A B C D} (f : B -> D) (g : A -> C) (m : outcome A) (k : A -> outcome B) (k' : C -> outcome D) :
  (forall a, omap f (k a) = k' (g a)) -> omap f (bind m k) = bind (omap g m) k'.
Proof. intros H. destruct m; simpl; auto. Qed.
Lemma omap_same {A B D} (f : B -> D) (m : outcome A) (k : A -> outcome B) (k' : A -> outcome D) :
  (forall a, omap f (k a) = k' a) -> omap f (bind m k) = bind m k'.
Proof. intros H. destruct m; simpl; auto. Qed.
Lemma bind_ret {A} (m : outcome A) : bind m (fun a => Ok a) = m.
Proof. now destruct m. Qed.

Lemma init_erase v fuel : forall l r o s, omap fst (initC fuel v l r o s) = init fuel v l r o s.
Proof.
  induction fuel as [|f IH]; intros l r o s; [reflexivity|]. cbn [initC init]. destruct (l =? r).
  - do 2 (apply omap_same; intros ?). etransitivity; [apply omap_same; intros; reflexivity|apply bind_ret].
  - cbv zeta. rewrite <- IH. apply omap_bind. intros [s1 p]. cbn [fst]. rewrite <- IH. apply omap_bind. intros [s2 q]. cbn [fst].
    do 3 (apply omap_same; intros ?). etransitivity; [apply omap_same; intros; reflexivity|apply bind_ret].
Qed.
Lemma build_erase v : omap fst (buildC v) = build v.
Proof. apply init_erase. Qed.
Lemma query_erase k lv rv fuel : forall l r o s, omap fst (queryC fuel k lv rv l r o s) = query fuel k lv rv l r o s.
Proof.
  induction fuel as [|f IH]; intros l r o s; [reflexivity|]. cbn [queryC query]. apply omap_same. intros s1.
  destruct ((lv <=? l) && (r <=? rv)); [apply omap_same; intros; reflexivity|]. cbv zeta.
  destruct (rv <=? Z.shiftr (l + r) 1).
  { rewrite <- IH. destruct (queryC f k lv rv l _ _ s1) as [[? ?]| | |]; reflexivity. }
  destruct (Z.shiftr (l + r) 1 <? lv).
  { rewrite <- IH. destruct (queryC f k lv rv _ _ _ s1) as [[? ?]| | |]; reflexivity. }
  rewrite <- IH. apply omap_bind. intros [[a s2] p]. cbn [fst]. rewrite <- IH. apply omap_bind. intros [[b s3] q]. reflexivity.
Qed.
Lemma interval_erase u lv rv fuel : forall l r o s, omap fst (intervalC fuel u lv rv l r o s) = interval fuel u lv rv l r o s.
Proof.
  induction fuel as [|f IH]; intros l r o s; [reflexivity|]. cbn [intervalC interval]. apply omap_same. intros s1.
  destruct ((lv <=? l) && (r <=? rv)).
  { apply omap_same; intros ?. etransitivity; [apply omap_same; intros; reflexivity|apply bind_ret]. }
  cbv zeta.
  replace (if lv <=? Z.shiftr (l + r) 1 then interval f u lv rv l (Z.shiftr (l + r) 1) (2 * o) s1 else Ok s1)
    with (omap fst (if lv <=? Z.shiftr (l + r) 1 then intervalC f u lv rv l (Z.shiftr (l + r) 1) (2 * o) s1 else Ok (s1, 0)))
    by (destruct (lv <=? Z.shiftr (l + r) 1); [apply IH|reflexivity]).
  apply omap_bind. intros [s2 p]. cbn [fst].
  replace (if Z.shiftr (l + r) 1 <? rv then interval f u lv rv (Z.shiftr (l + r) 1 + 1) r (2 * o + 1) s2 else Ok s2)
    with (omap fst (if Z.shiftr (l + r) 1 <? rv then intervalC f u lv rv (Z.shiftr (l + r) 1 + 1) r (2 * o + 1) s2 else Ok (s2, 0)))
    by (destruct (Z.shiftr (l + r) 1 <? rv); [apply IH|reflexivity]).
  destruct (if Z.shiftr (l + r) 1 <? rv then _ else _) as [[? ?]| | |]; reflexivity.
Qed.
Lemma step_erase c s : omap fst (stepC c s) = step c s.
Proof.
  destruct c as [k lv rv|u lv rv]; cbn [stepC step]; [|apply interval_erase].
  unfold query0C, query0. rewrite <- query_erase. apply omap_bind. intros [[a s'] n]. reflexivity.
Qed.
Lemma run_erase cs : forall s, omap fst (runC cs s) = run cs s.
Proof.
  induction cs as [|c cs IH]; intros s; [reflexivity|]. cbn [runC run]. rewrite <- step_erase. apply omap_bind.
  intros [s1 a]. cbn [fst]. rewrite <- IH. destruct (runC cs s1) as [[? ?]| | |]; reflexivity.
Qed.

(** * The number of visits depends on the intervals only *)
Fixpoint visits (fuel : nat) (lv rv l r : Z) : Z :=
  match fuel with
  | O => 0
  | S f =>
      if (lv <=? l) && (r <=? rv) then 1
      else
        let mid := Z.shiftr (l + r) 1 in
        1 + (if lv <=? mid then visits f lv rv l mid else 0) + (if mid <? rv then visits f lv rv (mid + 1) r else 0)
  end.
Lemma query_visits k lv rv fuel : forall l r o s x c, lv <= rv -> queryC fuel k lv rv l r o s = Ok (x, c) -> c = visits fuel lv rv l r.
Proof.
  induction fuel as [|f IH]; intros l r o s x c V E; [discriminate|]. cbn [queryC visits] in *.
  destruct (update o l r s) as [s1| | |]; try discriminate. cbn [bind] in E.
  destruct ((lv <=? l) && (r <=? rv)).
  { destruct (aget s1 o); try discriminate. cbn [bind] in E. congruence. }
  cbv zeta in *. set (mid := Z.shiftr (l + r) 1) in *.
  destruct (Z.leb_spec rv mid) as [A|A].
  { destruct (Z.leb_spec lv mid); [|lia]. destruct (Z.ltb_spec mid rv); [lia|].
    destruct (queryC f k lv rv l mid (2 * o) s1) as [[y n]| | |] eqn:Q; try discriminate. cbn [bind] in E. apply ok_pair in E; destruct E as [<- <-].
    apply IH in Q; [lia|assumption]. }
  destruct (Z.ltb_spec mid lv) as [B|B].
  { destruct (Z.leb_spec lv mid); [lia|]. destruct (Z.ltb_spec mid rv); [|lia].
    destruct (queryC f k lv rv (mid + 1) r (2 * o + 1) s1) as [[y n]| | |] eqn:Q; try discriminate. cbn [bind] in E. apply ok_pair in E; destruct E as [<- <-].
    apply IH in Q; [lia|assumption]. }
  destruct (Z.leb_spec lv mid); [|lia]. destruct (Z.ltb_spec mid rv); [|lia].
  destruct (queryC f k lv rv l mid (2 * o) s1) as [[[y s2] n]| | |] eqn:Q; try discriminate. cbn [bind] in E.
  destruct (queryC f k lv rv (mid + 1) r (2 * o + 1) s2) as [[[z s3] m]| | |] eqn:Q2; try discriminate. cbn [bind] in E. apply ok_pair in E; destruct E as [<- <-].
  apply IH in Q; [|assumption]. apply IH in Q2; [|assumption]. lia.
Qed.
Lemma interval_visits u lv rv fuel : forall l r o s x c, intervalC fuel u lv rv l r o s = Ok (x, c) -> c = visits fuel lv rv l r.
Proof.
  induction fuel as [|f IH]; intros l r o s x c E; [discriminate|]. cbn [intervalC visits] in *.
  destruct (update o l r s) as [s1| | |]; try discriminate. cbn [bind] in E.
  destruct ((lv <=? l) && (r <=? rv)).
  { destruct (aget s1 o) as [c0| | |]; try discriminate. cbn [bind] in E. destruct (aset s1 o (mark c0 u)); try discriminate.
    cbn [bind] in E. congruence. }
  cbv zeta in *. set (mid := Z.shiftr (l + r) 1) in *.
  destruct (if lv <=? mid then intervalC f u lv rv l mid (2 * o) s1 else Ok (s1, 0)) as [[s2 p]| | |] eqn:E1; try discriminate.
  cbn [bind] in E.
  destruct (if mid <? rv then intervalC f u lv rv (mid + 1) r (2 * o + 1) s2 else Ok (s2, 0)) as [[s3 q]| | |] eqn:E2; try discriminate.
  cbn [bind] in E. apply ok_pair in E; destruct E as [<- <-].
  assert (p = if lv <=? mid then visits f lv rv l mid else 0) by (destruct (lv <=? mid); [eapply IH; exact E1|congruence]).
  assert (q = if mid <? rv then visits f lv rv (mid + 1) r else 0) by (destruct (mid <? rv); [eapply IH; exact E2|congruence]).
  lia.
Qed.

(** * Bounds *)
Lemma mid_halves l r d : l < r -> 0 <= d -> r - l + 1 <= 2 ^ (d + 1) ->
  l <= Z.shiftr (l + r) 1 < r /\ Z.shiftr (l + r) 1 - l + 1 <= 2 ^ d /\ r - (Z.shiftr (l + r) 1 + 1) + 1 <= 2 ^ d.
Proof.
  intros L D H. rewrite Z.shiftr_div_pow2 by lia. change (2 ^ 1) with 2.
  rewrite Z.pow_add_r in H by lia. change (2 ^ 1) with 2 in H.
  pose proof (Z.div_mod (l + r) 2 ltac:(lia)). pose proof (Z.mod_pos_bound (l + r) 2 ltac:(lia)). lia.
Qed.
Lemma visits_cov fuel lv rv l r : lv <= l -> r <= rv -> visits fuel lv rv l r <= 1.
Proof.
  intros A B. destruct fuel; cbn [visits]; [lia|]. destruct (Z.leb_spec lv l); [|lia]. destruct (Z.leb_spec r rv); [|lia]. cbn. lia.
Qed.
Lemma visits_suffix d : forall fuel lv rv l r, 0 <= Z.of_nat d -> l < lv -> lv <= r -> r <= rv -> r - l + 1 <= 2 ^ Z.of_nat d ->
  visits fuel lv rv l r <= 2 * Z.of_nat d.
Proof.
  induction d as [|d IH]; intros fuel lv rv l r _ A B C D; [change (2 ^ Z.of_nat 0) with 1 in D; lia|].
  destruct fuel as [|f]; cbn [visits]; [lia|].
  destruct (Z.leb_spec lv l); [lia|]. cbn [andb]. cbv zeta.
  replace (Z.of_nat (S d)) with (Z.of_nat d + 1) in * by lia.
  destruct (mid_halves l r (Z.of_nat d) ltac:(lia) ltac:(lia) D) as (M1 & M2 & M3). set (mid := Z.shiftr (l + r) 1) in *.
  destruct (Z.leb_spec lv mid) as [E|E].
  - pose proof (IH f lv rv l mid ltac:(lia) A E ltac:(lia) M2) as V1.
    destruct (Z.ltb_spec mid rv); [|lia]. pose proof (visits_cov f lv rv (mid + 1) r ltac:(lia) C). lia.
  - destruct (Z.ltb_spec mid rv); [|lia].
    destruct (Z.le_gt_cases lv (mid + 1)).
    + pose proof (visits_cov f lv rv (mid + 1) r ltac:(lia) C). lia.
    + pose proof (IH f lv rv (mid + 1) r ltac:(lia) ltac:(lia) B C M3). lia.
Qed.
Lemma visits_prefix d : forall fuel lv rv l r, 0 <= Z.of_nat d -> lv <= l -> l <= rv -> rv < r -> r - l + 1 <= 2 ^ Z.of_nat d ->
  visits fuel lv rv l r <= 2 * Z.of_nat d.
Proof.
  induction d as [|d IH]; intros fuel lv rv l r _ A B C D; [change (2 ^ Z.of_nat 0) with 1 in D; lia|].
  destruct fuel as [|f]; cbn [visits]; [lia|].
  destruct (Z.leb_spec r rv); [lia|]. rewrite andb_false_r. cbv zeta.
  replace (Z.of_nat (S d)) with (Z.of_nat d + 1) in * by lia.
  destruct (mid_halves l r (Z.of_nat d) ltac:(lia) ltac:(lia) D) as (M1 & M2 & M3). set (mid := Z.shiftr (l + r) 1) in *.
  destruct (Z.ltb_spec mid rv) as [E|E].
  - pose proof (IH f lv rv (mid + 1) r ltac:(lia) ltac:(lia) ltac:(lia) C M3) as V1.
    destruct (Z.leb_spec lv mid); [|lia]. pose proof (visits_cov f lv rv l mid A ltac:(lia)). lia.
  - destruct (Z.leb_spec lv mid); [|lia].
    destruct (Z.le_gt_cases mid rv).
    + pose proof (visits_cov f lv rv l mid A ltac:(lia)). lia.
    + pose proof (IH f lv rv l mid ltac:(lia) A B ltac:(lia) M2). lia.
Qed.
Lemma visits_bound d : forall fuel lv rv l r, l <= r -> lv <= rv -> l <= rv -> lv <= r -> r - l + 1 <= 2 ^ Z.of_nat d ->
  visits fuel lv rv l r <= Z.max (Z.of_nat d + 1) (4 * Z.of_nat d - 3).
Proof.
  induction d as [|d IH]; intros fuel lv rv l r LR V A B D.
  { change (2 ^ Z.of_nat 0) with 1 in D. pose proof (visits_cov fuel lv rv l r ltac:(lia) ltac:(lia)). lia. }
  destruct fuel as [|f]; cbn [visits]; [lia|].
  destruct ((lv <=? l) && (r <=? rv)) eqn:COV; [lia|]. cbv zeta.
  assert (LT : l < r).
  { destruct (Z.eq_dec l r); [|lia]. subst. destruct (Z.leb_spec lv r); [|lia]. destruct (Z.leb_spec r rv); [|lia]. discriminate. }
  assert (NC : l < lv \/ rv < r).
  { destruct (Z.leb_spec lv l); [|lia]. destruct (Z.leb_spec r rv); [discriminate|lia]. }
  replace (Z.of_nat (S d)) with (Z.of_nat d + 1) in * by lia.
  destruct (mid_halves l r (Z.of_nat d) LT ltac:(lia) D) as (M1 & M2 & M3). set (mid := Z.shiftr (l + r) 1) in *.
  destruct (Z.leb_spec lv mid) as [E1|E1], (Z.ltb_spec mid rv) as [E2|E2].
  - assert (L1 : lv <= l /\ visits f lv rv l mid <= 1 \/ visits f lv rv l mid <= 2 * Z.of_nat d).
    { destruct (Z.le_gt_cases lv l); [left; split; [assumption|apply visits_cov; lia]|right; apply visits_suffix; lia]. }
    assert (R1 : r <= rv /\ visits f lv rv (mid + 1) r <= 1 \/ visits f lv rv (mid + 1) r <= 2 * Z.of_nat d).
    { destruct (Z.le_gt_cases r rv); [left; split; [assumption|apply visits_cov; lia]|right; apply visits_prefix; lia]. }
    lia.
  - pose proof (IH f lv rv l mid ltac:(lia) V ltac:(lia) E1 M2). lia.
  - pose proof (IH f lv rv (mid + 1) r ltac:(lia) V ltac:(lia) ltac:(lia) M3). lia.
  - lia.
Qed.
Lemma visits_node_bound fuel n lv rv : valid_range n lv rv -> visits fuel lv rv 0 (n - 1) <= node_bound n.
Proof.
  intros (A & B & C). unfold node_bound. pose proof (Z.log2_up_nonneg n) as NN.
  pose proof (visits_bound (Z.to_nat (Z.log2_up n)) fuel lv rv 0 (n - 1)) as H. rewrite Z2Nat.id in H by assumption.
  apply H; try lia. assert (n <= 2 ^ Z.log2_up n); [|lia].
  destruct (Z.eq_dec n 1) as [->|]; [simpl; lia|]. apply Z.log2_up_spec. lia.
Qed.

(** * Calls on a tree for n values *)
Definition sized (n : Z) (s : tree) : Prop := Z.of_nat (length s) = 4 * n.
Lemma sized_size n s : sized n s -> size s = n.
Proof. unfold sized, size. intros ->. rewrite Z.mul_comm. apply Z.div_mul. lia. Qed.
Lemma aset_len {A} (s : list A) i x s' : aset s i x = Ok s' -> length s' = length s.
Proof.
  unfold aset. match goal with |- (if ?b then _ else _) = _ -> _ => destruct b; [discriminate|] end. intros [= <-]. apply upd_length.
Qed.
Ltac bnd := repeat match goal with
  | H : bind ?m _ = Ok _ |- _ => let E := fresh "E" in destruct m as [?| | |] eqn:E; cbn [bind] in H; [|discriminate H..]
  | H : (if ?b then _ else _) = Ok _ |- _ => destruct b
  | H : (let (_, _) := ?p in _) = Ok _ |- _ => destruct p
  | H : Ok (_, _) = Ok (_, _) |- _ => apply ok_pair in H; destruct H; subst
  | H : Ok _ = Ok _ |- _ => injection H; clear H; intros; subst
  | H : aset _ _ _ = Ok _ |- _ => apply aset_len in H
  end.
Lemma push_mul_len c m s s' : push_mul c m s = Ok s' -> length s' = length s.
Proof. unfold push_mul. intros H. bnd. congruence. Qed.
Lemma push_add_len c m s s' : push_add c m s = Ok s' -> length s' = length s.
Proof. unfold push_add. intros H. bnd; congruence. Qed.
Lemma update_len o l r s s' : update o l r s = Ok s' -> length s' = length s.
Proof.
  unfold update. intros H. cbv zeta in H.
  repeat match goal with H : push_mul _ _ _ = Ok _ |- _ => apply push_mul_len in H | H : push_add _ _ _ = Ok _ |- _ => apply push_add_len in H
    | _ => progress bnd end; congruence.
Qed.
Lemma query_len k lv rv fuel : forall l r o s x s', query fuel k lv rv l r o s = Ok (x, s') -> length s' = length s.
Proof.
  induction fuel as [|f IH]; intros l r o s x s' H; [discriminate|]. cbn [query] in H. cbv zeta in H.
  destruct (update o l r s) as [s1| | |] eqn:U; try discriminate. cbn [bind] in H. apply update_len in U. rewrite <- U.
  destruct ((lv <=? l) && (r <=? rv)); [bnd; reflexivity|].
  destruct (rv <=? _); [eapply IH; exact H|]. destruct (_ <? lv); [eapply IH; exact H|].
  destruct (query f k lv rv l _ _ s1) as [[a s2]| | |] eqn:Q1; try discriminate. cbn [bind] in H.
  destruct (query f k lv rv _ r _ s2) as [[b s3]| | |] eqn:Q2; try discriminate. cbn [bind] in H. injection H as <- <-.
  apply IH in Q1. apply IH in Q2. congruence.
Qed.
Lemma interval_len u lv rv fuel : forall l r o s s', interval fuel u lv rv l r o s = Ok s' -> length s' = length s.
Proof.
  induction fuel as [|f IH]; intros l r o s s' H; [discriminate|]. cbn [interval] in H. cbv zeta in H.
  destruct (update o l r s) as [s1| | |] eqn:U; try discriminate. cbn [bind] in H. apply update_len in U. rewrite <- U.
  destruct ((lv <=? l) && (r <=? rv)); [bnd; congruence|].
  destruct (if lv <=? _ then _ else _) as [s2| | |] eqn:E1; try discriminate. cbn [bind] in H.
  assert (length s2 = length s1) as <- by (destruct (lv <=? _); [eapply IH; exact E1|congruence]).
  destruct (_ <? rv); [eapply IH; exact H|congruence].
Qed.
Lemma step_cost n c s s' k : sized n s -> valid_call n c -> stepC c s = Ok (s', k) -> sized n s' /\ k <= node_bound n.
Proof.
  intros S V E. pose proof (step_erase c s) as ER. rewrite E in ER. cbn [omap fst] in ER.
  destruct c as [q lv rv|u lv rv]; cbn [stepC step valid_call] in *.
  - unfold query0C, query0 in *. rewrite (sized_size n s S) in *.
    destruct (queryC _ q lv rv 0 (n - 1) 1 s) as [[[x s1] m]| | |] eqn:Q; try discriminate. cbn [bind] in E. apply ok_pair in E; destruct E as [<- <-].
    apply query_visits in Q; [|apply V]. split; [|rewrite Q; now apply visits_node_bound].
    destruct (query _ q lv rv 0 (n - 1) 1 s) as [[y s2]| | |] eqn:Q2; try discriminate. cbn [bind] in ER. injection ER as ->.
    apply query_len in Q2. unfold sized in *. congruence.
  - unfold interval0C, interval0 in *. rewrite (sized_size n s S) in *.
    apply interval_visits in E. split; [|rewrite E; now apply visits_node_bound].
    symmetry in ER. apply interval_len in ER. unfold sized in *. cbn [fst] in ER. congruence.
Qed.
Lemma run_cost n cs : forall s s' k, sized n s -> Forall (valid_call n) cs -> runC cs s = Ok (s', k) ->
  sized n s' /\ k <= Z.of_nat (length cs) * node_bound n.
Proof.
  induction cs as [|c cs IH]; intros s s' k S V E; cbn [runC] in E.
  - apply ok_pair in E; destruct E as [<- <-]. split; [assumption|simpl; lia].
  - inversion V as [|? ? V1 V2]; subst. destruct (stepC c s) as [[s1 a]| | |] eqn:E1; try discriminate. cbn [bind] in E.
    destruct (runC cs s1) as [[s2 b]| | |] eqn:E2; try discriminate. cbn [bind] in E. apply ok_pair in E; destruct E as [<- <-].
    destruct (step_cost n c s s1 a S V1 E1) as [S1 K1]. destruct (IH _ _ _ S1 V2 E2) as [S2 K2]. split; [assumption|].
    cbn [length]. lia.
Qed.
Lemma init_cost v fuel : forall l r o s s' k, l <= r -> initC fuel v l r o s = Ok (s', k) ->
  length s' = length s /\ k = 2 * (r - l + 1) - 1.
Proof.
  induction fuel as [|f IH]; intros l r o s s' k L E; [discriminate|]. cbn [initC] in E.
  destruct (Z.eqb_spec l r) as [->|NE].
  - bnd. split; [congruence|lia].
  - cbv zeta in E. 
    assert (M : l <= Z.shiftr (l + r) 1 < r).
    { rewrite Z.shiftr_div_pow2 by lia. change (2 ^ 1) with 2.
      pose proof (Z.div_mod (l + r) 2 ltac:(lia)). pose proof (Z.mod_pos_bound (l + r) 2 ltac:(lia)). lia. }
    set (mid := Z.shiftr (l + r) 1) in *.
    destruct (initC f v l mid (2 * o) s) as [[s1 p]| | |] eqn:E1; try discriminate. cbn [bind] in E.
    destruct (initC f v (mid + 1) r (2 * o + 1) s1) as [[s2 q]| | |] eqn:E2; try discriminate. cbn [bind] in E.
    apply IH in E1; [|lia]. apply IH in E2; [|lia]. bnd. split; [destruct E1, E2; congruence|lia].
Qed.
Lemma build_cost v s k : v <> [] -> buildC v = Ok (s, k) -> sized (Z.of_nat (length v)) s /\ k = 2 * Z.of_nat (length v) - 1.
Proof.
  intros N E. unfold buildC in E. apply init_cost in E; [|destruct v; [congruence|cbn [length]; lia]].
  destruct E as [E1 E2]. split; [|lia]. unfold sized. rewrite E1, repeat_length. lia.
Qed.

(** * The bound is reached *)
Lemma mid_pow l d : 0 <= d -> Z.shiftr (l + (l + 2 ^ (d + 1) - 1)) 1 = l + 2 ^ d - 1.
Proof.
  intros D. rewrite Z.shiftr_div_pow2 by lia. change (2 ^ 1) with 2. rewrite Z.pow_add_r by lia. change (2 ^ 1) with 2.
  replace (l + (l + 2 ^ d * 2 - 1)) with (1 + (l + 2 ^ d - 1) * 2) by lia. rewrite Z.div_add by lia. reflexivity.
Qed.
Lemma visits_one fuel lv rv l r : lv <= l -> r <= rv -> visits (S fuel) lv rv l r = 1.
Proof.
  intros A B. cbn [visits]. destruct (Z.leb_spec lv l); [|lia]. destruct (Z.leb_spec r rv); [|lia]. reflexivity.
Qed.
Lemma suffix_exact d : forall fuel l rv, (d < fuel)%nat -> (0 < d)%nat -> l + 2 ^ Z.of_nat d - 1 <= rv ->
  visits fuel (l + 1) rv l (l + 2 ^ Z.of_nat d - 1) = 2 * Z.of_nat d.
Proof.
  induction d as [|d IH]; intros fuel l rv F P R; [lia|]. destruct fuel as [|f]; [lia|].
  replace (Z.of_nat (S d)) with (Z.of_nat d + 1) in * by lia. cbn [visits]. cbv zeta.
  destruct (Z.leb_spec (l + 1) l); [lia|]. cbn [andb]. rewrite mid_pow by lia.
  pose proof (Z.pow_pos_nonneg 2 (Z.of_nat d) ltac:(lia) ltac:(lia)) as PW.
  assert (PD : 2 ^ (Z.of_nat d + 1) = 2 * 2 ^ Z.of_nat d) by (rewrite Z.pow_add_r by lia; change (2 ^ 1) with 2; lia).
  destruct (Z.ltb_spec (l + 2 ^ Z.of_nat d - 1) rv); [|lia].
  destruct f as [|f]; [lia|].
  rewrite (visits_one f (l + 1) rv (l + 2 ^ Z.of_nat d - 1 + 1)) by lia.
  destruct d as [|d].
  - change (2 ^ Z.of_nat 0) with 1. destruct (Z.leb_spec (l + 1) (l + 1 - 1)); [lia|]. simpl. lia.
  - rewrite IH by lia. destruct (Z.leb_spec (l + 1) (l + 2 ^ Z.of_nat (S d) - 1)) as [A|A]; [lia|].
    replace (Z.of_nat (S d)) with (Z.of_nat d + 1) in A by lia. rewrite Z.pow_add_r in A by lia. change (2 ^ 1) with 2 in A.
    pose proof (Z.pow_pos_nonneg 2 (Z.of_nat d) ltac:(lia) ltac:(lia)). lia.
Qed.
Lemma prefix_exact d : forall fuel l lv, (d < fuel)%nat -> (0 < d)%nat -> lv <= l ->
  visits fuel lv (l + 2 ^ Z.of_nat d - 2) l (l + 2 ^ Z.of_nat d - 1) = 2 * Z.of_nat d.
Proof.
  induction d as [|d IH]; intros fuel l lv F P R; [lia|]. destruct fuel as [|f]; [lia|].
  replace (Z.of_nat (S d)) with (Z.of_nat d + 1) in * by lia. cbn [visits]. cbv zeta.
  pose proof (Z.pow_pos_nonneg 2 (Z.of_nat d) ltac:(lia) ltac:(lia)) as PW.
  assert (PD : 2 ^ (Z.of_nat d + 1) = 2 * 2 ^ Z.of_nat d) by (rewrite Z.pow_add_r by lia; change (2 ^ 1) with 2; lia).
  destruct (Z.leb_spec (l + 2 ^ (Z.of_nat d + 1) - 1) (l + 2 ^ (Z.of_nat d + 1) - 2)); [lia|]. rewrite andb_false_r. rewrite mid_pow by lia.
  destruct (Z.leb_spec lv (l + 2 ^ Z.of_nat d - 1)); [|lia].
  destruct f as [|f]; [lia|].
  rewrite (visits_one f lv (l + 2 ^ (Z.of_nat d + 1) - 2) l (l + 2 ^ Z.of_nat d - 1)) by lia.
  destruct d as [|d].
  - change (2 ^ (Z.of_nat 0 + 1)) with 2. change (2 ^ Z.of_nat 0) with 1. destruct (Z.ltb_spec (l + 1 - 1) (l + 2 - 2)); [lia|]. simpl. lia.
  - set (p := 2 ^ Z.of_nat (S d)) in *.
    assert (2 <= p).
    { unfold p. replace (Z.of_nat (S d)) with (Z.of_nat d + 1) by lia. rewrite Z.pow_add_r by lia. change (2 ^ 1) with 2.
      pose proof (Z.pow_pos_nonneg 2 (Z.of_nat d) ltac:(lia) ltac:(lia)). lia. }
    rewrite PD. destruct (Z.ltb_spec (l + p - 1) (l + 2 * p - 2)); [|lia].
    replace (l + 2 * p - 2) with (l + p + p - 2) by lia. replace (l + 2 * p - 1) with (l + p + p - 1) by lia.
    replace (l + p - 1 + 1) with (l + p) by lia. pose proof (IH (S f) (l + p) lv ltac:(lia) ltac:(lia) ltac:(lia)) as G. fold p in G. rewrite G. lia.
Qed.
Lemma worst_exact d fuel : (2 <= d < fuel)%nat ->
  visits fuel 1 (2 ^ Z.of_nat d - 2) 0 (2 ^ Z.of_nat d - 1) = 4 * Z.of_nat d - 3.
Proof.
  intros D. destruct d as [|d]; [lia|]. destruct fuel as [|f]; [lia|]. 
  replace (Z.of_nat (S d)) with (Z.of_nat d + 1) in * by lia. cbn [visits]. cbv zeta. change (1 <=? 0) with false. cbn [andb].
  pose proof (mid_pow 0 (Z.of_nat d) ltac:(lia)) as MP. rewrite !Z.add_0_l in MP. rewrite Z.add_0_l, MP. clear MP.
  assert (PD : 2 ^ (Z.of_nat d + 1) = 2 * 2 ^ Z.of_nat d) by (rewrite Z.pow_add_r by lia; change (2 ^ 1) with 2; lia).
  assert (P2 : 2 <= 2 ^ Z.of_nat d).
  { replace (Z.of_nat d) with (Z.of_nat d - 1 + 1) by lia. rewrite Z.pow_add_r by lia. change (2 ^ 1) with 2.
    pose proof (Z.pow_pos_nonneg 2 (Z.of_nat d - 1) ltac:(lia) ltac:(lia)). lia. }
  destruct (Z.leb_spec 1 (2 ^ Z.of_nat d - 1)); [|lia].
  destruct (Z.ltb_spec (2 ^ Z.of_nat d - 1) (2 ^ (Z.of_nat d + 1) - 2)); [|lia].
  pose proof (suffix_exact d f 0 (2 ^ (Z.of_nat d + 1) - 2) ltac:(lia) ltac:(lia) ltac:(lia)) as S1. rewrite !Z.add_0_l in S1. rewrite S1.
  pose proof (prefix_exact d f (2 ^ Z.of_nat d) 1 ltac:(lia) ltac:(lia) ltac:(lia)) as S2.
  replace (2 ^ Z.of_nat d + 2 ^ Z.of_nat d - 2) with (2 ^ (Z.of_nat d + 1) - 2) in S2 by lia.
  replace (2 ^ Z.of_nat d + 2 ^ Z.of_nat d - 1) with (2 ^ (Z.of_nat d + 1) - 1) in S2 by lia.
  replace (2 ^ Z.of_nat d - 1 + 1) with (2 ^ Z.of_nat d) by lia. rewrite S2. lia.
Qed.
