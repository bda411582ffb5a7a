(** Proofs about references into Lists. *)
From Coq Require Import Permutation Sorted.
From Verif Require Import Base ContModel ContSpec ContProofs ListRefModel ListRefSpec.
Local Open Scope Z_scope.

(** ** where a stable sort takes an element *)
Section Rank.
Context {T : Type} (lt : T -> T -> bool) (WO : weak_order lt).
Implicit Types l s : list T.
Local Notation sorted := (StronglySorted (fun x y => lt y x = false)).
Lemma filter_perm (f : T -> bool) a b : Permutation a b -> length (filter f a) = length (filter f b).
Proof.
  induction 1 as [|x a b _ IH|x y a|a b c _ IH1 _ IH2]; cbn [filter]; [reflexivity|destruct (f x); cbn [length]; congruence| |congruence].
  destruct (f x), (f y); reflexivity.
Qed.
Lemma ins_nth y s : sorted s -> forall r x, nth_error s r = Some x -> nth_error (ins_sorted lt y s) (if lt x y then r else S r) = Some x.
Proof.
  induction 1 as [|z t _ IH F]; intros r x H; [destruct r; discriminate|]. cbn [ins_sorted]. destruct r as [|r]; cbn [nth_error] in H.
  - injection H as ->. destruct (lt x y); reflexivity.
  - destruct (lt z y) eqn:E; [specialize (IH r x H); now destruct (lt x y)|].
    replace (lt x y) with false; [exact H|]. symmetry. apply (nlt_trans lt WO y z x); [exact E|]. apply nth_error_In in H. exact (proj1 (Forall_forall _ _) F x H).
Qed.
Lemma ins_self y s : sorted s -> nth_error (ins_sorted lt y s) (length (filter (fun z => lt z y) s)) = Some y.
Proof.
  induction 1 as [|z t _ IH F]; [reflexivity|]. cbn [ins_sorted filter]. destruct (lt z y) eqn:E; [exact IH|].
  replace (filter (fun z => lt z y) t) with (@nil T); [reflexivity|]. clear IH. induction F as [|w t H _ IH]; [reflexivity|]. cbn [filter].
  replace (lt w y) with false; [exact IH|]. symmetry. exact (nlt_trans lt WO y z w E H).
Qed.
Lemma sort_rank : forall l i x, nth_error l i = Some x -> nth_error (list_sort lt l) (before lt l i) = Some x.
Proof.
  induction l as [|y t IH]; intros i x H; [destruct i; discriminate|]. change (list_sort lt (y :: t)) with (ins_sorted lt y (list_sort lt t)).
  destruct (sort_spec lt WO t) as (P & S & _). destruct i as [|i]; cbn [nth_error] in H; unfold before; cbn [nth_error].
  - injection H as ->. cbn [filter firstn length]. rewrite (lt_irr lt WO), Nat.add_0_r, (filter_perm _ _ _ P). now apply ins_self.
  - rewrite H. pose proof (IH i x H) as N. apply (ins_nth y _ S) in N. unfold before in N. rewrite H in N. rewrite <- N. f_equal. cbn [filter firstn].
    unfold same at 1. destruct (lt x y) eqn:E1.
    + rewrite (lt_asym lt WO x y E1). reflexivity.
    + destruct (lt y x); cbn [negb andb length]; lia.
Qed.
Lemma ins_first x s : sorted (x :: s) -> ins_sorted lt x s = x :: s.
Proof. intros H. inversion H as [|? ? _ F]; subst. destruct s as [|y s]; [reflexivity|]. cbn [ins_sorted]. inversion F as [|? ? E]; subst. now rewrite E. Qed.
Lemma merge_ins x a : sorted (x :: a) -> forall b, merge_loop lt (x :: a) b = ins_sorted lt x (merge_loop lt a b).
Proof.
  intros H. assert (F : forall z, match a with [] => True | w :: _ => lt z x = true -> lt z w = true end).
  { destruct a as [|w a]; [exact (fun _ => I)|]. intros z E. inversion H as [|? ? _ F]; subst. inversion F as [|? ? G]; subst. destruct (lt_neg lt WO z w x E); [assumption|congruence]. }
  induction b as [|y b IH].
  - replace (merge_loop lt a []) with a by (destruct a; reflexivity). symmetry. now apply ins_first.
  - change (merge_loop lt (x :: a) (y :: b)) with (if lt y x then y :: merge_loop lt (x :: a) b else x :: merge_loop lt a (y :: b)).
    destruct (lt y x) eqn:E.
    + rewrite IH. destruct a as [|w a]; [|].
      * change (merge_loop lt [] (y :: b)) with (y :: b). replace (merge_loop lt [] b) with b by (destruct b; reflexivity). cbn [ins_sorted]. now rewrite E.
      * change (merge_loop lt (w :: a) (y :: b)) with (if lt y w then y :: merge_loop lt (w :: a) b else w :: merge_loop lt a (y :: b)). rewrite (F y E). cbn [ins_sorted]. now rewrite E.
    + destruct a as [|w a]; [change (merge_loop lt [] (y :: b)) with (y :: b); cbn [ins_sorted]; now rewrite E|].
      change (merge_loop lt (w :: a) (y :: b)) with (if lt y w then y :: merge_loop lt (w :: a) b else w :: merge_loop lt a (y :: b)). destruct (lt y w); cbn [ins_sorted]; [now rewrite E|].
      inversion H as [|? ? _ G]; subst. inversion G as [|? ? G1]; subst. now rewrite G1.
Qed.
Lemma sort_sorted b : sorted b -> list_sort lt b = b.
Proof.
  induction b as [|y b IH]; intros H; [reflexivity|]. change (list_sort lt (y :: b)) with (ins_sorted lt y (list_sort lt b)). inversion H as [|? ? S _]; subst. rewrite IH by exact S. now apply ins_first.
Qed.
Lemma merge_sort b : sorted b -> forall a, sorted a -> merge_loop lt a b = list_sort lt (a ++ b).
Proof.
  intros B. induction a as [|x a IH]; intros H.
  - cbn [app]. rewrite sort_sorted by exact B. destruct b; reflexivity.
  - rewrite merge_ins by exact H. inversion H as [|? ? S _]; subst. rewrite IH by exact S. reflexivity.
Qed.
End Rank.

Section Proofs.
Context {A : Type} (lt : A -> A -> bool) (WO : weak_order lt).
Implicit Types (l m : list (node A)) (st : store A) (o : lop A).
Lemma node_order : weak_order (lt_node lt).
Proof. destruct WO as (I & T & N). unfold lt_node. split; [|split]; intros; eauto. Qed.
Lemma filter_map_length (f : A -> bool) l : length (filter f (map snd l)) = length (filter (fun n => f (snd n)) l).
Proof. induction l as [|n l IH]; [reflexivity|]. cbn [map filter]. destruct (f (snd n)); cbn [length]; congruence. Qed.
Lemma before_nodes l i : before lt (map snd l) i = before (lt_node lt) l i.
Proof.
  unfold before. rewrite nth_error_map. destruct (nth_error l i) as [n|]; [|reflexivity]. cbn [option_map]. rewrite firstn_map, !filter_map_length. reflexivity.
Qed.
Lemma rev_nth_error {T} (l : list T) i x : nth_error l i = Some x -> nth_error (rev l) (length l - 1 - i) = Some x.
Proof.
  intros H. assert (B : (i < length l)%nat) by (apply nth_error_Some; congruence).
  rewrite (nth_error_nth' (rev l) x) by (rewrite rev_length; lia). rewrite rev_nth by lia. f_equal. replace (length l - S (length l - 1 - i))%nat with i by lia. now apply nth_error_nth.
Qed.
Lemma mid_nth {T} (a b : list T) y i x : nth_error (a ++ b) i = Some x -> nth_error (a ++ y :: b) (if Z.of_nat i <? Z.of_nat (length a) then i else S i) = Some x.
Proof.
  destruct (Z.ltb_spec (Z.of_nat i) (Z.of_nat (length a))).
  - rewrite !nth_error_app1 by lia. auto.
  - rewrite !nth_error_app2 by lia. replace (S i - length a)%nat with (S (i - length a)) by lia. auto.
Qed.

Definition fresh_node (n : nat) (new : list (node A)) : Prop := new = [] \/ exists v, new = [(n, v)].
(** a call takes every node where the specification says, or drops it *)
Lemma call_track n l o : lint o ->
  match list_step (lt_node lt) l (tag n o) with
  | Ok (l', r) => exists gone new, fresh_node n new /\ Permutation (l' ++ gone) (l ++ new) /\
      forall i x, nth_error l i = Some x -> match goes lt (map snd l) o i with Some j => nth_error l' j = Some x | None => In x gone end
  | _ => True
  end.
Proof.
  intros W. destruct o as [i| | | | | |i v|i|v|v| | | |]; cbn [list_step tag lint goes] in *.
  - destruct (list_at l i) as [x| | |]; cbn [bind]; auto. exists [], []. split; [now left|]. rewrite app_nil_r. auto.
  - destruct (seq_first l) as [x| | |]; cbn [bind]; auto. exists [], []. split; [now left|]. rewrite app_nil_r. auto.
  - destruct (seq_last l) as [x| | |]; cbn [bind]; auto. exists [], []. split; [now left|]. rewrite app_nil_r. auto.
  - exists [], []. split; [now left|]. rewrite app_nil_r. auto.
  - exists [], []. split; [now left|]. rewrite app_nil_r. auto.
  - exists l, []. split; [now left|]. rewrite app_nil_r. split; [reflexivity|]. intros i x H. now apply nth_error_In in H.
  - pose proof (insert_spec l i (n, v) W) as H. destruct (seq_insert l i (n, v)) as [l'| | |]; cbn [bind]; auto. destruct H as (a & b & -> & <- & ->).
    exists [], [(n, v)]. split; [right; now exists v|]. rewrite app_nil_r. split; [|intros j x; apply mid_nth]. rewrite <- app_assoc. apply Permutation_app_head. apply Permutation_cons_append.
  - pose proof (erase_spec l i W) as H. destruct (seq_erase l i) as [l'| | |]; cbn [bind]; auto. destruct H as (a & y & b & -> & <- & ->).
    exists [y], []. split; [now left|]. rewrite app_nil_r. split.
    + rewrite <- app_assoc. apply Permutation_app_head. symmetry. apply Permutation_cons_append.
    + intros j x H. destruct (Z.eqb_spec (Z.of_nat j) (Z.of_nat (length a))) as [E|E].
      * apply Nat2Z.inj in E. subst j. rewrite nth_error_app2, Nat.sub_diag in H by lia. injection H as ->. now left.
      * destruct (Z.ltb_spec (Z.of_nat j) (Z.of_nat (length a))); [rewrite !nth_error_app1 in * by lia; exact H|]. rewrite nth_error_app2 in * by lia.
        replace (j - length a)%nat with (S (j - 1 - length a)) in H by lia. exact H.
  - exists [], [(n, v)]. split; [right; now exists v|]. rewrite app_nil_r. split; [reflexivity|]. intros i x H. unfold seq_push. rewrite nth_error_app1; [exact H|]. apply nth_error_Some. congruence.
  - exists [], [(n, v)]. split; [right; now exists v|]. rewrite app_nil_r. split; [apply Permutation_cons_append|]. auto.
  - pose proof (pop_spec l) as H. destruct (seq_pop l) as [[x l']| | |]; cbn [bind]; auto. subst l. exists [x], []. split; [now left|]. rewrite app_nil_r. split; [reflexivity|].
    intros i y H. rewrite map_length, app_length. cbn [length]. destruct (Nat.eqb_spec (S i) (length l' + 1)).
    + rewrite nth_error_app2 in H by lia. replace (i - length l')%nat with O in H by lia. injection H as ->. now left.
    + assert (i < length (l' ++ [x]))%nat by (apply nth_error_Some; congruence). rewrite app_length in *. cbn [length] in *. rewrite nth_error_app1 in H by lia. exact H.
  - pose proof (popf_spec l) as H. destruct (list_pop_front l) as [[x l']| | |]; cbn [bind]; auto. subst l. exists [x], []. split; [now left|]. rewrite app_nil_r.
    split; [symmetry; apply Permutation_cons_append|]. intros [|i] y H; cbn [nth_error] in H; [injection H as ->; now left|exact H].
  - exists [], []. split; [now left|]. rewrite !app_nil_r. split; [symmetry; apply Permutation_rev|]. intros i x H. rewrite map_length. now apply rev_nth_error.
  - exists [], []. split; [now left|]. rewrite !app_nil_r. split; [symmetry; apply (sort_spec (lt_node lt) node_order l)|]. intros i x H. rewrite before_nodes. apply sort_rank; [apply node_order|exact H].
Qed.

(** ** a call on nodes is the call on values *)
Lemma legal_nodes n l o : llegal l (tag n o) <-> llegal (map snd l) o.
Proof. destruct o; cbn [tag llegal]; rewrite ?map_length; try reflexivity; (split; intros H E; apply H; destruct l; [reflexivity|discriminate|reflexivity|discriminate]). Qed.
Lemma sorted_nodes l : StronglySorted (fun x y => lt_node lt y x = false) l <-> StronglySorted (fun x y => lt y x = false) (map snd l).
Proof.
  induction l as [|n l IH]; [split; constructor|]. cbn [map]. split; intros H; inversion H as [|? ? S F]; subst; (constructor; [now apply IH|]).
  - apply Forall_map. exact F.
  - apply Forall_map in F. exact F.
Qed.
Lemma same_nodes x l : map snd (filter (same (lt_node lt) x) l) = filter (same lt (snd x)) (map snd l).
Proof. induction l as [|n l IH]; [reflexivity|]. cbn [filter map]. change (same (lt_node lt) x n) with (same lt (snd x) (snd n)). destruct (same lt (snd x) (snd n)); cbn [map]; congruence. Qed.
Lemma stable_nodes l m : stable_sort (lt_node lt) l m -> stable_sort lt (map snd l) (map snd m).
Proof.
  intros (P & S & F). split; [now apply Permutation_map|]. split; [now apply sorted_nodes|]. intros x. specialize (F (O, x)). pose proof (same_nodes (O, x) l) as E1. pose proof (same_nodes (O, x) m) as E2.
  cbn [snd] in *. rewrite <- E1, <- E2. now rewrite F.
Qed.
Lemma post_nodes n l o l' r : lpost (lt_node lt) l (tag n o) l' r -> lpost lt (map snd l) o (map snd l') (untag r).
Proof.
  destruct o as [i| | | | | |i v|i|v|v| | | |]; cbn [tag lpost].
  - intros (-> & x & H & ->). split; [reflexivity|]. exists (snd x). rewrite nth_error_map, H. auto.
  - intros (-> & x & t & -> & ->). split; [reflexivity|]. exists (snd x), (map snd t). auto.
  - intros (-> & x & t & -> & ->). split; [reflexivity|]. exists (snd x), (map snd t). rewrite map_app. auto.
  - intros (-> & b & -> & H). split; [reflexivity|]. exists b. split; [reflexivity|]. rewrite H. destruct l as [|n0 l]; cbn [map]; split; intros E; try reflexivity; discriminate E.
  - intros (-> & ->). rewrite map_length. auto.
  - intros (-> & ->). auto.
  - intros (-> & a & b & -> & E & ->). split; [reflexivity|]. exists (map snd a), (map snd b). rewrite !map_app, map_length. auto.
  - intros (-> & a & y & b & -> & E & ->). split; [reflexivity|]. exists (map snd a), (snd y), (map snd b). rewrite !map_app, map_length. auto.
  - intros (-> & ->). rewrite map_app. auto.
  - intros (-> & ->). auto.
  - intros (x & -> & ->). exists (snd x). rewrite map_app. auto.
  - intros (x & -> & ->). exists (snd x). auto.
  - intros (-> & E & H). split; [reflexivity|]. rewrite !map_length. split; [exact E|]. intros i B. rewrite !nth_error_map, H by exact B. reflexivity.
  - intros (-> & H). split; [reflexivity|]. now apply stable_nodes.
Qed.

(** ** the invariant *)
Definition all st : list (node A) := one st ++ two st.
Definition found st (id : nat) (q : option (bool * nat)) : Prop :=
  (id < next st)%nat /\
  match q with
  | Some (s, i) => exists x, nth_error (side_of s st) i = Some (id, x)
  | None => ~ In id (map fst (all st))
  end.
Definition rep st (p : plain A) : Prop :=
  map snd (one st) = fst_list p /\ map snd (two st) = snd_list p /\ NoDup (map fst (all st)) /\
  Forall (fun id => id < next st)%nat (map fst (all st)) /\ Forall2 (found st) (held st) (places p).
Definition few st (n : Z) : Prop := Z.of_nat (length (one st) + length (two st)) + n <= int32_max.
Lemma sides s st : Permutation (all st) (side_of s st ++ side_of (negb s) st).
Proof. destruct s; cbn; [apply Permutation_app_comm|reflexivity]. Qed.
Lemma rep_pick s st p : rep st p -> map snd (side_of s st) = pick s p.
Proof. intros (E1 & E2 & _). destruct s; assumption. Qed.
Lemma onward_found st st' f ids ps : (forall id q, found st id q -> found st' id (match q with Some (s, i) => f s i | None => None end)) ->
  Forall2 (found st) ids ps -> Forall2 (found st') ids (onward f ps).
Proof. intros H. induction 1; cbn; constructor; auto. Qed.
Lemma fst_in {B} (x : nat * B) (l : list (nat * B)) : In x l -> In (fst x) (map fst l). Proof. apply in_map. Qed.

Lemma NoDup_app_remove_mid {T} (a b c : list T) : NoDup (a ++ b ++ c) -> NoDup (a ++ c).
Proof. induction b as [|y b IH]; [auto|]. intros H. apply IH. exact (NoDup_remove_1 a (b ++ c) y H). Qed.
Lemma Forall2_weak {X Y} (P Q : X -> Y -> Prop) : (forall x y, P x y -> Q x y) -> forall us vs, Forall2 P us vs -> Forall2 Q us vs.
Proof. intros H. induction 1; constructor; auto. Qed.
Lemma NoDup_front {T} (a b : list T) : NoDup (a ++ b) -> NoDup a.
Proof. intros H. rewrite <- (app_nil_r b) in H. apply NoDup_app_remove_mid in H. now rewrite app_nil_r in H. Qed.
Lemma found_fst st id s i : found st id (Some (s, i)) -> In id (map fst (side_of s st)).
Proof. intros (_ & x & H). apply nth_error_In in H. now apply fst_in in H. Qed.
Lemma in_all s st id : In id (map fst (all st)) <-> In id (map fst (side_of s st)) \/ In id (map fst (side_of (negb s) st)).
Proof.
  pose proof (Permutation_map fst (sides s st)) as P. rewrite map_app in P. split.
  - intros H. apply (Permutation_in _ P) in H. now apply in_app_or in H.
  - intros H. apply (Permutation_in _ (Permutation_sym P)). now apply in_or_app.
Qed.
Lemma nodup_sides s st : NoDup (map fst (all st)) -> NoDup (map fst (side_of s st ++ side_of (negb s) st)).
Proof. apply Permutation_NoDup. apply Permutation_map, sides. Qed.
Lemma side_same s l st : side_of s (with_side s l st) = l. Proof. destruct s; reflexivity. Qed.
Lemma side_other s l st : side_of (negb s) (with_side s l st) = side_of (negb s) st. Proof. destruct s; reflexivity. Qed.
Lemma nodup_fst_app (a b : list (node A)) id : NoDup (map fst (a ++ b)) -> In id (map fst a) -> ~ In id (map fst b).
Proof.
  rewrite map_app. intros N I J. induction (map fst a) as [|y t IH]; [exact I|]. cbn [app] in N. apply NoDup_cons_iff in N as [N1 N2]. destruct I as [->|I]; [|now apply IH].
  apply N1. apply in_or_app. now right.
Qed.

Lemma call_ok st p s o n : rep st p -> lint o -> few st (n + 1) -> 0 <= n ->
  match fstep lt st (Do s o) with
  | Ok (st', r) => llegal (pick s p) o /\ few st' n /\ exists p', rep st' p' /\ fpost lt p (Do s o) p' r
  | Err => ~ llegal (pick s p) o
  | _ => False
  end.
Proof.
  intros R W F N. pose proof R as (E1 & E2 & D & B & H). cbn [fstep]. set (l := side_of s st). set (m := side_of (negb s) st).
  assert (W' : lint (tag (next st) o)) by (destruct o; exact W).
  assert (L : small l (n + 1)) by (unfold small, l; unfold few in F; destruct s; cbn [side_of]; lia).
  pose proof (list_step_ok (lt_node lt) node_order l l (tag (next st) o) n eq_refl W' L N) as S. pose proof (call_track (next st) l o W) as T.
  destruct (list_step (lt_node lt) l (tag (next st) o)) as [[l' r]| | |]; cbn [bind]; [| |now apply S|exact S].
  2:{ destruct S as [S _]. rewrite legal_nodes in S. unfold l in S. now rewrite (rep_pick s st p R) in S. }
  destruct S as (Lg & Sm & s' & <- & Po). destruct T as (gone & new & Fr & P & T). rewrite legal_nodes in Lg. unfold l in Lg. rewrite (rep_pick s st p R) in Lg. split; [exact Lg|].
  set (st' := with_side s l' st). assert (Sl : side_of s st' = l') by apply side_same. assert (So : side_of (negb s) st' = m) by apply side_other.
  assert (Len : (length l' <= length l + 1)%nat).
  { pose proof (Permutation_length P) as Q. rewrite !app_length in Q. destruct Fr as [->|[v ->]]; cbn [length] in Q; lia. }
  split. { unfold few in *. unfold st'. subst l. destruct s; cbn [with_side one two side_of] in *; lia. }
  pose proof (nodup_sides s st D) as D'. fold l m in D'.
  assert (Nx : forall id, In id (map fst (all st)) -> (id < next st)%nat) by (intros id I; exact (proj1 (Forall_forall _ _) B id I)).
  (* all nodes that exist, with the new one, are distinct *)
  assert (DN : NoDup (map fst ((l ++ new) ++ m))).
  { destruct Fr as [->|[v ->]]; [now rewrite app_nil_r|]. rewrite <- app_assoc. apply (Permutation_NoDup (l := next st :: map fst (l ++ m))).
    - rewrite !map_app. cbn [map fst app]. apply Permutation_middle.
    - constructor; [|exact D']. intros I. rewrite map_app in I. apply in_app_or in I. apply (in_all s st) in I. apply Nx in I. lia. }
  assert (DP : NoDup (map fst ((l' ++ gone) ++ m))).
  { apply (Permutation_NoDup (l := map fst ((l ++ new) ++ m))); [|exact DN]. apply Permutation_map, Permutation_app_tail. now symmetry. }
  assert (IN : forall id, In id (map fst (l' ++ gone)) -> In id (map fst l) \/ id = next st).
  { intros id I. apply (Permutation_in _ (Permutation_map fst P)) in I. rewrite map_app in I. apply in_app_or in I as [I|I]; [now left|].
    destruct Fr as [->|[v ->]]; [destruct I|]. destruct I as [<-|[]]. now right. }
  assert (IA : forall id, In id (map fst (all st')) -> In id (map fst (all st)) \/ id = next st).
  { intros id I. apply (in_all s) in I. rewrite Sl, So in I. destruct I as [I|I].
    - destruct (IN id) as [J|J]; [rewrite map_app; apply in_or_app; now left| |now right]. left. apply (in_all s). now left.
    - left. apply (in_all s). now right. }
  assert (NX : next st' = S (next st)) by (unfold st'; destruct s; reflexivity).
  assert (Fo : forall id q, found st id q -> found st' id (match q with Some (t, i) => by_call lt s (pick s p) o t i | None => None end)).
  { intros id q Fq. pose proof Fq as (Lt & Q). split; [rewrite NX; lia|]. destruct q as [[t i]|]; [|intros I; apply IA in I as [I|I]; [contradiction|lia]]. unfold by_call.
    destruct (Bool.eqb_spec s t) as [<-|NE].
    - destruct Q as [x Q]. fold l in Q. specialize (T i _ Q). unfold l in T at 1. rewrite (rep_pick s st p R) in T. destruct (goes lt (pick s p) o i) as [j|].
      + exists x. now rewrite Sl.
      + intros I. apply (in_all s) in I. rewrite Sl, So in I. apply fst_in in T. cbn [fst] in T. destruct I as [I|I].
        * rewrite <- app_assoc in DP. apply (nodup_fst_app _ _ id DP I). rewrite map_app. apply in_or_app. now left.
        * apply (nodup_fst_app _ _ id DP); [|exact I]. rewrite map_app. apply in_or_app. now right.
    - assert (t = negb s) as -> by (destruct s, t; (reflexivity || congruence)). destruct Q as [x Q]. exists x. rewrite So. exact Q. }
  set (p' := Plain (map snd (one st')) (map snd (two st')) (onward (by_call lt s (pick s p) o) (places p))).
  assert (Pk : forall t, pick t p' = map snd (side_of t st')) by (intros []; reflexivity).
  exists p'. split.
  - split; [reflexivity|]. split; [reflexivity|]. split; [|split].
    + apply (Permutation_NoDup (l := map fst (l' ++ m))).
      * rewrite <- Sl, <- So. apply Permutation_map. symmetry. apply sides.
      * rewrite <- app_assoc in DP. rewrite map_app, (map_app fst gone m) in DP. rewrite map_app. apply NoDup_app_remove_mid in DP. exact DP.
    + rewrite NX. apply Forall_forall. intros id I. apply IA in I as [I|I]; [|lia]. apply Nx in I. lia.
    + replace (held st') with (held st) by (unfold st'; destruct s; reflexivity). cbn [places p']. exact (onward_found _ _ _ _ _ Fo H).
  - cbn [fpost]. rewrite !Pk, Sl, So. split; [|split; [apply rep_pick; exact R|reflexivity]]. rewrite <- (rep_pick s st p R). now apply post_nodes in Po.
Qed.

(** ** the other calls *)
Lemma take_ok st p s i x : rep st p -> nth_error (side_of s st) i = Some x -> rep (hold st x) (Plain (fst_list p) (snd_list p) (places p ++ [Some (s, i)])).
Proof.
  intros (E1 & E2 & D & B & H) N. split; [exact E1|]. split; [exact E2|]. split; [exact D|]. split; [exact B|]. cbn [held hold places]. apply Forall2_app; [exact H|].
  constructor; [|constructor]. split.
  - apply (proj1 (Forall_forall _ _) B). apply (in_all s). left. apply nth_error_In in N. now apply fst_in in N.
  - exists (snd x). destruct x as [id v]. destruct s; exact N.
Qed.
Lemma nth_places st p h q : rep st p -> nth_error (places p) h = Some q -> exists id, nth_error (held st) h = Some id /\ found st id q.
Proof.
  intros (_ & _ & _ & _ & H). revert h. induction H as [|id q' ids ps F _ IH]; intros [|h]; cbn; try discriminate; [|apply IH]. intros [= <-]. eauto.
Qed.
Lemma nth_held st p h : rep st p -> nth_error (places p) h = None -> nth_error (held st) h = None.
Proof.
  intros (_ & _ & _ & _ & H). revert h. induction H as [|id q' ids ps F _ IH]; intros [|h]; cbn; try discriminate; auto.
Qed.
Lemma node_in (l : list (node A)) i id x : NoDup (map fst l) -> nth_error l i = Some (id, x) -> node_at id l = Some (id, x).
Proof.
  unfold node_at. revert i. induction l as [|[k y] l IH]; intros [|i] D H; cbn [nth_error map fst find] in *; try discriminate.
  - injection H as -> ->. now rewrite Nat.eqb_refl.
  - apply NoDup_cons_iff in D as [D1 D2]. destruct (Nat.eqb_spec k id) as [->|]; [|now apply (IH i)]. exfalso. apply D1. apply nth_error_In in H. now apply fst_in in H.
Qed.
Lemma node_out (l : list (node A)) id : ~ In id (map fst l) -> node_at id l = None.
Proof.
  unfold node_at. induction l as [|[k y] l IH]; intros D; [reflexivity|]. cbn [find fst map] in *. destruct (Nat.eqb_spec k id) as [->|]; [exfalso; apply D; now left|]. apply IH. intros I. apply D. now right.
Qed.
Lemma seen_spec st p h : rep st p ->
  match nth_error (places p) h with
  | Some (Some (s, i)) => exists id x, seen st h = Ok (id, x) /\ nth_error (side_of s st) i = Some (id, x)
  | _ => seen st h = UB
  end.
Proof.
  intros R. pose proof R as (_ & _ & D & _ & _). destruct (nth_error (places p) h) as [q|] eqn:E; [|unfold seen; now rewrite (nth_held st p h R E)].
  destruct (nth_places st p h q R E) as (id & Hi & _ & F). unfold seen. rewrite Hi. destruct q as [[s i]|].
  - destruct F as [x F]. exists id, x. split; [|exact F]. pose proof (nodup_sides s st D) as D'. pose proof D' as D1. rewrite map_app in D1. apply NoDup_front in D1.
    pose proof (node_in _ _ _ _ D1 F) as N1. assert (N2 : node_at id (side_of (negb s) st) = None).
    { apply node_out. apply (nodup_fst_app _ _ id D'). apply nth_error_In in F. now apply fst_in in F. }
    destruct s; cbn [side_of negb] in N1, N2; rewrite ?N1, ?N2, ?N1; reflexivity.
  - unfold all in F. rewrite map_app in F. rewrite !node_out; [reflexivity| |]; intros I; apply F, in_or_app; auto.
Qed.
Lemma overwrite_fst id x (l : list (node A)) : map fst (overwrite id x l) = map fst l.
Proof. unfold overwrite. rewrite map_map. apply map_ext. intros n. destruct (Nat.eqb_spec (fst n) id) as [<-|]; reflexivity. Qed.
Lemma overwrite_out id x (l : list (node A)) : ~ In id (map fst l) -> overwrite id x l = l.
Proof.
  unfold overwrite. induction l as [|n l IH]; intros H; [reflexivity|]. cbn [map] in *. destruct (Nat.eqb_spec (fst n) id) as [E|]; [exfalso; apply H; now left|]. f_equal. apply IH. intros I. apply H. now right.
Qed.
Lemma overwrite_mid id x y (a b : list (node A)) : NoDup (map fst (a ++ (id, y) :: b)) -> overwrite id x (a ++ (id, y) :: b) = a ++ (id, x) :: b.
Proof.
  intros D. rewrite map_app in D. cbn [map fst] in D. apply NoDup_remove_2 in D. unfold overwrite. rewrite map_app. cbn [map fst]. rewrite Nat.eqb_refl. fold (overwrite id x a) (overwrite id x b).
  rewrite !overwrite_out; [reflexivity| |]; intros I; apply D, in_or_app; auto.
Qed.
Lemma overwrite_at id x i (l : list (node A)) k y : nth_error l i = Some (k, y) -> nth_error (overwrite id x l) i = Some (if Nat.eqb k id then (id, x) else (k, y)).
Proof. intros H. unfold overwrite. now rewrite nth_error_map, H. Qed.

Lemma put_ok st p h x s i id y : rep st p -> nth_error (places p) h = Some (Some (s, i)) -> nth_error (side_of s st) i = Some (id, y) ->
  let st' := Store (overwrite id x (one st)) (overwrite id x (two st)) (next st) (held st) in
  exists p', rep st' p' /\ fpost lt p (Put h x) p' RNone.
Proof.
  intros R E N st'. pose proof R as (E1 & E2 & D & B & H). exists (Plain (map snd (one st')) (map snd (two st')) (places p)).
  assert (Al : map fst (all st') = map fst (all st)) by (unfold all, st'; cbn [one two]; rewrite !map_app, !overwrite_fst; reflexivity).
  assert (Si : forall t, side_of t st' = overwrite id x (side_of t st)) by (intros []; reflexivity). split.
  - split; [reflexivity|]. split; [reflexivity|]. split; [now rewrite Al|]. split; [rewrite Al; exact B|]. cbn [places held st'].
    refine (Forall2_weak (found st) _ _ _ _ H). intros k q (L & F). split; [exact L|]. destruct q as [[t j]|]; [|now rewrite Al]. destruct F as [z F]. rewrite Si, (overwrite_at _ _ _ _ _ _ F).
    destruct (Nat.eqb_spec k id) as [->|]; eauto.
  - cbn [fpost places]. split; [reflexivity|]. split; [reflexivity|]. destruct (nth_error_split _ _ N) as (a & b & Es & La). exists s, i, (map snd a), y, (map snd b).
    assert (Pk : forall t, pick t (Plain (map snd (one st')) (map snd (two st')) (places p)) = map snd (side_of t st')) by (intros []; reflexivity). rewrite !Pk, !Si, <- !(rep_pick _ st p R), Es.
    pose proof (nodup_sides s st D) as D'. rewrite Es in D'. split; [exact E|]. split; [now rewrite map_app|]. split; [now rewrite map_length|]. split.
    + rewrite overwrite_mid; [now rewrite map_app|]. rewrite map_app in D'. now apply NoDup_front in D'.
    + rewrite overwrite_out; [reflexivity|]. apply (nodup_fst_app _ _ id D'). rewrite map_app. apply in_or_app. right. now left.
Qed.

Lemma merge_ok st p s n : rep st p -> few st (n + 1) -> 0 <= n ->
  match fstep lt st (Merge s) with
  | Ok (st', r) => flegal lt p (Merge s) /\ few st' n /\ exists p', rep st' p' /\ fpost lt p (Merge s) p' r
  | UB => ~ flegal lt p (Merge s)
  | _ => False
  end.
Proof.
  intros R Fw N. pose proof R as (E1 & E2 & D & B & H). cbn [fstep flegal]. set (l := side_of s st). set (m := side_of (negb s) st).
  assert (Sd : (StronglySorted (fun x y => lt y x = false) (fst_list p) /\ StronglySorted (fun x y => lt y x = false) (snd_list p)) <->
               is_sorted (lt_node lt) l && is_sorted (lt_node lt) m = true).
  { rewrite andb_true_iff, !(is_sorted_ss (lt_node lt) node_order), !sorted_nodes, <- E1, <- E2. unfold l, m. destruct s; cbn [side_of negb]; tauto. }
  unfold list_merge. destruct (is_sorted (lt_node lt) l && is_sorted (lt_node lt) m) eqn:Es; cbn [bind]; [|rewrite Sd; congruence]. split; [now apply Sd|].
  apply andb_true_iff in Es as [Sl Sm]. rewrite (is_sorted_ss (lt_node lt) node_order) in Sl, Sm. rewrite (merge_sort (lt_node lt) node_order m Sm l Sl).
  destruct (sort_spec (lt_node lt) node_order (l ++ m)) as (P & St & Fi). set (k := list_sort (lt_node lt) (l ++ m)) in *. set (st' := with_side (negb s) [] (with_side s k st)).
  assert (S1 : side_of s st' = k) by (destruct s; reflexivity). assert (S2 : side_of (negb s) st' = []) by (destruct s; reflexivity).
  assert (NX : next st' = S (S (next st))) by (destruct s; reflexivity).
  assert (PA : Permutation (all st) (all st')).
  { rewrite (sides s st), (sides s st'), S1, S2, app_nil_r. exact P. }
  split. { unfold few in *. pose proof (Permutation_length PA) as Q. unfold all in Q. rewrite !app_length in Q. lia. }
  assert (IA : forall id, In id (map fst (all st')) <-> In id (map fst (all st))).
  { intros id. split; apply Permutation_in; [symmetry|]; now apply Permutation_map. }
  set (p' := Plain (map snd (one st')) (map snd (two st')) (onward (by_merge lt s (pick s p) (pick (negb s) p)) (places p))).
  assert (Pk : forall t, pick t p' = map snd (side_of t st')) by (intros []; reflexivity).
  exists p'. split.
  - split; [reflexivity|]. split; [reflexivity|]. split; [|split].
    + apply (Permutation_NoDup (l := map fst (all st))); [now apply Permutation_map|exact D].
    + rewrite NX. apply Forall_forall. intros id I. apply IA in I. apply (proj1 (Forall_forall _ _) B) in I. lia.
    + replace (held st') with (held st) by (destruct s; reflexivity). cbn [places p']. refine (onward_found _ _ _ _ _ _ H). intros id q (L & F). split; [lia|].
      destruct q as [[t i]|]; [|now rewrite IA]. unfold by_merge. destruct F as [x F]. exists x. rewrite S1, <- !(rep_pick _ st p R), <- map_app, before_nodes, map_length. fold l m.
      apply sort_rank; [apply node_order|]. destruct (Bool.eqb_spec s t) as [<-|NE].
      * rewrite nth_error_app1; [exact F|]. apply nth_error_Some. fold l in F. congruence.
      * assert (t = negb s) as -> by (destruct s, t; (reflexivity || congruence)). rewrite nth_error_app2 by lia. replace (length l + i - length l)%nat with i by lia. exact F.
  - cbn [fpost]. rewrite !Pk, S1, S2. split; [reflexivity|]. split; [|split; reflexivity]. rewrite <- !(rep_pick _ st p R), <- map_app. apply stable_nodes. split; [exact P|]. split; [exact St|exact Fi].
Qed.

Lemma fstep_ok : step_ok (fstep lt) rep (flegal lt) loose (fpost lt) fint few.
Proof.
  intros st p o n R W F N. destruct o as [s o|s i|s|s|s|h|h x]; cbn [fint] in W.
  - pose proof (call_ok st p s o n R W F N) as C. destruct (fstep lt st (Do s o)) as [[st' r]| | |]; cbn [flegal loose]; auto; contradiction.
  - cbn [fstep flegal loose]. pose proof (list_at_spec (side_of s st) i W) as S. rewrite <- (rep_pick s st p R), map_length. destruct (list_at (side_of s st) i) as [x| | |]; cbn [bind]; auto; try contradiction.
    destruct S as [S1 S2]. split; [exact S1|]. split; [unfold few in *; cbn [hold one two]; lia|]. eexists. split; [exact (take_ok st p s _ x R S2)|]. cbn [fpost]. auto.
  - cbn [fstep flegal loose]. pose proof (first_spec (side_of s st)) as S. rewrite <- (rep_pick s st p R). destruct (seq_first (side_of s st)) as [x| | |]; cbn [bind]; try contradiction; [|rewrite S; cbn; tauto].
    destruct S as [t S]. split; [now rewrite S|]. split; [unfold few in *; cbn [hold one two]; lia|]. eexists. split; [apply (take_ok st p s O x R); now rewrite S|]. cbn [fpost]. auto.
  - cbn [fstep flegal loose]. pose proof (last_spec (side_of s st)) as S. pose proof (rep_pick s st p R) as Pk. destruct (seq_last (side_of s st)) as [x| | |]; cbn [bind]; try contradiction; [|rewrite <- Pk, S; cbn; tauto].
    destruct S as [t S]. split; [rewrite <- Pk, S, map_app; now destruct t|]. split; [unfold few in *; cbn [hold one two]; lia|]. eexists. split.
    + apply (take_ok st p s (length (pick s p) - 1) x R). rewrite <- Pk, map_length, S, app_length. cbn [length]. replace (length t + 1 - 1)%nat with (length t) by lia.
      rewrite nth_error_app2, Nat.sub_diag by lia. reflexivity.
    + cbn [fpost]. auto.
  - pose proof (merge_ok st p s n R F N) as C. destruct (fstep lt st (Merge s)) as [[st' r]| | |]; cbn [loose]; auto; contradiction.
  - cbn [fstep flegal loose]. pose proof (seen_spec st p h R) as S. destruct (nth_error (places p) h) as [[[s i]|]|] eqn:E.
    + destruct S as (id & x & -> & Ni). cbn [bind snd]. split; [eauto|]. split; [unfold few in *; lia|]. exists p. split; [exact R|]. cbn [fpost]. split; [reflexivity|]. exists s, i, x.
      split; [exact E|]. split; [|reflexivity]. now rewrite <- (rep_pick s st p R), nth_error_map, Ni.
    + rewrite S. cbn [bind]. split; [|exact I]. intros [q Q]. discriminate.
    + rewrite S. cbn [bind]. split; [|exact I]. intros [q Q]. discriminate.
  - cbn [fstep flegal loose]. pose proof (seen_spec st p h R) as S. destruct (nth_error (places p) h) as [[[s i]|]|] eqn:E.
    + destruct S as (id & y & -> & Ni). cbn [bind fst]. split; [eauto|]. split; [unfold few, overwrite in *; cbn [one two]; rewrite !map_length; lia|]. exact (put_ok st p h x s i id y R E Ni).
    + rewrite S. cbn [bind]. split; [|exact I]. intros [q Q]. discriminate.
    + rewrite S. cbn [bind]. split; [|exact I]. intros [q Q]. discriminate.
Qed.
Lemma number_fst n (l : list A) : map fst (number n l) = seq n (length l).
Proof. unfold number. revert n. induction l as [|x l IH]; intros n; [reflexivity|]. cbn. now rewrite IH. Qed.
Lemma number_snd n (l : list A) : map snd (number n l) = l.
Proof. unfold number. revert n. induction l as [|x l IH]; intros n; [reflexivity|]. cbn. now rewrite IH. Qed.
Lemma lists_rep (a b : list A) : rep (lists a b) (Plain a b []).
Proof.
  assert (E : map fst (all (lists a b)) = seq 0 (length a + length b)) by (unfold all; cbn [lists one two]; rewrite map_app, !number_fst, seq_app; reflexivity).
  split; [apply number_snd|]. split; [apply number_snd|]. rewrite E. split; [apply seq_NoDup|]. split; [|constructor]. apply Forall_forall. intros id I. apply in_seq in I. cbn [lists next]. lia.
Qed.
Lemma rep_holds st p : rep st p -> holds st p.
Proof. intros (E1 & E2 & _ & _ & H). split; [exact E1|]. split; [exact E2|]. clear - H. induction H; cbn; congruence. Qed.

(** ** nothing removed, nothing lost *)
Definition whole (p : plain A) (n : nat) : Prop := length (places p) = n /\ Forall (fun q => q <> None) (places p).
Lemma onward_whole f ps : (forall s i, f s i <> None) -> Forall (fun q => q <> None) ps -> Forall (fun q => q <> None) (onward f ps).
Proof. intros H. induction 1 as [|[[s i]|] ps N _ IH]; cbn; constructor; auto. Qed.
Lemma kept_history p os p' rs n : history (fun p (o : fop A) p' r => flegal lt p o /\ fpost lt p o p' r) p os p' rs -> forallb (fun o : fop A => negb (removes o)) os = true ->
  whole p n -> whole p' (n + taken os).
Proof.
  intros H. revert n. induction H as [p|p o p1 r os p2 rs [_ P] _ IH]; intros n K W; cbn [taken forallb] in *; [now rewrite Nat.add_0_r|].
  apply andb_true_iff in K as [K1 K2]. apply negb_true_iff in K1. destruct W as [W1 W2]. rewrite Nat.add_assoc. apply IH; [exact K2|].
  destruct o as [s o|s i|s|s|s|h|h x]; cbn [fpost takes] in *.
  - destruct P as (_ & _ & P). unfold whole. rewrite P, Nat.add_0_r. split; [unfold onward; now rewrite map_length|]. apply onward_whole; [|exact W2]. intros t i. unfold by_call. destruct (Bool.eqb s t); [|discriminate].
    destruct o; cbn [goes removes] in *; discriminate.
  - destruct P as [_ ->]. cbn [whole places]. split; cbn [places]; [rewrite app_length; cbn; lia|]. apply Forall_app. split; [exact W2|]. constructor; [discriminate|constructor].
  - destruct P as [_ ->]. split; cbn [places]; [rewrite app_length; cbn; lia|]. apply Forall_app. split; [exact W2|]. constructor; [discriminate|constructor].
  - destruct P as [_ ->]. split; cbn [places]; [rewrite app_length; cbn; lia|]. apply Forall_app. split; [exact W2|]. constructor; [discriminate|constructor].
  - destruct P as (_ & _ & _ & P). unfold whole. rewrite P, Nat.add_0_r. split; [unfold onward; now rewrite map_length|]. apply onward_whole; [|exact W2]. intros t i. discriminate.
  - destruct P as [-> _]. now rewrite Nat.add_0_r.
  - destruct P as (_ & P & _). rewrite Nat.add_0_r. unfold whole. rewrite P. auto.
Qed.
End Proofs.
