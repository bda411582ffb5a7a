(** Containers: proofs. *)
From Coq Require Import Permutation Sorted.
From Verif Require Import Base ContModel ContSpec.
Local Open Scope Z_scope.

Section Refine.
Context {C S O R : Type} (step : C -> O -> outcome (C * R)) (rep : C -> S -> Prop)
  (legal : S -> O -> Prop) (unchecked : O -> Prop) (post : S -> O -> S -> R -> Prop) (wf : O -> Prop) (small : C -> Z -> Prop).
Definition step_ok : Prop := forall c s o n, rep c s -> wf o -> small c (n + 1) -> 0 <= n ->
  match step c o with
  | Ok (c', r) => legal s o /\ small c' n /\ exists s', rep c' s' /\ post s o s' r
  | Err => ~ legal s o /\ ~ unchecked o
  | UB => ~ legal s o /\ unchecked o
  | Fuel => False
  end.
Lemma run_refines : step_ok -> forall os c s, rep c s -> Forall wf os -> small c (Z.of_nat (length os)) ->
  refines rep legal unchecked post s os (run step c os).
Proof.
  intros H. induction os as [|o os IH]; intros c s Rp W B; cbn [run].
  - cbn. exists s. split; [assumption|constructor].
  - inversion W as [|? ? Wo Wos]; subst. cbn [length] in B. rewrite Nat2Z.inj_succ in B.
    specialize (H c s o (Z.of_nat (length os)) Rp Wo B ltac:(lia)).
    destruct (step c o) as [[c' r]| | |] eqn:E; cbn [bind]; try contradiction.
    + destruct H as (Lg & B' & s' & Rp' & Po). specialize (IH c' s' Rp' Wos B').
      destruct (run step c' os) as [[c2 rs]| | |]; cbn [bind]; cbn in IH |- *; try contradiction.
      * destruct IH as (s2 & R2 & Hi). exists s2. split; [assumption|]. econstructor; eauto.
      * destruct IH as (os1 & o1 & os2 & s1 & rs & -> & Hi & N). exists (o :: os1), o1, os2, s1, (r :: rs).
        split; [reflexivity|]. split; [|assumption]. econstructor; eauto.
      * destruct IH as (os1 & o1 & os2 & s1 & rs & -> & Hi & N). exists (o :: os1), o1, os2, s1, (r :: rs).
        split; [reflexivity|]. split; [|assumption]. econstructor; eauto.
    + exists [], o, os, s, []. split; [reflexivity|]. split; [constructor|assumption].
    + exists [], o, os, s, []. split; [reflexivity|]. split; [constructor|assumption].
Qed.
End Refine.

Section Seq.
Context {T : Type}.
Implicit Types l : list T.
Lemma stl_back_spec l x : stl_back (l ++ [x]) = Ok x.
Proof. induction l as [|y [|z t] IH]; simpl in *; auto. Qed.
Lemma stl_pop_back_spec l x : stl_pop_back (l ++ [x]) = Ok l.
Proof.
  induction l as [|y t IH]; [reflexivity|]. cbn [app stl_pop_back]. destruct (t ++ [x]) eqn:E; [now destruct t|].
  rewrite IH. reflexivity.
Qed.
Lemma splice_spec f : forall n l, splice f l n =
  if (n <=? length l)%nat then omap (app (firstn n l)) (f (skipn n l)) else UB.
Proof.
  induction n as [|n IH]; intros [|x t]; cbn [splice length firstn skipn Nat.leb].
  - destruct (f []); reflexivity.
  - destruct (f (x :: t)); reflexivity.
  - reflexivity.
  - rewrite IH. destruct (Nat.leb n (length t)); [|reflexivity]. destruct (f (skipn n t)); reflexivity.
Qed.
Lemma wrapu_small i : in_int32 i = true -> 0 <= i -> wrapu64 i = i.
Proof. unfold in_int32, int32_min, int32_max, wrapu64. intros. apply Z.mod_small. lia. Qed.
Lemma boundary_spec l i : in_int32 i = true ->
  (0 <= i < Z.of_nat (length l) /\ boundaryCheck l i = Ok tt) \/
  (~ 0 <= i < Z.of_nat (length l) /\ boundaryCheck l i = Err).
Proof.
  intros I. unfold boundaryCheck, len. destruct (Z.ltb_spec i 0); [right; split; [lia|reflexivity]|].
  rewrite wrapu_small by assumption. cbn [orb]. destruct (Z.leb_spec (Z.of_nat (length l)) i); [right|left]; (split; [lia|reflexivity]).
Qed.
Lemma split_at l i : 0 <= i < Z.of_nat (length l) ->
  exists a x b, l = a ++ x :: b /\ Z.of_nat (length a) = i /\ Z.to_nat i = length a.
Proof.
  intros H. destruct (nth_error l (Z.to_nat i)) as [x|] eqn:E.
  - destruct (nth_error_split l _ E) as (a & b & -> & L). exists a, x, b. split; [reflexivity|]. lia.
  - apply nth_error_None in E. lia.
Qed.
Lemma nth_mid a (x : T) b : nth_error (a ++ x :: b) (length a) = Some x.
Proof. rewrite nth_error_app2, Nat.sub_diag by lia. reflexivity. Qed.
Lemma upd_mid a (y : T) b x : upd (a ++ y :: b) (length a) x = a ++ x :: b.
Proof. induction a as [|z a IH]; simpl; [reflexivity|now rewrite IH]. Qed.
Lemma firstn_mid a (b : list T) : firstn (length a) (a ++ b) = a.
Proof. rewrite firstn_app, Nat.sub_diag, firstn_O, app_nil_r, firstn_all. reflexivity. Qed.
Lemma skipn_mid a (b : list T) : skipn (length a) (a ++ b) = b.
Proof. rewrite skipn_app, Nat.sub_diag, skipn_all. reflexivity. Qed.
Lemma vec_get_spec l i : in_int32 i = true ->
  match vec_get l i with
  | Ok x => 0 <= i < Z.of_nat (length l) /\ nth_error l (Z.to_nat i) = Some x
  | Err => ~ 0 <= i < Z.of_nat (length l)
  | _ => False
  end.
Proof.
  intros I. unfold vec_get. destruct (boundary_spec l i I) as [[B ->]|[B ->]]; cbn [bind]; [|exact B].
  unfold stl_at, len. rewrite wrapu_small by (assumption || lia). destruct (Z.ltb_spec i (Z.of_nat (length l))); [|lia].
  destruct (split_at l i B) as (a & x & b & -> & La & Li).
  rewrite (aget_nth_error _ i x) by (try lia; rewrite Li; apply nth_mid). split; [assumption|]. rewrite Li. apply nth_mid.
Qed.
Lemma first_spec l : match seq_first l with Ok x => exists t, l = x :: t | Err => l = [] | _ => False end.
Proof. destruct l; simpl; eauto. Qed.
Lemma back_split l : l = [] \/ exists t x, l = t ++ [x].
Proof. destruct l as [|y l]; [now left|right]. destruct (@exists_last T (y :: l) ltac:(discriminate)) as (t & x & E). eauto. Qed.
Lemma last_spec l : match seq_last l with Ok x => exists t, l = t ++ [x] | Err => l = [] | _ => False end.
Proof.
  destruct (back_split l) as [-> | (t & x & ->)]; [reflexivity|]. unfold seq_last, emptyCheck.
  destruct (t ++ [x]) eqn:E; [now destruct t|]. cbn [bind]. rewrite <- E, stl_back_spec. eauto.
Qed.
Lemma pop_spec l : match seq_pop l with Ok (x, l') => l = l' ++ [x] | Err => l = [] | _ => False end.
Proof.
  destruct (back_split l) as [-> | (t & x & ->)]; [reflexivity|]. unfold seq_pop, emptyCheck.
  destruct (t ++ [x]) eqn:E; [now destruct t|]. cbn [bind]. rewrite <- E, stl_back_spec. cbn [bind].
  rewrite stl_pop_back_spec. reflexivity.
Qed.
Lemma popf_spec l : match list_pop_front l with Ok (x, l') => l = x :: l' | Err => l = [] | _ => False end.
Proof. destruct l; reflexivity. Qed.
Lemma insert_spec l i x : in_int32 i = true ->
  match seq_insert l i x with
  | Ok l' => exists a b, l = a ++ b /\ Z.of_nat (length a) = i /\ l' = a ++ x :: b
  | Err => ~ 0 <= i <= Z.of_nat (length l)
  | _ => False
  end.
Proof.
  intros I. unfold seq_insert, len. destruct (Z.ltb_spec i 0); [cbn [orb]; lia|]. rewrite wrapu_small by assumption.
  cbn [orb]. destruct (Z.ltb_spec (Z.of_nat (length l)) i); [lia|]. unfold stl_insert.
  destruct (Z.ltb_spec i 0); [lia|]. rewrite splice_spec. destruct (Nat.leb_spec (Z.to_nat i) (length l)); [|lia].
  cbn [omap bind]. exists (firstn (Z.to_nat i) l), (skipn (Z.to_nat i) l). rewrite firstn_skipn, firstn_length_le by lia.
  split; [reflexivity|]. split; [lia|reflexivity].
Qed.
Lemma erase_spec l i : in_int32 i = true ->
  match seq_erase l i with
  | Ok l' => exists a y b, l = a ++ y :: b /\ Z.of_nat (length a) = i /\ l' = a ++ b
  | Err => ~ 0 <= i < Z.of_nat (length l)
  | _ => False
  end.
Proof.
  intros I. unfold seq_erase. destruct (boundary_spec l i I) as [[B ->]|[B ->]]; cbn [bind]; [|exact B].
  destruct (split_at l i B) as (a & y & b & -> & La & Li). unfold stl_erase. destruct (Z.ltb_spec i 0); [lia|].
  rewrite splice_spec, Li, firstn_mid, skipn_mid. destruct (Nat.leb_spec (length a) (length (a ++ y :: b))).
  - cbn [stl_pop_front omap bind]. exists a, y, b. auto.
  - rewrite app_length in *. lia.
Qed.
Lemma set_spec l i x : in_int32 i = true ->
  match vec_set l i x with
  | Ok l' => exists a y b, l = a ++ y :: b /\ Z.of_nat (length a) = i /\ l' = a ++ x :: b
  | Err => ~ 0 <= i < Z.of_nat (length l)
  | _ => False
  end.
Proof.
  intros I. unfold vec_set. destruct (boundary_spec l i I) as [[B ->]|[B ->]]; cbn [bind]; [|exact B].
  rewrite aset_ok by assumption. destruct (split_at l i B) as (a & y & b & -> & La & Li).
  exists a, y, b. rewrite Li, upd_mid. auto.
Qed.
Lemma ref_set_spec l i x : in_int32 i = true ->
  match vec_ref_set l i x with
  | Ok l' => exists a y b, l = a ++ y :: b /\ Z.of_nat (length a) = i /\ l' = a ++ x :: b
  | Err => ~ 0 <= i < Z.of_nat (length l)
  | _ => False
  end.
Proof.
  intros I. unfold vec_ref_set. pose proof (vec_get_spec l i I) as G. destruct (vec_get l i) as [z| | |]; cbn [bind]; try contradiction; [|exact G].
  destruct G as [B _]. rewrite aset_ok by assumption. destruct (split_at l i B) as (a & y & b & -> & La & Li).
  exists a, y, b. rewrite Li, upd_mid. auto.
Qed.
Lemma walk_spec : forall n l, walk l n = match nth_error l n with Some x => Ok x | None => UB end.
Proof. induction n as [|n IH]; intros [|x t]; simpl; auto. Qed.
Lemma list_at_spec l i : in_int32 i = true ->
  match list_at l i with
  | Ok x => 0 <= i < Z.of_nat (length l) /\ nth_error l (Z.to_nat i) = Some x
  | Err => ~ 0 <= i < Z.of_nat (length l)
  | _ => False
  end.
Proof.
  intros I. unfold list_at. destruct (boundary_spec l i I) as [[B ->]|[B ->]]; cbn [bind]; [|exact B].
  rewrite walk_spec. destruct (nth_error l (Z.to_nat i)) eqn:E; [auto|]. apply nth_error_None in E. lia.
Qed.
Lemma size_spec l : Z.of_nat (length l) <= int32_max -> size_int l = Z.of_nat (length l).
Proof. intros H. unfold size_int, len. apply wrap32_id. unfold in_int32, int32_min, int32_max in *. lia. Qed.

Definition small l (n : Z) : Prop := Z.of_nat (length l) + n <= int32_max.

Lemma vec_step_ok : step_ok vec_step eq vlegal none vpost vint small.
Proof.
  intros l s o n <- W B N. unfold small in *. destruct o as [i| | | | | |i x|i|i x|i x|x|]; cbn [vec_step vint vlegal vpost] in *.
  - pose proof (vec_get_spec l i W) as H. destruct (vec_get l i) as [x| | |]; cbn [bind]; try contradiction; [|split; [exact H|tauto]].
    destruct H as [H1 H2]. split; [assumption|]. split; [lia|]. exists l. eauto.
  - pose proof (first_spec l) as H. destruct (seq_first l) as [x| | |]; cbn [bind]; try contradiction; [|subst; split; auto; tauto].
    destruct H as [t ->]. split; [discriminate|]. split; [lia|]. eexists; split; [reflexivity|]. eauto.
  - pose proof (last_spec l) as H. destruct (seq_last l) as [x| | |]; cbn [bind]; try contradiction; [|subst; split; auto; tauto].
    destruct H as [t ->]. split; [now destruct t|]. split; [lia|]. eexists; split; [reflexivity|]. eauto.
  - split; [exact I|]. split; [lia|]. exists l. split; [reflexivity|]. split; [reflexivity|]. eexists; split; [reflexivity|].
    destruct l; split; congruence.
  - split; [exact I|]. split; [lia|]. exists l. rewrite size_spec by lia. auto.
  - split; [exact I|]. split; [simpl; lia|]. exists []. auto.
  - pose proof (insert_spec l i x W) as H. destruct (seq_insert l i x) as [l'| | |]; cbn [bind]; try contradiction; [|split; [exact H|tauto]].
    destruct H as (a & b & -> & La & ->). rewrite !app_length in *. simpl length in *. split; [lia|]. split; [lia|].
    eexists; split; [reflexivity|]. split; [reflexivity|]. exists a, b. auto.
  - pose proof (erase_spec l i W) as H. destruct (seq_erase l i) as [l'| | |]; cbn [bind]; try contradiction; [|split; [exact H|tauto]].
    destruct H as (a & y & b & -> & La & ->). rewrite !app_length in *. simpl length in *. split; [lia|]. split; [lia|].
    eexists; split; [reflexivity|]. split; [reflexivity|]. exists a, y, b. auto.
  - pose proof (set_spec l i x W) as H. destruct (vec_set l i x) as [l'| | |]; cbn [bind]; try contradiction; [|split; [exact H|tauto]].
    destruct H as (a & y & b & -> & La & ->). rewrite !app_length in *. simpl length in *. split; [lia|]. split; [lia|].
    eexists; split; [reflexivity|]. split; [reflexivity|]. exists a, y, b. auto.
  - pose proof (ref_set_spec l i x W) as H. destruct (vec_ref_set l i x) as [l'| | |]; cbn [bind]; try contradiction; [|split; [exact H|tauto]].
    destruct H as (a & y & b & -> & La & ->). rewrite !app_length in *. simpl length in *. split; [lia|]. split; [lia|].
    eexists; split; [reflexivity|]. split; [reflexivity|]. exists a, y, b. auto.
  - split; [exact I|]. unfold seq_push. rewrite app_length. simpl length. split; [lia|]. eexists; split; [reflexivity|]. auto.
  - pose proof (pop_spec l) as H. destruct (seq_pop l) as [[x l']| | |]; cbn [bind]; try contradiction; [|subst; split; auto; tauto].
    subst l. rewrite app_length in *. simpl length in *. split; [now destruct l'|]. split; [lia|]. eexists; split; [reflexivity|]. eauto.
Qed.

(** sort *)
Context (lt : T -> T -> bool).
Lemma same_sym (a b : T) : same lt a b = same lt b a.
Proof. unfold same. apply andb_comm. Qed.
Section WO.
Context (WO : weak_order lt).
Lemma lt_irr a : lt a a = false. Proof. apply WO. Qed.
Lemma lt_trans a b c : lt a b = true -> lt b c = true -> lt a c = true. Proof. apply WO. Qed.
Lemma lt_neg a b c : lt a c = true -> lt a b = true \/ lt b c = true. Proof. apply WO. Qed.
Lemma lt_asym a b : lt a b = true -> lt b a = false.
Proof. intros H. destruct (lt b a) eqn:E; [|reflexivity]. rewrite <- (lt_irr a). symmetry. now apply (lt_trans a b a). Qed.
Lemma nlt_trans a b c : lt b a = false -> lt c b = false -> lt c a = false.
Proof. intros A B. destruct (lt c a) eqn:E; [|reflexivity]. destruct (lt_neg c b a E); congruence. Qed.
Lemma same_refl a : same lt a a = true. Proof. unfold same. now rewrite lt_irr. Qed.
Lemma same_spec a b : same lt a b = true <-> lt a b = false /\ lt b a = false.
Proof. unfold same. destruct (lt a b), (lt b a); simpl; split; auto; intros [? ?]; congruence. Qed.
Lemma same_trans a b c : same lt a b = true -> same lt b c = true -> same lt a c = true.
Proof. rewrite !same_spec. intros [A1 A2] [B1 B2]. split; eapply nlt_trans; eauto. Qed.
Lemma same_cong a b c : same lt a b = true -> same lt a c = same lt b c.
Proof.
  intros H. destruct (same lt b c) eqn:E; [now apply (same_trans a b c)|].
  destruct (same lt a c) eqn:E2; [|reflexivity]. rewrite <- E. symmetry. apply (same_trans b a c); [|assumption]. now rewrite same_sym.
Qed.

Lemma ins_perm x l : Permutation (x :: l) (ins_sorted lt x l).
Proof.
  induction l as [|y t IH]; simpl; [reflexivity|]. destruct (lt y x); [|reflexivity].
  rewrite perm_swap. now constructor.
Qed.
Lemma ins_ss x l : StronglySorted (fun x y => lt y x = false) l -> StronglySorted (fun x y => lt y x = false) (ins_sorted lt x l).
Proof.
  induction l as [|y t IH]; intros H; cbn [ins_sorted]; [repeat constructor|]. inversion H as [|? ? S F]; subst.
  destruct (lt y x) eqn:E.
  - constructor; [auto|]. apply Forall_forall. intros z Z. apply (Permutation_in _ (Permutation_sym (ins_perm x t))) in Z.
    destruct Z as [<-|Z]; [now apply lt_asym|]. now apply (proj1 (Forall_forall _ _) F).
  - constructor; [assumption|]. constructor; [assumption|]. apply Forall_forall. intros z Z.
    apply (nlt_trans x y z); [assumption|]. now apply (proj1 (Forall_forall _ _) F).
Qed.
Lemma ins_stable x l z : filter (same lt z) (ins_sorted lt x l) = filter (same lt z) (x :: l).
Proof.
  induction l as [|y t IH]; cbn [ins_sorted]; [reflexivity|]. destruct (lt y x) eqn:E; [|reflexivity].
  cbn [filter]. rewrite IH. cbn [filter]. destruct (same lt z x) eqn:Ex, (same lt z y) eqn:Ey; try reflexivity.
  assert (same lt x y = true) as S by (apply (same_trans x z y); [rewrite same_sym|]; assumption).
  apply same_spec in S. destruct S. congruence.
Qed.
Lemma sort_spec l : stable_sort lt l (list_sort lt l).
Proof.
  unfold list_sort. induction l as [|x l (P & S & F)]; cbn [fold_right]; [repeat constructor|].
  split; [|split].
  - rewrite <- ins_perm. now constructor.
  - now apply ins_ss.
  - intros z. rewrite ins_stable. cbn [filter]. now rewrite F.
Qed.
Lemma list_step_ok : step_ok (list_step lt) eq llegal none (lpost lt) lint small.
Proof.
  intros l s o n <- W B N. unfold small in *. destruct o as [i| | | | | |i x|i|x|x| | | |]; cbn [list_step lint llegal lpost] in *.
  - pose proof (list_at_spec l i W) as H. destruct (list_at l i) as [x| | |]; cbn [bind]; try contradiction; [|split; [exact H|tauto]].
    destruct H as [H1 H2]. split; [assumption|]. split; [lia|]. exists l. eauto.
  - pose proof (first_spec l) as H. destruct (seq_first l) as [x| | |]; cbn [bind]; try contradiction; [|subst; split; auto; tauto].
    destruct H as [t ->]. split; [discriminate|]. split; [lia|]. eexists; split; [reflexivity|]. eauto.
  - pose proof (last_spec l) as H. destruct (seq_last l) as [x| | |]; cbn [bind]; try contradiction; [|subst; split; auto; tauto].
    destruct H as [t ->]. split; [now destruct t|]. split; [lia|]. eexists; split; [reflexivity|]. eauto.
  - split; [exact I|]. split; [lia|]. exists l. split; [reflexivity|]. split; [reflexivity|]. eexists; split; [reflexivity|].
    destruct l; split; congruence.
  - split; [exact I|]. split; [lia|]. exists l. rewrite size_spec by lia. auto.
  - split; [exact I|]. split; [simpl; lia|]. exists []. auto.
  - pose proof (insert_spec l i x W) as H. destruct (seq_insert l i x) as [l'| | |]; cbn [bind]; try contradiction; [|split; [exact H|tauto]].
    destruct H as (a & b & -> & La & ->). rewrite !app_length in *. simpl length in *. split; [lia|]. split; [lia|].
    eexists; split; [reflexivity|]. split; [reflexivity|]. exists a, b. auto.
  - pose proof (erase_spec l i W) as H. destruct (seq_erase l i) as [l'| | |]; cbn [bind]; try contradiction; [|split; [exact H|tauto]].
    destruct H as (a & y & b & -> & La & ->). rewrite !app_length in *. simpl length in *. split; [lia|]. split; [lia|].
    eexists; split; [reflexivity|]. split; [reflexivity|]. exists a, y, b. auto.
  - split; [exact I|]. unfold seq_push. rewrite app_length. simpl length. split; [lia|]. eexists; split; [reflexivity|]. auto.
  - split; [exact I|]. unfold list_push_front. simpl length. split; [lia|]. eexists; split; [reflexivity|]. auto.
  - pose proof (pop_spec l) as H. destruct (seq_pop l) as [[x l']| | |]; cbn [bind]; try contradiction; [|subst; split; auto; tauto].
    subst l. rewrite app_length in *. simpl length in *. split; [now destruct l'|]. split; [lia|]. eexists; split; [reflexivity|]. eauto.
  - pose proof (popf_spec l) as H. destruct (list_pop_front l) as [[x l']| | |]; cbn [bind]; try contradiction; [|subst; split; auto; tauto].
    subst l. simpl length in *. split; [discriminate|]. split; [lia|]. eexists; split; [reflexivity|]. eauto.
  - split; [exact I|]. unfold list_reverse. rewrite rev_length. split; [lia|]. eexists; split; [reflexivity|].
    split; [reflexivity|]. rewrite rev_length. split; [reflexivity|]. intros i L.
    destruct (nth_error l (length l - 1 - i)) as [x|] eqn:E; [|apply nth_error_None in E; lia].
    rewrite (nth_error_nth' (rev l) x) by (rewrite rev_length; lia). rewrite rev_nth by lia. f_equal.
    apply nth_error_nth. rewrite <- E. f_equal. lia.
  - split; [exact I|]. pose proof (sort_spec l) as S. split.
    { rewrite <- (Permutation_length (proj1 S)). lia. }
    eexists; split; [reflexivity|]. split; [reflexivity|exact S].
Qed.

(** merge *)
Lemma is_sorted_ss l : is_sorted lt l = true <-> StronglySorted (fun x y => lt y x = false) l.
Proof.
  induction l as [|x t IH]; [split; [constructor|reflexivity]|].
  destruct t as [|y t]; [split; [repeat constructor|reflexivity]|].
  change (is_sorted lt (x :: y :: t)) with (negb (lt y x) && is_sorted lt (y :: t)). rewrite andb_true_iff, IH, negb_true_iff. split.
  - intros [A B]. constructor; [assumption|]. inversion B as [|? ? S F]; subst. constructor; [assumption|].
    eapply Forall_impl; [|exact F]. intros z Z. exact (nlt_trans x y z A Z).
  - intros H. inversion H as [|? ? S F]; subst. inversion F; subst. auto.
Qed.
Lemma merge_nil_l b : merge_loop lt [] b = b. Proof. destruct b; reflexivity. Qed.
Lemma merge_nil_r a : merge_loop lt a [] = a. Proof. destruct a; reflexivity. Qed.
Lemma merge_cons x a y b : merge_loop lt (x :: a) (y :: b) =
  if lt y x then y :: merge_loop lt (x :: a) b else x :: merge_loop lt a (y :: b).
Proof. reflexivity. Qed.
Lemma merge_perm a : forall b, Permutation (a ++ b) (merge_loop lt a b).
Proof.
  induction a as [|x a IHa]; intros b; [rewrite merge_nil_l; reflexivity|].
  induction b as [|y b IHb]; [rewrite merge_nil_r, app_nil_r; reflexivity|].
  rewrite merge_cons. destruct (lt y x).
  - rewrite <- IHb. change (x :: a) with ([x] ++ a). rewrite <- !app_assoc. symmetry. rewrite app_assoc, app_assoc.
    apply (Permutation_middle ([x] ++ a) b y).
  - cbn [app]. constructor. apply IHa.
Qed.
Lemma merge_ss a : forall b, StronglySorted (fun x y => lt y x = false) a -> StronglySorted (fun x y => lt y x = false) b ->
  StronglySorted (fun x y => lt y x = false) (merge_loop lt a b).
Proof.
  induction a as [|x a IHa]; intros b A B; [now rewrite merge_nil_l|].
  induction b as [|y b IHb]; [now rewrite merge_nil_r|]. rewrite merge_cons.
  inversion A as [|? ? A1 A2]; subst. inversion B as [|? ? B1 B2]; subst. destruct (lt y x) eqn:E.
  - constructor; [now apply IHb|]. apply Forall_forall. intros z Z. apply (Permutation_in _ (Permutation_sym (merge_perm _ _))) in Z.
    apply in_app_or in Z. destruct Z as [[<-|Z]|Z].
    + now apply lt_asym.
    + apply (nlt_trans y x z); [now apply lt_asym|]. now apply (proj1 (Forall_forall _ _) A2).
    + now apply (proj1 (Forall_forall _ _) B2).
  - constructor; [now apply IHa|]. apply Forall_forall. intros z Z. apply (Permutation_in _ (Permutation_sym (merge_perm _ _))) in Z.
    apply in_app_or in Z. destruct Z as [Z|[<-|Z]].
    + now apply (proj1 (Forall_forall _ _) A2).
    + assumption.
    + apply (nlt_trans x y z); [assumption|]. now apply (proj1 (Forall_forall _ _) B2).
Qed.
Lemma filter_same_nil z y l : StronglySorted (fun x y => lt y x = false) l -> Forall (fun x => lt x y = false) l ->
  lt z y = true -> filter (same lt z) l = [].
Proof.
  intros _ F H. induction F as [|w l W F IH]; [reflexivity|]. cbn [filter]. rewrite IH.
  destruct (same lt z w) eqn:E; [|reflexivity]. apply same_spec in E. destruct E as [E1 E2].
  destruct (lt_neg z w y H); congruence.
Qed.
Lemma merge_stable z a : forall b, StronglySorted (fun x y => lt y x = false) a ->
  filter (same lt z) (merge_loop lt a b) = filter (same lt z) a ++ filter (same lt z) b.
Proof.
  induction a as [|x a IHa]; intros b A; [now rewrite merge_nil_l|].
  induction b as [|y b IHb]; [now rewrite merge_nil_r, app_nil_r|]. rewrite merge_cons.
  inversion A as [|? ? A1 A2]; subst. destruct (lt y x) eqn:E.
  - change (filter (same lt z) (y :: merge_loop lt (x :: a) b)) with
      (if same lt z y then y :: filter (same lt z) (merge_loop lt (x :: a) b) else filter (same lt z) (merge_loop lt (x :: a) b)).
    rewrite IHb. change (filter (same lt z) (y :: b)) with (if same lt z y then y :: filter (same lt z) b else filter (same lt z) b).
    destruct (same lt z y) eqn:Ey; [|reflexivity].
    assert (ZX : lt z x = true).
    { apply same_spec in Ey. destruct Ey as [E1 E2]. destruct (lt_neg y z x E); congruence. }
    rewrite (filter_same_nil z x (x :: a) A); [reflexivity| |assumption]. constructor; [apply lt_irr|assumption].
  - cbn [filter]. rewrite (IHa (y :: b) A1). cbn [filter]. destruct (same lt z x); reflexivity.
Qed.
End WO.

(** comparisons *)
Section Cmp.
Context (TO : total_order lt) (eq : T -> T -> bool) (EQ : forall x y, eq x y = true <-> x = y).
Lemma total_weak : weak_order lt.
Proof.
  destruct TO as (I & Tr & Tot). split; [assumption|]. split; [assumption|]. intros a b c H.
  destruct (lt a b) eqn:E1; [auto|]. destruct (lt b c) eqn:E2; [auto|]. exfalso.
  assert (D : forall x y, eq x y = false -> x <> y).
  { intros x y F ->. pose proof (proj2 (EQ y y) eq_refl). congruence. }
  destruct (eq a b) eqn:Eab; [apply EQ in Eab; subst; congruence|]. destruct (eq b c) eqn:Ebc; [apply EQ in Ebc; subst; congruence|].
  destruct (Tot a b (D _ _ Eab)) as [|BA]; [congruence|]. destruct (Tot b c (D _ _ Ebc)) as [|CB]; [congruence|].
  pose proof (Tr c b a CB BA) as CA. pose proof (Tr a c a H CA) as AA. rewrite I in AA. discriminate.
Qed.
Lemma cmp_eq_spec a : forall b, cmp_eq eq a b = true <-> a = b.
Proof.
  induction a as [|x a IH]; intros [|y b]; cbn [cmp_eq]; try (split; [discriminate|congruence]); [tauto|].
  rewrite andb_true_iff, EQ, IH. split; [intros [-> ->]; reflexivity|]. intros H. injection H as -> ->. auto.
Qed.
Lemma cmp_lt_spec a : forall b, cmp_lt lt a b = true <-> lexicographic lt a b.
Proof.
  destruct TO as (I & Tr & Tot).
  induction a as [|x a IH]; intros [|y b]; cbn [cmp_lt].
  - split; [discriminate|]. intros [(y & t & H)|(p & x & s & y & t & H & _)]; [discriminate|now destruct p].
  - split; [|reflexivity]. intros _. left. exists y, b. reflexivity.
  - split; [discriminate|]. intros [(y & t & H)|(p & x' & s & y & t & _ & H & _)]; [discriminate|now destruct p].
  - destruct (lt x y) eqn:E1.
    { split; [|reflexivity]. intros _. right. exists [], x, a, y, b. auto. }
    destruct (lt y x) eqn:E2.
    { split; [discriminate|]. intros [(z & t & H)|(p & x' & s & y' & t & H1 & H2 & L)].
      - injection H as -> _. rewrite I in E2. discriminate.
      - destruct p as [|w p]; injection H1 as -> ?; injection H2 as -> ?; [congruence|]. rewrite I in E2. discriminate. }
    assert (x = y) as ->.
    { destruct (eq x y) eqn:E; [now apply EQ|]. assert (N : x <> y) by (intros ->; pose proof (proj2 (EQ y y) eq_refl); congruence).
      destruct (Tot x y N); congruence. }
    rewrite IH. split.
    + intros [(z & t & ->)|(p & x' & s & y' & t & -> & -> & L)].
      * left. exists z, t. reflexivity.
      * right. exists (y :: p), x', s, y', t. auto.
    + intros [(z & t & H)|(p & x' & s & y' & t & H1 & H2 & L)].
      * left. injection H as ->. eauto.
      * destruct p as [|w p]; [injection H1 as -> ?; injection H2 as -> ?; rewrite I in L; discriminate|].
        injection H1 as -> ->. injection H2 as ->. right. exists p, x', s, y', t. auto.
Qed.
Lemma cmp_tri a : forall b, (cmp_lt lt a b = true /\ cmp_lt lt b a = false /\ a <> b) \/
  (cmp_lt lt a b = false /\ cmp_lt lt b a = false /\ a = b) \/ (cmp_lt lt a b = false /\ cmp_lt lt b a = true /\ a <> b).
Proof.
  pose proof total_weak as W. destruct TO as (I & Tr & Tot).
  induction a as [|x a IH]; intros [|y b]; cbn [cmp_lt].
  - right; left; auto.
  - left. repeat split; discriminate.
  - right; right. repeat split; discriminate.
  - destruct (lt x y) eqn:E1.
    { rewrite (lt_asym W x y E1). left. repeat split. intros H. injection H as -> _. rewrite I in E1. discriminate. }
    destruct (lt y x) eqn:E2.
    { right; right. repeat split. intros H. injection H as -> _. rewrite I in E2. discriminate. }
    assert (x = y) as ->.
    { destruct (eq x y) eqn:E; [now apply EQ|]. assert (N : x <> y) by (intros ->; pose proof (proj2 (EQ y y) eq_refl); congruence).
      destruct (Tot x y N); congruence. }
    destruct (IH b) as [(A & B & C)|[(A & B & C)|(A & B & C)]]; rewrite A, B;
      [left|right; left|right; right]; (split; [reflexivity|]; split; [reflexivity|]); congruence.
Qed.
End Cmp.

End Seq.
Section StackQueue.
Context {T : Type}.
Implicit Type l : list T.
(** stack *)
Lemma pop_times_back : forall n l, (n <= length l)%nat -> pop_times stl_pop_back n l = Ok (firstn (length l - n) l).
Proof.
  induction n as [|n IH]; intros l L; cbn [pop_times].
  - rewrite Nat.sub_0_r, firstn_all. reflexivity.
  - destruct (back_split l) as [-> | (t & x & ->)]; [simpl in L; lia|]. rewrite stl_pop_back_spec. cbn [bind].
    rewrite app_length in *. simpl length in *. rewrite IH by lia. f_equal.
    replace (length t + 1 - S n)%nat with (length t - n)%nat by lia. rewrite firstn_app.
    replace (length t - n - length t)%nat with 0%nat by lia. now rewrite firstn_O, app_nil_r.
Qed.
Lemma pop_times_front : forall n l, (n <= length l)%nat -> pop_times stl_pop_front n l = Ok (skipn n l).
Proof.
  induction n as [|n IH]; intros [|x l] L; cbn [pop_times length] in *; try lia; try reflexivity. cbn [stl_pop_front bind skipn].
  apply IH. lia.
Qed.
Lemma clear_ok (pop : list T -> outcome (list T)) (g : nat -> list T -> list T) l :
  (forall n l, (n <= length l)%nat -> pop_times pop n l = Ok (g n l)) ->
  clear_loop pop l = if size_int l <? 0 then UB else Ok (g (Z.to_nat (size_int l)) l).
Proof.
  intros H. unfold clear_loop. destruct (Z.ltb_spec (size_int l) 0); [reflexivity|]. apply H.
  unfold size_int, wrap32, len in *. pose proof (Z.mod_le (Z.of_nat (length l) + 2147483648) 4294967296). lia.
Qed.

Lemma small_size l n : small l n -> 0 <= n -> size_int l = Z.of_nat (length l).
Proof. unfold small. intros. apply size_spec. lia. Qed.
Lemma stack_step_ok : step_ok (@stack_step T) eq slegal none spost (fun _ => True) small.
Proof.
  intros l s o n <- _ B N. pose proof (small_size l _ B ltac:(lia)) as Z. unfold small in *.
  destruct o as [x| | | | |]; cbn [stack_step slegal spost] in *.
  - unfold stack_push. rewrite app_length. simpl length. split; [exact I|]. split; [lia|]. eexists; split; [reflexivity|]. auto.
  - pose proof (pop_spec l) as H. change (stack_pop l) with (seq_pop l). destruct (seq_pop l) as [[x l']| | |]; cbn [bind]; try contradiction.
    + subst l. rewrite app_length in *. simpl length in *. split; [now destruct l'|]. split; [lia|]. eexists; split; [reflexivity|]. eauto.
    + subst. split; auto.
  - pose proof (last_spec l) as H. change (stack_top l) with (seq_last l). destruct (seq_last l) as [x| | |]; cbn [bind]; try contradiction.
    + destruct H as [t ->]. split; [now destruct t|]. split; [lia|]. eexists; split; [reflexivity|]. eauto.
    + subst. split; auto.
  - split; [exact I|]. split; [lia|]. exists l. rewrite Z. auto.
  - split; [exact I|]. split; [lia|]. exists l. split; [reflexivity|]. split; [reflexivity|]. eexists; split; [reflexivity|].
    destruct l; split; congruence.
  - unfold stack_clear. rewrite (clear_ok _ _ _ pop_times_back), Z. destruct (Z.ltb_spec (Z.of_nat (length l)) 0); [lia|].
    rewrite Nat2Z.id, Nat.sub_diag. cbn [bind firstn]. split; [exact I|]. split; [simpl; lia|]. exists []. auto.
Qed.
Lemma queue_step_ok : step_ok (@queue_step T) eq qlegal qunchecked qpost (fun _ => True) small.
Proof.
  intros l s o n <- _ B N. pose proof (small_size l _ B ltac:(lia)) as Z. unfold small in *.
  destruct o as [x| | | | | |]; cbn [queue_step qlegal qunchecked qpost] in *.
  - unfold queue_enqueue. rewrite app_length. simpl length. split; [exact I|]. split; [lia|]. eexists; split; [reflexivity|]. auto.
  - destruct l as [|x l]; cbn -[Z.of_nat int32_max length]; [split; auto|]. split; [discriminate|]. cbn [length] in B. split; [lia|]. eexists; split; [reflexivity|]. eauto.
  - destruct l as [|x l]; cbn -[Z.of_nat int32_max length]; [split; auto|]. split; [discriminate|]. cbn [length] in *. split; [lia|]. eexists; split; [reflexivity|]. eauto.
  - unfold queue_last. destruct (back_split l) as [-> | (t & x & ->)]; [cbn; split; auto|].
    rewrite stl_back_spec. cbn [bind]. split; [now destruct t|]. split; [lia|]. eexists; split; [reflexivity|]. eauto.
  - split; [exact I|]. split; [lia|]. exists l. rewrite Z. auto.
  - split; [exact I|]. split; [lia|]. exists l. split; [reflexivity|]. split; [reflexivity|]. eexists; split; [reflexivity|].
    destruct l; split; congruence.
  - unfold queue_clear. rewrite (clear_ok _ _ _ pop_times_front), Z. destruct (Z.ltb_spec (Z.of_nat (length l)) 0); [lia|].
    rewrite Nat2Z.id, skipn_all. cbn [bind]. split; [exact I|]. split; [simpl; lia|]. exists []. auto.
Qed.
Lemma run_app {S O R} (step : S -> O -> outcome (S * R)) os1 : forall s os2, run step s (os1 ++ os2) =
  ' (s, r1) <- run step s os1 ;; ' (s, r2) <- run step s os2 ;; Ok (s, r1 ++ r2).
Proof.
  induction os1 as [|o os1 IH]; intros s os2; cbn [app run].
  - cbn [bind]. destruct (run step s os2) as [[s2 r2]| | |]; reflexivity.
  - destruct (step s o) as [[s1 r]| | |]; cbn [bind]; try reflexivity. rewrite IH.
    destruct (run step s1 os1) as [[s2 r2]| | |]; cbn [bind]; try reflexivity.
    destruct (run step s2 os2) as [[s3 r3]| | |]; reflexivity.
Qed.
Lemma stack_pop_push l x : stack_step (l ++ [x]) SPop = Ok (l, RVal x).
Proof.
  cbn [stack_step]. pose proof (pop_spec (l ++ [x])) as H. change (stack_pop (l ++ [x])) with (seq_pop (l ++ [x])).
  destruct (seq_pop (l ++ [x])) as [[y l']| | |]; try contradiction; [|now destruct l].
  apply app_inj_tail in H. destruct H as [-> ->]. reflexivity.
Qed.
Lemma balanced_run (os : list (sop T)) : balanced os -> forall l, exists rs, run stack_step l os = Ok (l, rs).
Proof.
  induction 1 as [|os H IH|os H IH|x os1 os2 H1 IH1 H2 IH2]; intros l; cbn [run].
  - eauto.
  - cbn [stack_step bind]. destruct (IH l) as [rs ->]. cbn [bind]. eauto.
  - cbn [stack_step bind]. destruct (IH l) as [rs ->]. cbn [bind]. eauto.
  - cbn [stack_step bind]. unfold stack_push. rewrite run_app. destruct (IH1 (l ++ [x])) as [rs1 ->]. cbn [bind run].
    rewrite stack_pop_push. cbn [bind]. destruct (IH2 l) as [rs2 ->]. cbn [bind]. eauto.
Qed.
Lemma fifo (os : list (qop T)) : forall l l' rs, ~ In QClear os -> run queue_step l os = Ok (l', rs) ->
  dequeued os rs ++ l' = l ++ enqueued os.
Proof.
  induction os as [|o os IH]; intros l l' rs N H; cbn [run] in H.
  - injection H as <- <-. cbn. now rewrite app_nil_r.
  - apply bind_ok in H. destruct H as ([l1 r] & E & H). apply bind_ok in H. destruct H as ([l2 rs2] & E2 & H). injection H as <- <-.
    assert (N' : ~ In QClear os) by (intros X; apply N; now right). specialize (IH l1 l2 rs2 N' E2).
    destruct o as [x| | | | | |]; cbn [queue_step] in E.
    + injection E as <- <-. unfold queue_enqueue in IH. rewrite <- app_assoc in IH. exact IH.
    + destruct l as [|x l]; [discriminate|]. cbn in E. injection E as <- <-.
      change (dequeued (QDequeue :: os) (RVal x :: rs2)) with (x :: dequeued os rs2). cbn [app]. f_equal. exact IH.
    + apply bind_ok in E. destruct E as (x & _ & E). injection E as <- <-. exact IH.
    + apply bind_ok in E. destruct E as (x & _ & E). injection E as <- <-. exact IH.
    + injection E as <- <-. exact IH.
    + injection E as <- <-. exact IH.
    + exfalso. apply N. now left.
Qed.
End StackQueue.

(** trees *)
Section Trees.
Context {E K : Type} (key : E -> K) (lt : K -> K -> bool) (WO : weak_order lt).
Notation ss := (StronglySorted (fun a b => lt (key b) (key a) = false)).
Notation sss := (StronglySorted (fun a b => lt (key a) (key b) = true)).
Lemma sss_ss l : sss l -> ss l.
Proof.
  induction 1 as [|a l S IH F]; constructor; [assumption|]. eapply Forall_impl; [|exact F]. intros b B. now apply (lt_asym lt WO).
Qed.
Definition is (k : K) (e : E) : bool := same lt k (key e).
Lemma none_after k e l : ss (e :: l) -> lt k (key e) = true -> filter (is k) (e :: l) = [].
Proof.
  intros S H. assert (F : Forall (fun x => lt (key x) (key e) = false) (e :: l)).
  { inversion S; subst. constructor; [apply (lt_irr lt WO)|assumption]. }
  clear S. induction F as [|x t X F IH]; [reflexivity|]. cbn [filter]. rewrite IH.
  unfold is. destruct (same lt k (key x)) eqn:Q; [|reflexivity]. apply same_spec in Q. destruct Q as [Q1 Q2].
  destruct (lt_neg lt WO k (key x) (key e) H); congruence.
Qed.
Lemma is_lt k e : lt (key e) k = true -> is k e = false.
Proof. intros H. unfold is, same. rewrite H. now rewrite andb_false_r. Qed.
Lemma is_eq k e : lt (key e) k = false -> lt k (key e) = false -> is k e = true.
Proof. intros A B. unfold is, same. now rewrite A, B. Qed.
Lemma find_filter k l : ss l -> t_find key lt k l = hd_error (filter (is k) l).
Proof.
  induction l as [|e l IH]; intros S; [reflexivity|]. cbn [t_find]. inversion S as [|? ? S' F]; subst.
  destruct (lt (key e) k) eqn:A; [cbn [filter]; rewrite is_lt by assumption; auto|].
  destruct (lt k (key e)) eqn:B; [now rewrite none_after|]. cbn [filter]. now rewrite is_eq.
Qed.
Lemma range_filter k l : ss l -> t_range key lt k l = filter (is k) l.
Proof.
  induction l as [|e l IH]; intros S; [reflexivity|]. cbn [t_range]. inversion S as [|? ? S' F]; subst.
  destruct (lt (key e) k) eqn:A; [cbn [filter]; rewrite is_lt by assumption; auto|].
  destruct (lt k (key e)) eqn:B; [now rewrite none_after|]. cbn [filter]. rewrite is_eq by assumption. f_equal. auto.
Qed.
Lemma filter_all {A} (p : A -> bool) l : (forall x, In x l -> p x = true) -> filter p l = l.
Proof.
  induction l as [|x l IH]; intros H; [reflexivity|]. cbn [filter]. rewrite (H x (or_introl eq_refl)). f_equal. apply IH.
  intros y Y. apply H. now right.
Qed.
Lemma erase_filter k l : ss l -> t_erase key lt k l = filter (fun e => negb (is k e)) l.
Proof.
  induction l as [|e l IH]; intros S; [reflexivity|]. cbn [t_erase]. inversion S as [|? ? S' F]; subst.
  destruct (lt (key e) k) eqn:A; [cbn [filter]; rewrite is_lt by assumption; cbn [negb]; f_equal; auto|].
  destruct (lt k (key e)) eqn:B.
  - symmetry. apply filter_all. intros x X. pose proof (none_after k e l S B) as N.
    destruct (is k x) eqn:Q; [|reflexivity]. exfalso. assert (In x (filter (is k) (e :: l))) by (apply filter_In; auto).
    rewrite N in *. contradiction.
  - cbn [filter]. rewrite is_eq by assumption. auto.
Qed.
Lemma filter_ss {A} (R : A -> A -> Prop) p l : StronglySorted R l -> StronglySorted R (filter p l).
Proof.
  induction 1 as [|a l S IH F]; cbn [filter]; [constructor|]. destruct (p a); [|assumption]. constructor; [assumption|].
  apply Forall_forall. intros x X. apply filter_In in X. now apply (proj1 (Forall_forall _ _) F).
Qed.
Lemma multi_perm e l : Permutation (e :: l) (t_insert_multi key lt e l).
Proof.
  induction l as [|x t IH]; cbn [t_insert_multi]; [reflexivity|]. destruct (lt (key e) (key x)); [reflexivity|].
  rewrite perm_swap. now constructor.
Qed.
Lemma multi_ss e l : ss l -> ss (t_insert_multi key lt e l).
Proof.
  induction l as [|x t IH]; intros S; cbn [t_insert_multi]; [repeat constructor|]. inversion S as [|? ? S' F]; subst.
  destruct (lt (key e) (key x)) eqn:Q.
  - constructor; [assumption|]. constructor; [now apply (lt_asym lt WO)|]. eapply Forall_impl; [|exact F]. cbn. intros y Y.
    apply (nlt_trans lt WO (key e) (key x) (key y)); [now apply (lt_asym lt WO)|assumption].
  - constructor; [auto|]. apply Forall_forall. intros z Z. apply (Permutation_in _ (Permutation_sym (multi_perm e t))) in Z.
    destruct Z as [<-|Z]; [assumption|]. now apply (proj1 (Forall_forall _ _) F).
Qed.
Lemma insert_found e l : t_find key lt (key e) l <> None -> t_insert key lt e l = l.
Proof.
  induction l as [|x t IH]; cbn [t_find t_insert]; [congruence|]. destruct (lt (key x) (key e)); [intros H; f_equal; auto|].
  destruct (lt (key e) (key x)); congruence.
Qed.
Lemma insert_new e l : t_find key lt (key e) l = None -> Permutation (e :: l) (t_insert key lt e l).
Proof.
  induction l as [|x t IH]; cbn [t_find t_insert]; [reflexivity|]. destruct (lt (key x) (key e)).
  - intros H. rewrite perm_swap. constructor. auto.
  - destruct (lt (key e) (key x)); [reflexivity|discriminate].
Qed.
Lemma insert_incl e l x : In x (t_insert key lt e l) -> x = e \/ In x l.
Proof.
  destruct (t_find key lt (key e) l) eqn:F; [rewrite insert_found by congruence; auto|].
  intros H. apply (Permutation_in _ (Permutation_sym (insert_new e l F))) in H. destruct H; auto.
Qed.
Lemma insert_sss e l : sss l -> sss (t_insert key lt e l).
Proof.
  induction l as [|x t IH]; intros S; cbn [t_insert]; [repeat constructor|]. inversion S as [|? ? S' F]; subst.
  destruct (lt (key x) (key e)) eqn:Q.
  - constructor; [auto|]. apply Forall_forall. intros z Z. apply insert_incl in Z. destruct Z as [-> |Z]; [assumption|].
    now apply (proj1 (Forall_forall _ _) F).
  - destruct (lt (key e) (key x)) eqn:Q2; [|assumption]. constructor; [assumption|]. constructor; [assumption|].
    eapply Forall_impl; [|exact F]. cbn. intros y Y. now apply (lt_trans lt WO (key e) (key x) (key y)).
Qed.
Lemma find_some k l e : ss l -> t_find key lt k l = Some e -> In e l /\ same lt (key e) k = true.
Proof.
  intros S H. rewrite find_filter in H by assumption. assert (I : In e (filter (is k) l)).
  { destruct (filter (is k) l); [discriminate|]. injection H as ->. now left. }
  apply filter_In in I. destruct I as [I Q]. split; [assumption|]. unfold is in Q. now rewrite same_sym.
Qed.
Lemma find_none k l : ss l -> t_find key lt k l = None -> forall e, In e l -> same lt (key e) k = false.
Proof.
  intros S H e I. rewrite find_filter in H by assumption. destruct (same lt (key e) k) eqn:Q; [|reflexivity].
  assert (In e (filter (is k) l)) by (apply filter_In; split; [assumption|]; unfold is; now rewrite same_sym).
  destruct (filter (is k) l); [contradiction|discriminate].
Qed.
Lemma sss_unique l a b : sss l -> In a l -> In b l -> same lt (key a) (key b) = true -> a = b.
Proof.
  intros S. induction S as [|x l S IH F]; [contradiction|]. intros [-> |A] [-> |B] Q; auto.
  - apply same_spec in Q. pose proof (proj1 (Forall_forall _ _) F b B). destruct Q; congruence.
  - apply same_spec in Q. pose proof (proj1 (Forall_forall _ _) F a A). destruct Q; congruence.
Qed.
Lemma sss_pairs l : sss l -> ForallOrdPairs (fun a b => same lt a b = false) (map key l).
Proof.
  induction 1 as [|x l S IH F]; cbn [map]; constructor; [|assumption]. apply Forall_forall. intros k H.
  apply in_map_iff in H. destruct H as (e & <- & H). apply (proj1 (Forall_forall _ _) F) in H. unfold same. now rewrite H.
Qed.
End Trees.

Section Maps.
Context {K V : Type} (lt : K -> K -> bool) (WO : weak_order lt) (default : V).
Notation mss := (StronglySorted (fun a b : K * V => lt (fst a) (fst b) = true)).
Lemma assign_spec k v m : mss m -> forall k' v', In (k', v') (t_assign lt k v m) <->
  (In (k', v') m /\ same lt k' k = false) \/ (v' = v /\ same lt k' k = true /\ exists v0, In (k', v0) m).
Proof.
  induction 1 as [|[k1 v1] m S IH F]; intros k' v'; cbn [t_assign].
  - simpl. split; [contradiction|]. intros [[[] _]|(_ & _ & v0 & [])].
  - assert (AF : forall k2 v2, In (k2, v2) m -> lt k1 k2 = true) by (intros k2 v2 H; exact (proj1 (Forall_forall _ _) F _ H)).
    destruct (lt k1 k) eqn:A.
    + cbn [In]. rewrite IH. split.
      * intros [H|[[H1 H2]|(H1 & H2 & v0 & H3)]].
        -- injection H as <- <-. left. split; [now left|]. unfold same. now rewrite A.
        -- left. auto.
        -- right. split; [assumption|]. split; [assumption|]. exists v0. auto.
      * intros [[[H1|H1] H2]|(H1 & H2 & v0 & [H3|H3])].
        -- left. assumption.
        -- right. left. auto.
        -- injection H3 as <- <-. unfold same in H2. rewrite A in H2. discriminate.
        -- right. right. eauto.
    + destruct (lt k k1) eqn:B.
      * assert (N : forall k2 v2, In (k2, v2) ((k1, v1) :: m) -> same lt k2 k = false).
        { intros k2 v2 [H|H]; unfold same.
          - injection H as <- <-. rewrite B. now rewrite andb_false_r.
          - pose proof (lt_trans lt WO k k1 k2 B (AF _ _ H)) as L. rewrite L. now rewrite andb_false_r. }
        split; [intros H; left; split; [assumption|now apply (N k' v')]|]. intros [[H _]|(_ & H & v0 & H2)]; [assumption|].
        rewrite (N k' v0 H2) in H. discriminate.
      * assert (Q : same lt k1 k = true) by (unfold same; now rewrite A, B).
        assert (N : forall k2 v2, In (k2, v2) m -> same lt k2 k = false).
        { intros k2 v2 H. destruct (same lt k2 k) eqn:Q2; [|reflexivity]. rewrite (same_sym lt k1 k) in Q.
          pose proof (same_trans lt WO k2 k k1 Q2 Q) as Q3. apply same_spec in Q3. pose proof (AF _ _ H). destruct Q3; congruence. }
        cbn [In]. split.
        -- intros [H|H]; [injection H as <- <-; right; eauto|]. left. split; [auto|now apply (N k' v')].
        -- intros [[[H|H] H2]|(-> & H2 & v0 & [H|H])].
           ++ injection H as <- <-. congruence.
           ++ auto.
           ++ injection H as <- <-. auto.
           ++ rewrite (N k' v0 H) in H2. discriminate.
Qed.
Lemma assign_keys k (v : V) m : map fst (t_assign lt k v m) = map fst m.
Proof.
  induction m as [|[k1 v1] m IH]; [reflexivity|]. cbn [t_assign]. destruct (lt k1 k); [cbn [map fst]; now rewrite IH|].
  destruct (lt k k1); reflexivity.
Qed.
Lemma mss_keys m : mss m <-> StronglySorted (fun a b => lt a b = true) (map fst m).
Proof.
  induction m as [|[k v] m IH]; cbn [map fst]; [split; constructor|]. split; intros H; inversion H as [|? ? S F]; subst.
  - constructor; [now apply IH|]. apply Forall_forall. intros b B. apply in_map_iff in B. destruct B as (e & <- & B).
    exact (proj1 (Forall_forall _ _) F e B).
  - constructor; [now apply IH|]. apply Forall_forall. intros e B. apply (proj1 (Forall_forall _ _) F). now apply in_map.
Qed.
Lemma touch_spec k m : mss m -> mss (map_touch lt default m k) /\
  (forall k' v', In (k', v') (map_touch lt default m k) <->
     In (k', v') m \/ (k' = k /\ v' = default /\ forall e, In e m -> same lt (fst e) k = false)) /\
  (exists k' v', In (k', v') (map_touch lt default m k) /\ same lt k' k = true).
Proof.
  intros S. unfold map_touch. split; [now apply insert_sss|]. pose proof (sss_ss fst lt WO m S) as S'.
  destruct (t_find fst lt k m) as [[k1 v1]|] eqn:F.
  - rewrite insert_found by (cbn; congruence). destruct (find_some fst lt WO k m _ S' F) as [I Q]. cbn in Q. split.
    + intros k' v'. split; [auto|]. intros [H|(_ & _ & H)]; [assumption|]. apply H in I. cbn in I. congruence.
    + eauto.
  - pose proof (insert_new fst lt (k, default) m F) as P. split.
    + intros k' v'. split.
      * intros H. apply (Permutation_in _ (Permutation_sym P)) in H. destruct H as [H|H]; [|auto]. injection H as <- <-.
        right. split; [reflexivity|]. split; [reflexivity|]. exact (find_none fst lt WO k m S' F).
      * intros [H|(-> & -> & _)]; apply (Permutation_in _ P); [now right|now left].
    + exists k, default. split; [apply (Permutation_in _ P); now left|]. now apply same_refl.
Qed.
Lemma map_card m past : map_rep lt default m past -> card lt (fun k => map_value lt default past k <> None) (length m).
Proof.
  intros [S R]. exists (map fst m). rewrite map_length. split; [reflexivity|]. split; [now apply sss_pairs|].
  intros k. split.
  - destruct (map_value lt default past k) as [v|] eqn:E; [|congruence]. intros _. apply R in E. destruct E as (k' & I & Q).
    exists k'. split; [|assumption]. apply in_map_iff. exists (k', v). auto.
  - intros (k' & I & Q). apply in_map_iff in I. destruct I as ([k2 v] & <- & I). cbn in Q.
    assert (map_value lt default past k = Some v) as -> by (apply R; eauto). discriminate.
Qed.
Lemma value_cong past k k' : same lt k k' = true -> map_value lt default past k = map_value lt default past k'.
Proof.
  intros Q. assert (C : forall x, same lt x k = same lt x k').
  { intros x. rewrite (same_sym lt x k), (same_sym lt x k'). now apply same_cong. }
  induction past as [|o past IH]; [reflexivity|]. destruct o; cbn [map_value]; rewrite ?C, ?IH; reflexivity.
Qed.
Lemma map_find m past k : map_rep lt default m past ->
  match t_find fst lt k m with Some (_, v) => map_value lt default past k = Some v | None => map_value lt default past k = None end.
Proof.
  intros [S R]. pose proof (sss_ss fst lt WO m S) as S'. destruct (t_find fst lt k m) as [[k1 v1]|] eqn:F.
  - destruct (find_some fst lt WO k m _ S' F) as [I Q]. apply R. eauto.
  - destruct (map_value lt default past k) as [v|] eqn:E; [|reflexivity]. apply R in E. destruct E as (k' & I & Q).
    pose proof (find_none fst lt WO k m S' F _ I). cbn in *. congruence.
Qed.
Lemma map_touch_rep m past k : map_rep lt default m past -> map_rep lt default (map_touch lt default m k) (MIndex k :: past).
Proof.
  intros RP. pose proof RP as [S R]. destruct (touch_spec k m S) as (S2 & I2 & _). split; [assumption|]. intros k' v. cbn [map_value].
  assert (FN : map_value lt default past k = None <-> forall e, In e m -> same lt (fst e) k = false).
  { pose proof (map_find m past k RP) as F. pose proof (sss_ss fst lt WO m S) as S'. destruct (t_find fst lt k m) as [[k1 v1]|] eqn:E.
    - destruct (find_some fst lt WO k m _ S' E) as [I Q]. split; [congruence|]. intros H. apply H in I. congruence.
    - split; [|auto]. intros _. exact (find_none fst lt WO k m S' E). }
  split.
  - destruct (map_value lt default past k') as [w|] eqn:E.
    + intros H. injection H as <-. apply R in E. destruct E as (k2 & I & Q). exists k2. split; [|assumption]. apply I2. now left.
    + destruct (same lt k k') eqn:Q; [|discriminate]. intros H. injection H as <-. exists k. split; [|assumption]. apply I2. right.
      split; [reflexivity|]. split; [reflexivity|]. apply FN. rewrite <- E. now apply value_cong.
  - intros (k2 & I & Q). apply I2 in I. destruct I as [I|(-> & -> & H)].
    + assert (map_value lt default past k' = Some v) as -> by (apply R; eauto). reflexivity.
    + apply FN in H. rewrite <- (value_cong past k k' Q), H, Q. reflexivity.
Qed.
Lemma touch_len m k : Z.of_nat (length (map_touch lt default m k)) <= Z.of_nat (length m) + 1.
Proof.
  unfold map_touch. destruct (t_find fst lt k m) eqn:F.
  - rewrite insert_found by (cbn; congruence). lia.
  - rewrite <- (Permutation_length (insert_new fst lt (k, default) m F)). simpl. lia.
Qed.
Lemma filter_len {A} (p : A -> bool) l : (length (filter p l) <= length l)%nat.
Proof. induction l as [|x l IH]; simpl; [lia|]. destruct (p x); simpl; lia. Qed.
Lemma map_step_ok : step_ok (map_step lt default) (map_rep lt default) (map_legal lt default) none (map_post lt default) (fun _ => True) small.
Proof.
  intros m past o n RP _ B N. pose proof RP as [S R]. pose proof (small_size m _ B ltac:(lia)) as Z. unfold small in *.
  pose proof (sss_ss fst lt WO m S) as S'. destruct o as [k v|k|k|k| |k|]; cbn [map_step map_legal map_post].
  - split; [exact I|]. pose proof (touch_len m k) as L. destruct (touch_spec k m S) as (S2 & I2 & k0 & v0 & H0 & Q0). unfold map_set. split.
    { rewrite <- (map_length fst), assign_keys, map_length. lia. }
    eexists; split; [|split; reflexivity]. split.
    + apply mss_keys. rewrite assign_keys. now apply mss_keys.
    + intros k' v'. cbn [map_value]. destruct (same lt k k') eqn:Q.
      * split.
        -- intros H. injection H as <-. exists k0. split; [|now apply (same_trans lt WO k0 k k')]. apply assign_spec; [assumption|].
           right. eauto.
        -- intros (k2 & I & Q2). apply assign_spec in I; [|assumption]. destruct I as [[_ I]|(-> & _)]; [|reflexivity].
           rewrite (same_sym lt k k') in Q. rewrite (same_trans lt WO k2 k' k Q2 Q) in I. discriminate.
      * rewrite R. split.
        -- intros (k2 & I & Q2). exists k2. split; [|assumption]. apply assign_spec; [assumption|]. left. split; [apply I2; now left|].
           destruct (same lt k2 k) eqn:Q3; [|reflexivity]. rewrite (same_sym lt k2 k) in Q3. rewrite (same_trans lt WO k k2 k' Q3 Q2) in Q. discriminate.
        -- intros (k2 & I & Q2). exists k2. split; [|assumption]. apply assign_spec in I; [|assumption].
           assert (Q3 : same lt k2 k = false).
           { destruct (same lt k2 k) eqn:Q3; [|reflexivity]. rewrite (same_sym lt k2 k) in Q3. rewrite (same_trans lt WO k k2 k' Q3 Q2) in Q. discriminate. }
           destruct I as [[I _]|(_ & I & _)]; [|congruence]. apply I2 in I. destruct I as [I|(-> & _)]; [assumption|].
           rewrite same_refl in Q3 by assumption. discriminate.
  - unfold map_get. pose proof (map_find m past k RP) as F. destruct (t_find fst lt k m) as [[k1 v1]|]; cbn [bind].
    + split; [congruence|]. split; [lia|]. eexists; split; [|split; [reflexivity|eauto]]. split; assumption.
    + split; [congruence|]. tauto.
  - pose proof (map_touch_rep m past k RP) as RP2. pose proof (touch_len m k). pose proof (map_find _ _ k RP2) as F.
    destruct (t_find fst lt k (map_touch lt default m k)) as [[k1 v1]|] eqn:E.
    + split; [exact I|]. split; [lia|]. eexists; split; [exact RP2|]. split; [reflexivity|]. cbn [map_value] in F. f_equal.
      destruct (map_value lt default past k); [congruence|]. rewrite same_refl in F by assumption. congruence.
    + cbn [map_value] in F. destruct (map_value lt default past k); [discriminate|]. rewrite same_refl in F by assumption. discriminate.
  - split; [exact I|]. rewrite erase_filter by assumption. pose proof (filter_len (fun e => negb (is fst lt k e)) m). split; [lia|].
    eexists; split; [|split; reflexivity]. split; [now apply filter_ss|]. intros k' v. cbn [map_value]. destruct (same lt k k') eqn:Q.
    + split; [discriminate|]. intros (k2 & I & Q2). apply filter_In in I. destruct I as [_ I]. unfold is in I. cbn in I.
      rewrite (same_sym lt k2 k') in Q2. rewrite (same_trans lt WO k k' k2 Q Q2) in I. discriminate.
    + rewrite R. split; intros (k2 & I & Q2); exists k2; (split; [|assumption]).
      * apply filter_In. split; [assumption|]. unfold is. cbn. destruct (same lt k k2) eqn:Q3; [|reflexivity].
        rewrite (same_trans lt WO k k2 k' Q3 Q2) in Q. discriminate.
      * now apply filter_In in I.
  - split; [exact I|]. split; [simpl; lia|]. eexists; split; [|split; reflexivity]. split; [constructor|]. intros k v. cbn.
    split; [discriminate|]. intros (? & [] & _).
  - split; [exact I|]. split; [lia|]. eexists; split; [|split; [reflexivity|]]; [split; assumption|].
    eexists; split; [reflexivity|]. unfold map_contains. pose proof (map_find m past k RP) as F.
    destruct (t_find fst lt k m) as [[k1 v1]|]; rewrite F; split; congruence.
  - split; [exact I|]. split; [lia|]. eexists; split; [|split; [reflexivity|]]; [split; assumption|]. exists (length m).
    rewrite Z. split; [reflexivity|]. now apply map_card.
Qed.
End Maps.

Section Sets.
Context {K : Type} (lt : K -> K -> bool) (WO : weak_order lt).
Notation idk := (fun k : K => k).
Lemma member_cong past k k' : same lt k k' = true -> set_member lt past k = set_member lt past k'.
Proof.
  intros Q. assert (C : forall x, same lt x k = same lt x k').
  { intros x. rewrite (same_sym lt x k), (same_sym lt x k'). now apply same_cong. }
  induction past as [|o past IH]; [reflexivity|]. destruct o; cbn [set_member]; rewrite ?C, ?IH; reflexivity.
Qed.
Lemma set_find s past k : set_rep lt s past ->
  match t_find idk lt k s with Some _ => set_member lt past k = true | None => set_member lt past k = false end.
Proof.
  intros [S R]. pose proof (sss_ss idk lt WO s S) as S'. destruct (t_find idk lt k s) as [k1|] eqn:F.
  - destruct (find_some idk lt WO k s _ S' F) as [I Q]. apply R. eauto.
  - destruct (set_member lt past k) eqn:E; [|reflexivity]. apply R in E. destruct E as (k' & I & Q).
    pose proof (find_none idk lt WO k s S' F _ I). cbn in *. congruence.
Qed.
Lemma set_step_ok : step_ok (set_step lt) (set_rep lt) (fun _ _ => True) none (set_post lt) (fun _ => True) small.
Proof.
  intros s past o n RP _ B N. pose proof RP as [S R]. pose proof (small_size s _ B ltac:(lia)) as Z. unfold small in *.
  pose proof (sss_ss idk lt WO s S) as S'. destruct o as [k|k| |k|]; cbn [set_post set_step]; (split; [exact I|]).
  - assert (L : Z.of_nat (length (t_insert idk lt k s)) <= Z.of_nat (length s) + 1 /\
      (forall x, In x s -> In x (t_insert idk lt k s)) /\ (exists x, In x (t_insert idk lt k s) /\ same lt x k = true)).
    { destruct (t_find idk lt k s) as [k1|] eqn:F.
      - rewrite insert_found by congruence. split; [lia|]. split; [auto|]. exists k1. exact (find_some idk lt WO k s k1 S' F).
      - pose proof (insert_new idk lt k s F) as P. rewrite <- (Permutation_length P). simpl. split; [lia|]. split.
        + intros x H. apply (Permutation_in _ P). now right.
        + exists k. split; [apply (Permutation_in _ P); now left|]. now apply same_refl. }
    destruct L as (L & I1 & x & I2 & Q2). split; [lia|]. eexists; split; [|split; reflexivity]. split; [now apply insert_sss|].
    intros k'. cbn [set_member]. rewrite orb_true_iff, R. split.
    + intros [Q|(k2 & I & Q)]; [|eauto]. exists x. split; [assumption|]. now apply (same_trans lt WO x k k').
    + intros (k2 & I & Q). apply insert_incl in I. destruct I as [-> |I]; [auto|]. right. eauto.
  - rewrite erase_filter by assumption. pose proof (filter_len (fun e => negb (is idk lt k e)) s). split; [lia|].
    eexists; split; [|split; reflexivity]. split; [now apply filter_ss|]. intros k'. cbn [set_member]. destruct (same lt k k') eqn:Q.
    + split; [discriminate|]. intros (k2 & I & Q2). apply filter_In in I. destruct I as [_ I]. unfold is in I.
      rewrite (same_sym lt k2 k') in Q2. rewrite (same_trans lt WO k k' k2 Q Q2) in I. discriminate.
    + cbn [negb andb]. rewrite R. split; intros (k2 & I & Q2); exists k2; (split; [|assumption]).
      * apply filter_In. split; [assumption|]. unfold is. destruct (same lt k k2) eqn:Q3; [|reflexivity].
        rewrite (same_trans lt WO k k2 k' Q3 Q2) in Q. discriminate.
      * now apply filter_In in I.
  - split; [simpl; lia|]. eexists; split; [|split; reflexivity]. split; [constructor|]. intros k. cbn.
    split; [discriminate|]. intros (? & [] & _).
  - split; [lia|]. eexists; split; [|split; [reflexivity|]]; [split; assumption|].
    pose proof (set_find s past k RP) as F. destruct (t_find idk lt k s); now rewrite F.
  - split; [lia|]. eexists; split; [|split; [reflexivity|]]; [split; assumption|]. exists (length s). rewrite Z.
    split; [reflexivity|]. exists (map idk s). rewrite map_length. split; [reflexivity|].
    split; [now apply (sss_pairs idk)|]. rewrite map_id. exact R.
Qed.
Lemma filter_perm {A} (p : A -> bool) l l' : Permutation l l' -> length (filter p l) = length (filter p l').
Proof.
  induction 1 as [|x l l' P IH|x y l|l1 l2 l3 P1 IH1 P2 IH2]; cbn [filter]; auto; try congruence.
  - destruct (p x); simpl; auto.
  - destruct (p x), (p y); reflexivity.
Qed.
Lemma filter_filter {A} (p q : A -> bool) l : filter p (filter q l) = filter (fun x => p x && q x) l.
Proof.
  induction l as [|x l IH]; [reflexivity|]. cbn [filter]. destruct (q x); cbn [filter]; rewrite IH; destruct (p x); reflexivity.
Qed.
Lemma filter_none {A} (p : A -> bool) l : (forall x, In x l -> p x = false) -> filter p l = [].
Proof.
  induction l as [|x l IH]; intros H; [reflexivity|]. cbn [filter]. rewrite (H x (or_introl eq_refl)). apply IH. intros y Y. apply H. now right.
Qed.
Lemma filter_compl {A} (p : A -> bool) l : (length (filter p l) + length (filter (fun x => negb (p x)) l) = length l)%nat.
Proof. induction l as [|x l IH]; [reflexivity|]. cbn [filter]. destruct (p x); simpl; lia. Qed.
Lemma ms_step_ok : step_ok (ms_step lt) (ms_rep lt) (ms_legal lt) none (ms_post lt) (fun _ => True) small.
Proof.
  intros s past o n (S & R & LT) _ B N. pose proof (small_size s _ B ltac:(lia)) as Z. unfold small in *.
  assert (RP : ms_rep lt s past) by (split; [|split]; assumption).
  assert (FI : forall k, filter (is idk lt k) s = filter (same lt k) s) by reflexivity.
  assert (FD : forall k, match t_find idk lt k s with Some _ => multiplicity lt past k <> 0%nat | None => multiplicity lt past k = 0%nat end).
  { intros k. rewrite find_filter, FI, <- R by assumption. destruct (filter (same lt k) s); simpl; congruence. }
  destruct o as [k|k| |k|k|]; cbn [ms_step ms_legal ms_post].
  - split; [exact I|]. pose proof (multi_perm idk lt k s) as P. rewrite <- (Permutation_length P). simpl length.
    split; [lia|]. eexists; split; [|split; reflexivity]. split; [now apply multi_ss|]. split.
    + intros k'. rewrite <- (filter_perm _ _ _ P). cbn [filter multiplicity]. rewrite (same_sym lt k k').
      destruct (same lt k' k); cbn [length]; rewrite R; reflexivity.
    + rewrite <- (Permutation_length P). simpl. now rewrite LT.
  - specialize (FD k). destruct (t_find idk lt k s) as [k1|]; [|split; [congruence|tauto]]. split; [assumption|].
    rewrite erase_filter by assumption. pose proof (filter_len (fun e => negb (is idk lt k e)) s). split; [lia|].
    eexists; split; [|split; reflexivity]. split; [now apply filter_ss|]. split.
    + intros k'. cbn [multiplicity]. rewrite filter_filter. destruct (same lt k k') eqn:Q.
      * rewrite filter_none; [reflexivity|]. intros x _. unfold is. destruct (same lt k' x) eqn:Q2; [|reflexivity].
        now rewrite (same_trans lt WO k k' x Q Q2).
      * rewrite <- R. f_equal. apply filter_ext. intros x. unfold is. destruct (same lt k' x) eqn:Q2; [|reflexivity].
        destruct (same lt k x) eqn:Q3; [|reflexivity]. rewrite (same_sym lt k' x) in Q2. rewrite (same_trans lt WO k x k' Q3 Q2) in Q. discriminate.
    + cbn [total]. rewrite <- R, <- LT. pose proof (filter_compl (same lt k) s).
      change (fun e : K => negb (is idk lt k e)) with (fun x => negb (same lt k x)). lia.
  - split; [exact I|]. split; [simpl; lia|]. eexists; split; [|split; reflexivity]. split; [constructor|]. split; reflexivity.
  - split; [exact I|]. split; [lia|]. eexists; split; [|split; [reflexivity|]]; [split; [|split]; assumption|].
    specialize (FD k). eexists; split; [reflexivity|]. destruct (t_find idk lt k s); split; congruence.
  - split; [exact I|]. split; [lia|]. eexists; split; [|split; [reflexivity|]]; [split; [|split]; assumption|].
    rewrite range_filter, FI by assumption. f_equal. rewrite <- R. apply size_spec. pose proof (filter_len (same lt k) s). lia.
  - split; [exact I|]. split; [lia|]. eexists; split; [|split; [reflexivity|]]; [split; [|split]; assumption|]. now rewrite Z, LT.
Qed.
End Sets.

Section MM.
Context {K V : Type} (lt : K -> K -> bool) (WO : weak_order lt) (ltv : V -> V -> bool) (WV : weak_order ltv).
Notation ss := (StronglySorted (fun a b : K * V => lt (fst b) (fst a) = false)).
Lemma build_acc init : forall m, ss m -> ss (fold_left (fun m e => t_insert_multi fst lt e m) init m) /\
  forall k, filter (is fst lt k) (fold_left (fun m e => t_insert_multi fst lt e m) init m) = filter (is fst lt k) m ++ filter (is fst lt k) init.
Proof.
  induction init as [|e init IH]; intros m S; cbn [fold_left].
  - split; [assumption|]. intros k. cbn. now rewrite app_nil_r.
  - destruct (IH (t_insert_multi fst lt e m)) as [S2 F]; [now apply multi_ss|]. split; [assumption|]. intros k. rewrite F.
    assert (G : filter (is fst lt k) (t_insert_multi fst lt e m) = filter (is fst lt k) m ++ filter (is fst lt k) [e]).
    { clear -S WO. induction m as [|x t IH]; [reflexivity|]. inversion S as [|? ? S' F]; subst. cbn [t_insert_multi].
      destruct (lt (fst e) (fst x)) eqn:Q.
      - change (filter (is fst lt k) (e :: x :: t)) with (filter (is fst lt k) ([e] ++ x :: t)). rewrite filter_app.
        destruct (is fst lt k e) eqn:Ie; [|simpl filter at 1 4; rewrite Ie, app_nil_r; reflexivity].
        assert (KX : lt k (fst x) = true).
        { apply same_spec in Ie. destruct Ie as [I1 I2]. destruct (lt_neg lt WO (fst e) k (fst x) Q); congruence. }
        rewrite (none_after fst lt WO k x t S KX), app_nil_r. reflexivity.
      - cbn [filter]. rewrite IH by assumption. cbn [filter]. destruct (is fst lt k x); reflexivity. }
    rewrite G, <- app_assoc, <- filter_app. reflexivity.
Qed.
Lemma build_spec init : ss (mm_build lt init) /\
  forall k, t_range fst lt k (mm_build lt init) = filter (fun e => same lt k (fst e)) init.
Proof.
  destruct (build_acc init [] ltac:(constructor)) as [S F]. split; [exact S|]. intros k. rewrite range_filter by assumption. exact (F k).
Qed.
Lemma set_acc l : forall s, StronglySorted (fun a b => ltv a b = true) s ->
  let r := fold_left (fun s (e : K * V) => t_insert (fun v => v) ltv (snd e) s) l s in
  StronglySorted (fun a b => ltv a b = true) r /\
  (forall v, (exists v', In v' r /\ same ltv v' v = true) <-> (exists v', In v' s /\ same ltv v' v = true) \/ (exists e, In e l /\ same ltv (snd e) v = true)) /\
  (forall v, In v r -> In v s \/ In v (map snd l)).
Proof.
  induction l as [|e l IH]; intros s S; cbn [fold_left map].
  - cbv zeta. split; [assumption|]. split; [|auto]. intros v. split; [auto|]. intros [H|(e & [] & _)]. assumption.
  - cbv zeta. assert (WI : set_rep ltv s (map TInsert (rev s)) \/ True) by auto. clear WI.
    destruct (IH (t_insert (fun v => v) ltv (snd e) s)) as (S2 & M & Inc); [now apply insert_sss|]. cbv zeta in *. split; [assumption|]. split.
    + intros v. rewrite M. clear M Inc S2.
      assert (X : (exists v', In v' (t_insert (fun v => v) ltv (snd e) s) /\ same ltv v' v = true) <->
                  (exists v', In v' s /\ same ltv v' v = true) \/ same ltv (snd e) v = true).
      { pose proof (sss_ss (fun v => v) ltv WV s S) as S'. destruct (t_find (fun v => v) ltv (snd e) s) as [v1|] eqn:F.
        - rewrite insert_found by congruence. destruct (find_some (fun v => v) ltv WV _ s v1 S' F) as [I Q]. split; [auto|].
          intros [H|H]; [assumption|]. exists v1. split; [assumption|]. now apply (same_trans ltv WV v1 (snd e) v).
        - pose proof (insert_new (fun v => v) ltv (snd e) s F) as P. split.
          + intros (v' & I & Q). apply (Permutation_in _ (Permutation_sym P)) in I. destruct I as [<-|I]; eauto.
          + intros [(v' & I & Q)|Q]; [exists v'|exists (snd e)]; (split; [apply (Permutation_in _ P)|assumption]); [now right|now left]. }
      rewrite X. split.
      * intros [[H|H]|(e' & I & H)]; [auto| |]; right; [exists e|exists e']; simpl; auto.
      * intros [H|(e' & [<-|I] & H)]; [auto|auto|]. right. eauto.
    + intros v H. apply Inc in H. destruct H as [H|H]; [|simpl; auto]. apply insert_incl in H. destruct H as [-> |H]; [simpl; auto|auto].
Qed.
Lemma insert_multi_filter p e m : ss m -> filter p (t_insert_multi fst lt e m) =
  (if p e then t_insert_multi fst lt e (filter p m) else filter p m).
Proof.
  intros S. induction S as [|x t S IH F]; [cbn; destruct (p e); reflexivity|]. cbn [t_insert_multi].
  destruct (lt (fst e) (fst x)) eqn:Q.
  - cbn [filter]. destruct (p e) eqn:Pe; [|reflexivity].
    assert (G : Forall (fun y => lt (fst e) (fst y) = true) (if p x then x :: filter p t else filter p t)).
    { assert (G : Forall (fun y => lt (fst e) (fst y) = true) (filter p t)).
      { apply Forall_forall. intros y Y. apply filter_In in Y. destruct Y as [Y _]. apply (proj1 (Forall_forall _ _) F) in Y.
        destruct (lt_neg lt WO (fst e) (fst y) (fst x) Q); congruence. }
      destruct (p x); [constructor|]; assumption. }
    destruct (if p x then x :: filter p t else filter p t) as [|y r]; [reflexivity|]. cbn [t_insert_multi].
    inversion G as [|? ? Gy _]; subst. now rewrite Gy.
  - cbn [filter]. rewrite IH. destruct (p x); [|reflexivity]. destruct (p e); [|reflexivity]. cbn [t_insert_multi]. now rewrite Q.
Qed.
Lemma build_filter p (init : list (K * V)) : filter p (mm_build lt init) = mm_build lt (filter p init).
Proof.
  unfold mm_build. assert (X : forall m, ss m -> filter p (fold_left (fun m e => t_insert_multi fst lt e m) init m) =
    fold_left (fun m e => t_insert_multi fst lt e m) (filter p init) (filter p m)).
  { induction init as [|e init IH]; intros m S; [reflexivity|]. cbn [fold_left filter]. rewrite IH by now apply multi_ss.
    rewrite insert_multi_filter by assumption. destruct (p e); reflexivity. }
  apply (X []). constructor.
Qed.
Lemma mm_erase_spec (init : list (K * V)) k : mm_erase lt (mm_build lt init) k = mm_build lt (filter (fun e => negb (same lt k (fst e))) init).
Proof. unfold mm_erase. rewrite erase_filter by (exact WO || apply build_spec). apply build_filter. Qed.
Lemma mm_find_spec init k : let r := mm_find lt ltv (mm_build lt init) k in
  StronglySorted (fun a b => ltv a b = true) r /\
  (forall v, In v r -> exists k', In (k', v) init /\ same lt k k' = true) /\
  (forall k' v, In (k', v) init -> same lt k k' = true -> exists v', In v' r /\ same ltv v' v = true).
Proof.
  cbv zeta. unfold mm_find. rewrite (proj2 (build_spec init)).
  destruct (set_acc (filter (fun e => same lt k (fst e)) init) [] ltac:(constructor)) as (S & M & Inc). cbv zeta in *.
  split; [exact S|]. split.
  - intros v H. apply Inc in H. destruct H as [[]|H]. apply in_map_iff in H. destruct H as ([k' v'] & <- & H).
    apply filter_In in H. exists k'. exact H.
  - intros k' v H Q. apply M. right. exists (k', v). split; [|now apply same_refl]. apply filter_In. auto.
Qed.
End MM.
