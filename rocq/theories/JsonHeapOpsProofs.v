(** Copying, viewing, changing the type, and operator[]. *)
From Coq Require Import Permutation.
From Verif Require Import Base JsonModel JsonSpec JsonProofs JsonRoundProofs JsonHeapModel JsonHeapSpec JsonHeapProofs.
Local Open Scope nat_scope.

Ltac perm := repeat (rewrite <- app_assoc || simpl);
  first [ reflexivity | solve [ eauto using Permutation_middle, Permutation_sym, Permutation_app_comm, Permutation_app_tail, Permutation_app_head, perm_skip, perm_swap, Permutation_refl ] ].
(** permutations by counting *)
Lemma perm_count {A} (dec : forall x y : A, {x = y} + {x <> y}) l l' :
  (forall x, count_occ dec l x = count_occ dec l' x) -> Permutation l l'.
Proof. intros H. now apply (Permutation_count_occ dec). Qed.
Ltac pcount := apply (perm_count Nat.eq_dec); intros ?; repeat (rewrite ?count_occ_app; simpl); repeat destruct (Nat.eq_dec _ _); lia.

Section Ops.
Context {F : Type} (fzero : F).
Notation heap := (heap F).

Lemma combine_fst {A B} (l : list A) (l' : list B) : length l = length l' -> map fst (combine l l') = l.
Proof. revert l'. induction l; destruct l'; simpl; intros H; try lia; auto. f_equal. auto. Qed.
Lemma combine_snd {A B} (l : list A) (l' : list B) : length l = length l' -> map snd (combine l l') = l'.
Proof. revert l'. induction l; destruct l'; simpl; intros H; try lia; auto. f_equal. auto. Qed.
Lemma combine_split {A B} (l : list (A * B)) : combine (map fst l) (map snd l) = l.
Proof. induction l as [|[]]; simpl; congruence. Qed.

Lemma copy_all_ok (f : heap -> addr -> outcome (heap * node F)) N
  (IH : forall h a v g r, holds h a v g -> incl (a :: g) r -> own h r -> length g < N ->
    exists h' n' g', f h a = Ok (h', n') /\ nrep h' n' v g' /\ own h' (g' ++ r) /\ agree r h h') :
  forall l vs g (h : heap) r, reps h l vs g -> incl g r -> own h r -> length g < S N ->
    exists h' l' g', copy_all f h l = Ok (h', l') /\ reps h' l' vs g' /\ own h' (g' ++ r) /\ agree r h h'.
Proof.
  induction l as [|a l IHl]; intros vs g h r R I O L.
  - apply reps_nil_inv in R. destruct R as [-> ->]. exists h, [], []. simpl. repeat split; try apply O; auto using agree_refl. constructor.
  - apply reps_cons_inv in R. destruct R as (n & v & f1 & vs' & f2 & -> & -> & H1 & H2 & H3).
    simpl in L. rewrite app_length in L.
    destruct (IH h a v f1 r) as (h1 & n1 & g1 & E1 & R1 & O1 & A1); [now exists n|intros x Hx; apply I; destruct Hx; [now left|right; apply in_or_app; auto]|assumption|lia|].
    pose proof (alloc_own h1 (g1 ++ r) (CNode n1) O1) as O2.
    pose proof (alloc_agree h1 (g1 ++ r) (Some (CNode n1)) O1) as A2.
    destruct (IHl vs' f2 (h1 ++ [Some (CNode n1)]) (length h1 :: g1 ++ r)) as (h3 & l' & g2 & E3 & R3 & O3 & A3); auto; try lia.
    { eapply reps_frame; eauto. intros x Hx.
      assert (In x r) by (apply I; right; apply in_or_app; auto).
      rewrite A2 by (apply in_or_app; auto). auto. }
    { intros x Hx. right. apply in_or_app. right. apply I. right. apply in_or_app. auto. }
    exists h3, (length h1 :: l'), (length h1 :: g1 ++ g2). simpl. rewrite E1. simpl. rewrite E3. simpl.
    split; [reflexivity|]. split; [|split].
    + econstructor; eauto.
      * rewrite A3 by (now left). apply look_app_new.
      * eapply nrep_frame; eauto. intros x Hx. rewrite A3 by (right; apply in_or_app; auto). apply A2. apply in_or_app; auto.
    + eapply own_perm; eauto. pcount.
    + intros x Hx. rewrite A3 by (right; apply in_or_app; auto). rewrite A2 by (apply in_or_app; auto). auto.
Qed.
Lemma copy_ok fuel : forall (h : heap) a v g r, holds h a v g -> incl (a :: g) r -> own h r -> length g < fuel ->
  exists h' n' g', copy fuel h a = Ok (h', n') /\ nrep h' n' v g' /\ own h' (g' ++ r) /\ agree r h h'.
Proof.
  induction fuel as [|fuel IH]; intros h a v g r (n & Ln & R) I O L; [lia|].
  simpl. unfold rd_node. rewrite Ln. simpl.
  destruct R; try (eexists h, _, []; repeat split; try apply O; auto using agree_refl; constructor).
  - unfold rd_str. rewrite H. simpl. eexists _, _, [length h]. split; [reflexivity|]. split; [|split].
    + constructor. apply look_app_new.
    + now apply alloc_own.
    + now apply alloc_agree.
  - unfold rd_arr. rewrite H. simpl. simpl in L.
    destruct (copy_all_ok (copy fuel) fuel IH l vs f h r) as (h1 & l' & g1 & E1 & R1 & O1 & A1); auto; try lia.
    { intros x Hx. apply I. right. now right. }
    rewrite E1. simpl. pose proof (alloc_agree h1 _ (Some (CArr l')) O1) as A2. eexists _, _, (length h1 :: g1). split; [reflexivity|]. split; [|split].
    + econstructor; [apply look_app_new|apply reps_length in H1; apply reps_length in R1; lia|]. eapply reps_frame; eauto. eapply agree_incl; eauto. intros x. rewrite in_app_iff. auto.
    + now apply alloc_own.
    + intros x Hx. rewrite A2 by (apply in_or_app; auto). auto.
  - unfold rd_obj. rewrite H. simpl. simpl in L.
    destruct (copy_all_ok (copy fuel) fuel IH (map snd m) (map snd vs) f h r) as (h1 & l' & g1 & E1 & R1 & O1 & A1); auto; try lia.
    { intros x Hx. apply I. right. now right. }
    assert (Len : length (map fst m) = length l').
    { apply reps_length in R1. rewrite R1, H0, !map_length. reflexivity. }
    rewrite E1. simpl. pose proof (alloc_agree h1 _ (Some (CObj (combine (map fst m) l'))) O1) as A2. eexists _, _, (length h1 :: g1). split; [reflexivity|]. split; [|split].
    + econstructor; [apply look_app_new|rewrite combine_fst; auto|assumption|]. rewrite combine_snd by assumption.
      eapply reps_frame; eauto. eapply agree_incl; eauto. intros x. rewrite in_app_iff. auto.
    + now apply alloc_own.
    + intros x Hx. rewrite A2 by (apply in_or_app; auto). auto.
Qed.
Lemma copyData_ok (h : heap) a v g r : holds h a v g -> incl (a :: g) r -> NoDup g -> own h r ->
  exists h' n' g', copyData h a = Ok (h', n') /\ nrep h' n' v g' /\ own h' (g' ++ r) /\ agree r h h'.
Proof.
  intros H I N O. eapply copy_ok; eauto.
  assert (length g <= length h); [|lia].
  rewrite <- (seq_length (length h) 0). apply NoDup_incl_length; [exact N|].
  intros x Hx. apply in_seq. split; [lia|]. eapply own_lt; eauto. apply I. now right.
Qed.

Lemma view_ok fuel : forall (h : heap) a v g, holds h a v g -> length g < fuel -> view fuel h a = Ok v.
Proof.
  induction fuel as [|fuel IH]; intros h a v g (n & Ln & R) L; [lia|].
  assert (E : forall l vs g, reps h l vs g -> length g < S fuel -> view_all (view fuel h) l = Ok vs).
  { induction l as [|b l IHl]; intros vs f R' L'.
    - apply reps_nil_inv in R'. destruct R' as [-> ->]. reflexivity.
    - apply reps_cons_inv in R'. destruct R' as (n' & v' & f1 & vs' & f2 & -> & -> & H1 & H2 & H3).
      simpl in L'. rewrite app_length in L'. simpl. rewrite (IH h b v' f1); [|now exists n'|lia]. simpl.
      rewrite (IHl vs' f2); auto; lia. }
  simpl. unfold rd_node. rewrite Ln. simpl. destruct R; simpl in *; auto.
  - unfold rd_str. now rewrite H.
  - unfold rd_arr. rewrite H. simpl. rewrite (E l vs f); auto; lia.
  - unfold rd_obj. rewrite H. simpl. rewrite (E (map snd m) (map snd vs) f); auto; [|lia]. simpl. rewrite H0, combine_split. reflexivity.
Qed.

(** released addresses *)
Lemma each_later (f : heap -> addr -> outcome heap) (H : forall h a h', f h a = Ok h' -> later h h') l :
  forall h h', each f h l = Ok h' -> later h h'.
Proof.
  induction l as [|a l IH]; simpl; intros h h' E; [injection E as <-; apply later_refl|].
  apply bind_ok in E. destruct E as (h1 & E1 & E2). eapply later_trans; eauto.
Qed.
Lemma clear_later fuel : forall (h : heap) n h', clear fuel h n = Ok h' -> later h h'.
Proof.
  induction fuel as [|fuel IH]; simpl; intros h n h' E; [discriminate|].
  assert (H : forall (h : heap) a h', (n <- rd_node h a ;; h <- clear fuel h n ;; release h a) = Ok h' -> later h h').
  { intros h1 a h2 E'. apply bind_ok in E'. destruct E' as (n1 & _ & E'). apply bind_ok in E'. destruct E' as (h3 & E1 & E2).
    eapply later_trans; eauto using release_later. }
  destruct n; try (injection E as <-; apply later_refl); apply bind_ok in E; destruct E as (x & _ & E).
  - eauto using release_later.
  - apply bind_ok in E. destruct E as (h1 & E1 & E2). apply (each_later _ H) in E1. eauto using later_trans, release_later.
  - apply bind_ok in E. destruct E as (h1 & E1 & E2). apply (each_later _ H) in E1. eauto using later_trans, release_later.
Qed.
Lemma clearData_later (h : heap) a h' : clearData h a = Ok h' -> later h h'.
Proof. intros E. apply bind_ok in E. destruct E as (n & _ & E). eauto using clear_later. Qed.
Lemma setType_later (h : heap) a k h' : setType fzero h a k = Ok h' -> later h h'.
Proof.
  unfold setType. intros E. apply bind_ok in E. destruct E as (n & _ & E).
  destruct (kind_eq_dec k (kind_of n)); [injection E as <-; apply later_refl|].
  apply bind_ok in E. destruct E as (h1 & E1 & E). apply clearData_later in E1. eapply later_trans; eauto.
  destruct k; simpl in E; apply wr_later in E; eauto using later_trans, alloc_later.
Qed.
Lemma map_at_later (h : heap) c k h' d : map_at h c k = Ok (h', d) -> later h h'.
Proof.
  unfold map_at. intros E. apply bind_ok in E. destruct E as (m & _ & E).
  destruct (find_key m k); [injection E as <- _; apply later_refl|]. simpl in E.
  apply bind_ok in E. destruct E as (h1 & E1 & E). injection E as <- _. apply wr_later in E1. eauto using later_trans, alloc_later.
Qed.
Lemma grow_later n : forall (h : heap) l, later h (fst (grow h l n)).
Proof.
  induction n as [|n IH]; intros h l; simpl; [apply later_refl|]. eapply later_trans; [apply alloc_later|apply IH].
Qed.
Lemma index_later (h : heap) a s h' d : index fzero h a s = Ok (h', d) -> later h h'.
Proof.
  destruct s; simpl; intros E; apply bind_ok in E; destruct E as (h1 & E1 & E); apply setType_later in E1;
    (eapply later_trans; [exact E1|]); apply bind_ok in E; destruct E as (n & _ & E); destruct n; try discriminate.
  - eauto using map_at_later.
  - apply bind_ok in E. destruct E as (l & _ & E). apply bind_ok in E. destruct E as ([h2 l2] & E2 & E).
    apply bind_ok in E. destruct E as (x & _ & E). injection E as <- _.
    destruct (Z.of_nat (length l) <=? i)%Z; [|injection E2 as <- _; apply later_refl].
    apply bind_ok in E2. destruct E2 as (s & _ & E2).
    pose proof (grow_later (Z.to_nat s - length l) h1 l) as G.
    destruct (grow h1 l (Z.to_nat s - length l)) as [h3 l3]. apply bind_ok in E2. destruct E2 as (h4 & E3 & E2).
    injection E2 as <- _. apply wr_later in E3. eauto using later_trans.
Qed.
Lemma nav_later p : forall (h : heap) a h' d, nav fzero h a p = Ok (h', d) -> later h h'.
Proof.
  induction p as [|s p IH]; simpl; intros h a h' d E; [injection E as <- _; apply later_refl|].
  apply bind_ok in E. destruct E as ([h1 a1] & E1 & E). apply index_later in E1. eauto using later_trans.
Qed.

(** changing the type *)
Lemma kind_rep (h : heap) n v f : nrep h n v f -> kind_of n = kind_of_value v.
Proof. now intros []. Qed.
Lemma clearData_ok (h : heap) a v f r : holds h a v f -> own h (a :: f ++ r) ->
  exists h', clearData h a = Ok h' /\ own h' (a :: r) /\ agree (a :: r) h h' /\ forall x, In x f -> look h' x = None.
Proof.
  intros (n & L & R) O.
  assert (O' : own h (f ++ a :: r)) by (eapply own_perm; eauto; apply Permutation_middle).
  destruct (clear_ok (S (length h)) h n v f (a :: r)) as (h' & E & O1 & A1); auto.
  { apply own_len in O'. lia. }
  exists h'. unfold clearData, rd_node. rewrite L. simpl bind. repeat split; try apply O1; auto.
  intros x Hx. destruct (look h' x) eqn:E'; [|reflexivity]. exfalso.
  eapply own_disj; [exact O'|exact Hx|]. apply O1. congruence.
Qed.
Lemma setType_ok (h : heap) a v f r k : holds h a v f -> own h (a :: f ++ r) ->
  exists h' f', setType fzero h a k = Ok h' /\ own h' (a :: f' ++ r) /\ agree r h h' /\
    ((kind_of_value v = k /\ h' = h /\ f' = f) \/
     (kind_of_value v <> k /\ holds h' a (initial fzero k) f' /\ forall x, In x f -> look h' x = None)).
Proof.
  intros Hd O. pose proof Hd as (n & L & R). pose proof (kind_rep _ _ _ _ R) as K.
  unfold setType, rd_node. rewrite L. simpl bind. rewrite K.
  destruct (kind_eq_dec k (kind_of_value v)) as [E|E].
  { exists h, f. repeat split; try apply O; auto using agree_refl. }
  destruct (clearData_ok h a v f r Hd O) as (h1 & E1 & O1 & A1 & D1). rewrite E1. simpl bind.
  assert (Plain : forall n', (forall h2, nrep h2 n' (initial fzero k) []) ->
    exists h' f', wr h1 a (CNode n') = Ok h' /\ own h' (a :: f' ++ r) /\ agree r h h' /\
     ((kind_of_value v = k /\ h' = h /\ f' = f) \/ (kind_of_value v <> k /\ holds h' a (initial fzero k) f' /\ forall x, In x f -> look h' x = None))).
  { intros n' Rn. destruct (wr_ok h1 a r (CNode n') O1) as (h2 & E2 & O2 & A2 & L2 & _). exists h2, [].
    split; [exact E2|]. split; [exact O2|]. split.
    - intros x Hx. rewrite A2 by assumption. apply A1. now right.
    - right. split; [auto|]. split; [exists n'; auto|]. intros x Hx. apply wr_later in E2. destruct E2 as [_ E2].
      apply E2; [|auto]. apply clearData_later in E1. destruct E1 as [E1 _]. eapply Nat.lt_le_trans; [|exact E1].
      eapply own_lt; eauto. right. apply in_or_app. auto. }
  assert (Big : forall cl n', (forall h2 c, look h2 c = Some cl -> nrep h2 (n' c) (initial fzero k) [c]) ->
    exists h' f', wr (h1 ++ [Some cl]) a (CNode (n' (length h1))) = Ok h' /\ own h' (a :: f' ++ r) /\ agree r h h' /\
     ((kind_of_value v = k /\ h' = h /\ f' = f) \/ (kind_of_value v <> k /\ holds h' a (initial fzero k) f' /\ forall x, In x f -> look h' x = None))).
  { intros cl n' Rn. pose proof (alloc_own h1 (a :: r) cl O1) as O2. pose proof (alloc_agree h1 (a :: r) (Some cl) O1) as A2.
    destruct (wr_ok (h1 ++ [Some cl]) a (length h1 :: r) (CNode (n' (length h1)))) as (h2 & E2 & O3 & A3 & L3 & _).
    { eapply own_perm; eauto. constructor. }
    exists h2, [length h1]. split; [exact E2|]. split; [exact O3|]. split.
    - intros x Hx. rewrite A3 by (now right). rewrite A2 by (now right). apply A1. now right.
    - right. split; [auto|]. split.
      + exists (n' (length h1)). split; [exact L3|]. apply Rn. rewrite A3 by (now left). apply look_app_new.
      + intros x Hx. apply wr_later in E2. destruct E2 as [_ E2].
        assert (X : x < length h1).
        { apply clearData_later in E1. destruct E1 as [E1 _]. eapply Nat.lt_le_trans; [|exact E1]. eapply own_lt; eauto. right. apply in_or_app. auto. }
        apply E2; [rewrite app_length; lia|]. rewrite look_app_old by assumption. auto. }
  destruct k; simpl alloc.
  - apply (Plain NNull). constructor.
  - apply (Big (CObj []) NObj). intros. eapply rep_obj; eauto; simpl; auto; constructor.
  - apply (Big (CArr []) NArr). intros. eapply rep_arr; eauto; [discriminate|constructor].
  - apply (Big (CStr []) NStr). intros. now constructor.
  - apply (Plain (NFlt fzero)). constructor.
  - apply (Plain (NInt 0)). constructor.
  - apply (Plain (NBool false)). constructor.
Qed.
End Ops.
