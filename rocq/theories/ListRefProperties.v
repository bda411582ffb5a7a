(** Theorems about references and iterators into Lists (C128). *)
From Coq Require Import Permutation Sorted.
From Verif Require Import Base ContModel ContSpec ContProofs ListRefModel ListRefSpec ListRefProofs.
Local Open Scope Z_scope.

(** ** a reference follows its element: inserting, removing other elements, reversing, sorting and
    merging take it where they take the element, and it is invalid exactly after its element was
    removed *)
Theorem C128_follows : forall {A} (lt : A -> A -> bool) (a b : list A) os, weak_order lt -> Forall fint os ->
  Z.of_nat (length a + length b) + Z.of_nat (length os) <= int32_max ->
  refines holds (flegal lt) loose (fpost lt) (Plain a b []) os (run (fstep lt) (lists a b) os).
Proof.
  intros A lt a b os WO W B.
  assert (F : few (lists a b) (Z.of_nat (length os))) by (unfold few; cbn [lists one two]; unfold number; rewrite !combine_length, !seq_length, !Nat.min_id; exact B).
  pose proof (run_refines _ _ _ _ _ _ _ (fstep_ok lt WO) os (lists a b) (Plain a b []) (lists_rep a b) W F) as R. unfold refines in *.
  destruct (run (fstep lt) (lists a b) os) as [[st rs]| | |]; [|exact R|exact R|exact R]. destruct R as (p & Rp & H). exists p. split; [now apply rep_holds|exact H].
Qed.
Print Assumptions C128_follows.

(** ** the position after a sort: the smaller elements, then the equal ones that stood before *)
Theorem C128_sorted : forall {A} (lt : A -> A -> bool) (l l' : list A) i x, weak_order lt ->
  nth_error l i = Some x -> list_step lt l LSort = Ok (l', RNone) -> nth_error l' (before lt l i) = Some x.
Proof. intros A lt l l' i x WO N E. cbn in E. injection E as <-. now apply sort_rank. Qed.
Print Assumptions C128_sorted.

(** ** a program that removes and merges nothing never loses a reference *)
Theorem C128_kept : forall {A} (lt : A -> A -> bool) (a b : list A) os, weak_order lt -> Forall fint os ->
  Z.of_nat (length a + length b) + Z.of_nat (length os) <= int32_max ->
  forallb (fun o => negb (removes o)) os = true -> uses_own 0 os = true ->
  match run (fstep lt) (lists a b) os with Ok _ | Err => True | _ => False end.
Proof.
  intros A lt a b os WO W B K U. pose proof (C128_follows lt a b os WO W B) as R. unfold refines in R. destruct (run (fstep lt) (lists a b) os) as [[st rs]| | |]; [exact I|exact I| |exact R].
  destruct R as (os1 & o & os2 & p & rs & -> & H & L & Lo). rewrite forallb_app in K. apply andb_true_iff in K as [K _].
  assert (Wh : whole (Plain a b []) 0) by (split; [reflexivity|constructor]). pose proof (kept_history lt _ _ _ _ _ H K Wh) as [W1 W2]. cbn [Nat.add] in W1.
  assert (V : forall os1 n, uses_own n (os1 ++ o :: os2) = true -> uses_own (n + taken os1) [o] = true).
  { clear. induction os1 as [|q os1 IH]; intros n E; cbn [app uses_own taken] in *.
    - rewrite Nat.add_0_r. apply andb_true_iff in E as [E _]. now rewrite E.
    - apply andb_true_iff in E as [_ E]. apply IH in E. rewrite Nat.add_assoc. exact E. }
  apply V in U. cbn [Nat.add uses_own] in U. rewrite andb_true_r in U.
  assert (Q : forall h, Nat.ltb h (taken os1) = true -> exists q, nth_error (places p) h = Some (Some q)).
  { intros h E. apply Nat.ltb_lt in E. rewrite <- W1 in E. apply nth_error_Some in E. destruct (nth_error (places p) h) as [[q|]|] eqn:N; [eauto| |congruence].
    apply nth_error_In in N. exfalso. exact (proj1 (Forall_forall _ _) W2 None N eq_refl). }
  destruct o; try contradiction; try discriminate; apply L; cbn [flegal]; now apply Q.
Qed.
Print Assumptions C128_kept.

(** ** refuted: a reference stays at its index *)
Theorem C128_index_refuted :
  ~ (forall (a : list Z) i, 0 <= i < Z.of_nat (length a) -> in_int32 i = true ->
     exists st x, run (fstep Z.ltb) (lists a []) [TakeAt false i; Do false LSort; Do false (LAt i); See 0] = Ok (st, [RNone; RNone; RVal x; RVal x])).
Proof. intros H. destruct (H [2; 1] 0) as (st & x & E); [cbn; lia|reflexivity|]. vm_compute in E. injection E as _ E1 E2. congruence. Qed.
Print Assumptions C128_index_refuted.

Example C128_example :
  weak_order Z.ltb /\
  (* the reference to 3 survives the sort, the erasure of others and a merge into the other List *)
  omap (fun p => (map snd (one (fst p)), map snd (two (fst p)), snd p))
    (run (fstep Z.ltb) (lists [3; 1; 2] [5; 4])
       [TakeFirst false; Do false LSort; See 0; Do false (LErase 0); TakeLast true; Do true LSort; Merge true; Put 0 30; See 1; Do true LReverse; Do true LPopFront; See 0])
    = Ok ([], [4; 30; 2], [RNone; RNone; RVal 3; RNone; RNone; RNone; RNone; RNone; RVal 4; RNone; RVal 5; RVal 30]) /\
  (* but not its own erasure *)
  run (fstep Z.ltb) (lists [3; 1; 2] []) [TakeFirst false; Do false LSort; Do false (LErase 2); See 0] = UB /\
  run (fstep Z.ltb) (lists [3; 1; 2] []) [TakeAt false 3] = Err /\
  run (fstep Z.ltb) (lists [3; 1; 2] [5]) [Merge false] = UB /\
  (* equal elements keep their order *)
  before Z.ltb [2; 7; 2; 1; 2] 2 = 2%nat /\
  uses_own 0 [TakeFirst false; Do false (LPush 4); See 0] = true /\ forallb (fun o => negb (removes o)) [TakeFirst false; Do false (LPush 4); See 0] = true.
Proof.
  split; [|now vm_compute]. split; [intros; apply Z.ltb_irrefl|]. split; intros a b c; rewrite !Z.ltb_lt; lia.
Qed.
