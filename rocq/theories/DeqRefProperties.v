(** Theorems about references kept into Stacks and Queues (C134). *)
From Verif Require Import Base ContModel ListRefModel ListRefSpec ListRefProofs DeqRefModel DeqRefSpec DeqRefProofs.
Local Open Scope Z_scope.

(** ** a program on Stacks or Queues and references does what it does on plain sequences, where a
    reference is a position; also if it is undefined or stops with an error *)
Theorem C134_meaning : forall {A} queue (a b : list A) os,
  match prun queue (Plain a b []) os with
  | Ok (p, rs) => exists st, drun queue (lists a b) os = Ok (st, rs) /\ holds st p
  | Err => drun queue (lists a b) os = Err
  | UB => drun queue (lists a b) os = UB
  | Fuel => True
  end.
Proof.
  intros A queue a b os. pose proof (drun_ok queue os _ _ (lists_rep a b)) as D. destruct (prun queue (Plain a b []) os) as [[p rs]| | |]; try exact D.
  destruct D as ([st rs'] & -> & R & E). cbn [fst snd] in *. subst rs'. exists st. split; [reflexivity|]. now apply rep_holds.
Qed.
Print Assumptions C134_meaning.

(** ** exactly when a reference into a Stack can still be used: the Stack has always been higher
    than what was below the element, and has not been assigned to; what it then refers to *)
Theorem C134_stack : forall {A} (a b : list A) before s back after p rs1 p1 r p2 rs2,
  prun false (Plain a b []) before = Ok (p, rs1) -> pstep false p (Take s back) = Ok (p1, r) -> prun false p1 after = Ok (p2, rs2) ->
  let n := (length (pick s p) - 1)%nat in
  let used := before ++ Take s back :: after ++ [See (length (places p))] in
  if above false s n p1 after
  then exists x, nth_error (pick s p2) n = Some x /\ exists st, drun false (lists a b) used = Ok (st, rs1 ++ r :: rs2 ++ [RVal x]) /\ holds st p2
  else drun false (lists a b) used = UB.
Proof.
  intros A a b before s back after p rs1 p1 r p2 rs2 E1 S E2 n used.
  assert (E : prun false (Plain a b []) (before ++ Take s back :: after) = Ok (p2, rs1 ++ r :: rs2)).
  { rewrite prun_app, E1. cbn [bind prun]. rewrite S. cbn [bind]. rewrite E2. reflexivity. }
  assert (P : nth_error (places p1) (length (places p)) = Some (Some (s, n)) /\ (n < length (pick s p1))%nat).
  { clear - S. cbn [pstep] in S. subst n. destruct (pick s p) as [|x l] eqn:K; [discriminate|]. injection S as <- <-. cbn [places andb]. rewrite nth_error_app2, Nat.sub_diag by lia. split; [reflexivity|].
    replace (pick s _) with (pick s p) by now destruct s. rewrite K. cbn [length]. lia. }
  destruct P as [P L]. pose proof (read_end false a b _ p2 _ _ _ E (stack_fate after p1 p2 rs2 _ s n E2 P L)) as R.
  replace ((before ++ Take s back :: after) ++ [See (length (places p))]) with used in R by (unfold used; now rewrite <- app_assoc).
  destruct (above false s n p1 after); [|exact R]. destruct R as (x & X & st & D & H). exists x. split; [exact X|]. exists st. split; [|exact H]. rewrite D. now rewrite <- app_assoc.
Qed.
Print Assumptions C134_stack.

(** ** a reference into a Queue can be used until its element is dequeued: as many calls of dequeue
    as there were elements before it leave it usable, if the Queue is not cleared or assigned to *)
Theorem C134_queue : forall {A} (a b : list A) before s back after p rs1 p1 r p2 rs2,
  prun true (Plain a b []) before = Ok (p, rs1) -> pstep true p (Take s back) = Ok (p1, r) -> prun true p1 after = Ok (p2, rs2) ->
  let i := if back then (length (pick s p) - 1)%nat else O in
  let used := before ++ Take s back :: after ++ [See (length (places p))] in
  if negb (existsb (replaces s) after) && Nat.leb (pops s after) i
  then exists x, nth_error (pick s p2) (i - pops s after) = Some x /\ exists st, drun true (lists a b) used = Ok (st, rs1 ++ r :: rs2 ++ [RVal x]) /\ holds st p2
  else drun true (lists a b) used = UB.
Proof.
  intros A a b before s back after p rs1 p1 r p2 rs2 E1 S E2 i used.
  assert (E : prun true (Plain a b []) (before ++ Take s back :: after) = Ok (p2, rs1 ++ r :: rs2)).
  { rewrite prun_app, E1. cbn [bind prun]. rewrite S. cbn [bind]. rewrite E2. reflexivity. }
  assert (P : nth_error (places p1) (length (places p)) = Some (Some (s, i))).
  { clear - S. cbn [pstep] in S. subst i. destruct (pick s p) as [|x l] eqn:K; [discriminate|]. injection S as <- <-. cbn [places andb]. rewrite nth_error_app2, Nat.sub_diag by lia. now destruct back. }
  pose proof (read_end true a b _ p2 _ _ _ E (queue_fate after p1 p2 rs2 _ s i E2 P)) as R.
  replace ((before ++ Take s back :: after) ++ [See (length (places p))]) with used in R by (unfold used; now rewrite <- app_assoc).
  destruct (negb (existsb (replaces s) after) && Nat.leb (pops s after) i); [|exact R]. destruct R as (x & X & st & D & H). exists x. split; [exact X|]. exists st. split; [|exact H]. rewrite D. now rewrite <- app_assoc.
Qed.
Print Assumptions C134_queue.

(** ** so pushing never makes a reference unusable, unlike with a Vector *)
Theorem C134_grow : forall {A} queue (a b : list A) before after p rs1 p2 rs2 h s i,
  prun queue (Plain a b []) before = Ok (p, rs1) -> nth_error (places p) h = Some (Some (s, i)) ->
  prun queue p after = Ok (p2, rs2) -> existsb (shrinks s) after = false ->
  exists x st, nth_error (pick s p2) i = Some x /\
    drun queue (lists a b) (before ++ after ++ [See h]) = Ok (st, rs1 ++ rs2 ++ [RVal x]) /\ holds st p2.
Proof.
  intros A queue a b before after p rs1 p2 rs2 h s i E1 H E2 G.
  assert (E : prun queue (Plain a b []) (before ++ after) = Ok (p2, rs1 ++ rs2)) by (rewrite prun_app, E1; cbn [bind]; rewrite E2; reflexivity).
  destruct (read_end queue a b _ p2 _ h _ E (grow_fate queue after p p2 rs2 h s i E2 H G)) as (x & X & st & D & K). exists x, st. rewrite !app_assoc. rewrite <- D. rewrite <- !app_assoc. auto.
Qed.
Print Assumptions C134_grow.

(** ** after an assignment the two containers are apart: writing through the references there are
    never changes the copy *)
Theorem C134_copy : forall {A} queue (a b : list A) before s after p rs1 p1 r st rs2,
  prun queue (Plain a b []) before = Ok (p, rs1) -> pstep queue p (Assign s) = Ok (p1, r) -> forallb only_refs after = true ->
  drun queue (lists a b) (before ++ Assign s :: after) = Ok (st, rs2) ->
  map snd (side_of s st) = pick (negb s) p.
Proof.
  intros A queue a b before s after p rs1 p1 r st rs2 E1 S O D. pose proof (drun_ok queue (before ++ Assign s :: after) _ _ (lists_rep a b)) as G. rewrite D in G.
  rewrite prun_app, E1 in G. cbn [bind prun] in G. rewrite S in G. cbn [bind] in G.
  assert (NF : prun queue p1 after <> Fuel).
  { clear - O. revert p1. induction after as [|o os IH]; intros p1; cbn [prun forallb] in *; [discriminate|]. apply andb_true_iff in O as [O1 O2].
    destruct o; try discriminate O1; cbn [pstep]; (destruct (target p1 _) as [[[? ?] ?]|]; cbn [bind]; [|discriminate]);
      match goal with |- context [prun queue ?q os] => specialize (IH O2 q); destruct (prun queue q os) as [[? ?]| | |]; cbn [bind]; congruence end. }
  destruct (prun queue p1 after) as [[p2 rs3]| | |] eqn:E2; cbn [bind agrees] in G; try discriminate; [|congruence].
  destruct G as ([st' rs'] & [= <- <-] & R & _). cbn [fst] in R. rewrite (rep_pick s st p2 R), (copy_stays queue after p1 p2 rs3 s E2 O (assign_elsewhere _ _ _ _ _ S)).
  cbn [pstep] in S. injection S as <- <-. apply put_pick.
Qed.
Print Assumptions C134_copy.

(** ** what is written through a reference is what pop or dequeue returns *)
Theorem C134_write : forall {A} (l : list A) x y,
  (exists st, drun false (lists (l ++ [y]) []) [Take false true; Put 0 x; Pop false] = Ok (st, [RNone; RNone; RVal x]) /\ map snd (one st) = l) /\
  (exists st, drun true (lists (y :: l) []) [Take false false; Put 0 x; Pop false] = Ok (st, [RNone; RNone; RVal x]) /\ map snd (one st) = l).
Proof.
  intros A l x y. split.
  - pose proof (C134_meaning false (l ++ [y]) [] [Take false true; Put 0 x; Pop false]) as M. cbn [prun] in M.
    assert (S : pstep false (Plain (l ++ [y]) [] []) (Take false true) = Ok (Plain (l ++ [y]) [] [Some (false, length l)], RNone)).
    { cbn [pstep pick fst_list snd_list places app andb]. rewrite app_length. cbn [length]. replace (length l + 1 - 1)%nat with (length l) by lia. now destruct l. }
    rewrite S in M. cbn [bind] in M. assert (T : pstep false (Plain (l ++ [y]) [] [Some (false, length l)]) (Put 0 x) = Ok (Plain (l ++ [x]) [] [Some (false, length l)], RNone)).
    { cbn [pstep]. unfold target. cbn [places nth_error pick fst_list]. rewrite nth_error_app2, Nat.sub_diag by lia. cbn [nth_error]. change (Ok (Plain (firstn (length l) (l ++ [y]) ++ x :: skipn (Datatypes.S (length l)) (l ++ [y])) [] [Some (false, length l)], @RNone A) = Ok (Plain (l ++ [x]) [] [Some (false, length l)], RNone)). rewrite firstn_app, firstn_all, Nat.sub_diag. cbn [firstn]. rewrite app_nil_r, skipn_all2; [reflexivity|]. rewrite app_length. cbn [length]. lia. }
    rewrite T in M. cbn [bind pstep pick fst_list] in M. rewrite rev_app_distr in M. cbn [rev app bind put_side snd_list] in M. destruct M as (st & -> & H1 & _). exists st. split; [reflexivity|]. cbn [fst_list] in H1. now rewrite rev_involutive in H1.
  - pose proof (C134_meaning true (y :: l) [] [Take false false; Put 0 x; Pop false]) as M. cbn in M. destruct M as (st & D & H1 & _). exists st. split; [exact D|exact H1].
Qed.
Print Assumptions C134_write.

(** ** a reference to the top does not follow the top: after a pop and a push it is unusable *)
Theorem C134_top_refuted : forall {A} (l : list A) x y,
  drun false (lists (l ++ [x]) []) [Take false true; Pop false; Push false y; See 0] = UB.
Proof.
  intros A l x y. pose proof (C134_meaning false (l ++ [x]) [] [Take false true; Pop false; Push false y; See 0]) as M. cbn [prun] in M.
  assert (S : pstep false (Plain (l ++ [x]) [] []) (Take false true) = Ok (Plain (l ++ [x]) [] [Some (false, length l)], RNone)).
  { cbn [pstep pick fst_list snd_list places app andb]. rewrite app_length. cbn [length]. replace (length l + 1 - 1)%nat with (length l) by lia. now destruct l. }
  rewrite S in M. cbn [bind pstep pick fst_list] in M. rewrite rev_app_distr in M. cbn [rev app bind put_side snd_list places onward map] in M. unfold moved in M. cbn [Bool.eqb] in M. rewrite rev_length, Nat.eqb_refl in M.
  cbn in M. exact M.
Qed.
Print Assumptions C134_top_refuted.

(** ** the first element of an empty Queue is taken without a check, the top of an empty Stack with one *)
Theorem C134_empty_refuted : forall {A} (b : list A) back,
  drun true (lists [] b) [Take false back] = UB /\ drun false (lists [] b) [Take false back] = Err.
Proof. intros A b back. split; destruct back; reflexivity. Qed.
Print Assumptions C134_empty_refuted.

(** a Stack: the reference to the top survives pushes (also of the element itself) and pops of what
    is above it, and is lost with its element *)
Example C134_example :
  prun false (Plain [1; 2] [9] []) [Take false true; PushRef false 0; Push false 3; Put 0 5; Pop false; Pop false; Assign true; See 0]
    = Ok (Plain [1; 5] [1; 5] [Some (false, 1%nat)], [RNone; RNone; RNone; RNone; RVal 3; RVal 2; RNone; RVal 5]) /\
  drun false (lists [1; 2] [9]) [Take false true; Push false 3; Pop false; Pop false; See 0] = UB /\
  above false false 1 (Plain [1; 2] [9] [Some (false, 1%nat)]) [Push false 3; Pop false] = true /\
  above false false 1 (Plain [1; 2] [9] [Some (false, 1%nat)]) [Push false 3; Pop false; Pop false] = false /\
  (* a Queue: the last of three elements, two dequeues later the first *)
  (exists st, drun true (lists [1; 2; 3] []) [Take false true; Push false 4; Pop false; Pop false; Put 0 7; Pop false] = Ok (st, [RNone; RNone; RVal 1; RVal 2; RNone; RVal 7]) /\
    map snd (one st) = [4]) /\
  drun true (lists [1; 2; 3] []) [Take false true; Pop false; Pop false; Pop false; See 0] = UB.
Proof. split; [reflexivity|]. split; [reflexivity|]. split; [reflexivity|]. split; [reflexivity|]. split; [|reflexivity]. eexists. split; reflexivity. Qed.
