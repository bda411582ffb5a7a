(** C137: loops over a Vector whose body changes it. *)
From Coq Require Import Lia.
From Verif Require Import Base ContModel ContSpec ContProofs VecWalkModel VecWalkSpec VecWalkProofs.
Local Open Scope Z_scope.

(** the loop is the loop over the indices from 0 to the old size, whatever the library does with its
    buffer, and undefined exactly if it goes on after a change of the size *)
Theorem C137_index {A} spare (body : list A -> list (vact A) * bool) fuel l c :
  int_calls body -> (forall vs, tidy false (fst (body vs)) = true) ->
  omap (fun p => (cells (fst p), snd p)) (for_vector spare body fuel l c) = sweep body fuel (length l) 0 l [].
Proof. intros W T. unfold for_vector. rewrite (loop_sweep spare body W T fuel (length l) 0); [reflexivity|lia|now cbn]. Qed.

(** a program that is defined changed the size in no round after which it went on; it saw at most as
    many elements as there were, and exactly as many unless it left the loop *)
Theorem C137_only {A} spare (body : list A -> list (vact A) * bool) fuel l c st vs :
  int_calls body -> for_vector spare body fuel l c = Ok (st, vs) ->
  (length vs <= length l)%nat /\
  (forall k, (0 < k < length vs)%nat -> existsb resizing (fst (body (firstn k vs))) = false) /\
  (snd (body vs) = true -> length vs = length l /\ length (cells st) = length l /\ (l <> [] -> existsb resizing (fst (body vs)) = false)).
Proof.
  intros W H. apply (loop_only spare body W _ (length l) 0) in H; [|lia|now cbn].
  destruct H as (ws & -> & L & K & F & Z0). cbn [app] in *. split; [lia|]. split; [intros k Hk; now apply K|].
  intros G. destruct ws as [|w ws].
  - destruct (Z0 eq_refl) as [E ->]. destruct l; [|discriminate]. cbn. repeat split; congruence.
  - destruct (F ltac:(discriminate) G) as (F1 & F2 & F3). repeat split; auto; lia.
Qed.

(** it ends: as many rounds as there were elements suffice *)
Theorem C137_ends {A} spare (body : list A -> list (vact A) * bool) fuel l c :
  int_calls body -> (length l <= fuel)%nat -> for_vector spare body fuel l c <> Fuel.
Proof. intros W L. apply (loop_ends spare body W fuel (length l) 0); [lia|now cbn|lia]. Qed.

(** changing the size is fine if the body leaves the loop in the same round (and does not use the
    loop variable after it) *)
Theorem C137_safe {A} spare (body : list A -> list (vact A) * bool) fuel l c :
  int_calls body -> (forall vs, tidy false (fst (body vs)) = true) ->
  (forall vs, snd (body vs) = true -> existsb resizing (fst (body vs)) = false) ->
  for_vector spare body fuel l c <> UB.
Proof. intros W T S. apply (loop_safe spare body W T S fuel (length l) 0); [lia|now cbn]. Qed.

(** a body that only reads and assigns to the loop variable sees the elements there were, in order,
    and replaces each by what it last assigned *)
Theorem C137_values {A} spare (body : list A -> list (vact A) * bool) fuel l c st vs :
  int_calls body -> (forall vs, forallb quiet (fst (body vs)) = true) ->
  for_vector spare body fuel l c = Ok (st, vs) ->
  exists k, vs = firstn k l /\ cells st = rewritten body [] l k /\ (snd (body vs) = true -> vs = l /\ k = length l).
Proof.
  intros W Q H. assert (T : forall vs, tidy false (fst (body vs)) = true).
  { intros us. generalize (Q us). induction (fst (body us)) as [|[o|x] os IH]; cbn; auto.
    intros E. apply Bool.andb_true_iff in E as [E1 E2]. replace (resizes o) with false by (destruct o; try discriminate; reflexivity). auto. }
  pose proof (C137_index spare body fuel l c W T) as E. rewrite H in E. cbn [omap bind fst snd] in E. symmetry in E.
  destruct (quiet_sweep spare body Q fuel [] l [] _ _ E) as (k & Lk & -> & -> & K). exists k. cbn [app] in *. repeat split; auto.
  - rewrite K by auto. apply firstn_all.
Qed.

(** for (auto& e : v) e = f(e); *)
Theorem C137_map {A} spare (f : A -> A) (l : list A) c :
  exists st, for_vector spare (fun vs => (match rev vs with e :: _ => [VPut (f e)] | [] => [] end, true)) (length l) l c = Ok (st, l) /\ cells st = map f l.
Proof.
  set (body := fun vs : list A => _). assert (W : int_calls body) by (intros vs o; cbn; destruct (rev vs); cbn; [tauto|intros [?|[]]; discriminate]).
  assert (Q : forall vs, forallb quiet (fst (body vs)) = true) by (intros vs; cbn; now destruct (rev vs)).
  assert (T : forall vs, tidy false (fst (body vs)) = true) by (intros vs; cbn; now destruct (rev vs)).
  assert (NR : forall vs, existsb resizing (fst (body vs)) = false) by (intros vs; cbn; now destruct (rev vs)).
  assert (NE : forall fuel vs st, vec_loop spare body fuel st vs <> Err).
  { induction fuel as [|fuel IH]; intros vs st; cbn [vec_loop]; destruct (here st), (past st); try discriminate; destruct (Nat.eqb _ _); try discriminate.
    unfold aget. destruct (_ <? _); [discriminate|]. destruct (nth_error _ _) as [e|]; [|discriminate]. cbn [bind fst snd]. unfold body at 1. rewrite rev_app_distr. cbn [rev app fst vdos vdo].
    destruct (here st); [|discriminate]. unfold aset. destruct (_ || _)%bool; [discriminate|]. cbn [bind here]. apply IH. }
  destruct (for_vector spare body (length l) l c) as [[st vs]| | |] eqn:E.
  - destruct (C137_values spare body _ l c st vs W Q E) as (k & -> & C & K). destruct (K eq_refl) as [K1 ->]. rewrite K1. exists st. split; [reflexivity|].
    rewrite C. clear. generalize (@nil A). induction l as [|e l IH]; intros vs; [reflexivity|]. cbn [length rewritten map]. rewrite IH.
    unfold body, last_put. rewrite rev_app_distr. reflexivity.
  - now apply NE in E.
  - now apply (C137_safe spare body (length l) l c W T (fun vs _ => NR vs)) in E.
  - now apply (C137_ends spare body (length l) l c W (le_n _)) in E.
Qed.

(** refuted: elements may be added or removed while the loop runs.  No call that changes the size is
    ever defined if the loop goes on, however much room there is *)
Theorem C137_resize_refuted {A} spare (body : list A -> list (vact A) * bool) fuel e l c :
  int_calls body -> existsb resizing (fst (body [e])) = true -> snd (body [e]) = true ->
  forall r, for_vector spare body (S fuel) (e :: l) c <> Ok r.
Proof.
  intros W R G [st vs] H. unfold for_vector in H. cbn [vec_loop here past cells Nat.eqb length] in H.
  change (aget (e :: l) (Z.of_nat 0)) with (Ok e) in H. cbn [bind app] in H.
  set (s0 := VState _ _ _ _) in H. destruct (vdos spare s0 _) as [s1| | |] eqn:E; try discriminate. cbn [bind] in H. rewrite G in H.
  assert (R0 : ready 0 (S (length l)) false s0) by now cbn.
  pose proof (vdos_round spare 0 (S (length l)) (fst (body [e])) false s0 (Nat.lt_0_succ _) R0 (W [e])) as Q.
  rewrite E in Q. destruct Q as (r & _ & Q & ->). rewrite R in Q. cbn [orb ready] in Q.
  destruct (here s1); [|discriminate]. destruct fuel; cbn [vec_loop here past] in H; rewrite Q in H; discriminate.
Qed.

(** refuted: the loop variable can be used after a push if the loop is left then.  That depends on
    the room there is *)
Theorem C137_write_refuted {A} spare (x y e : A) (l : list A) :
  for_vector spare (fun _ => ([VDo (VPush x); VPut y], false)) 1 (e :: l) 0 = UB /\
  exists st, for_vector spare (fun _ => ([VDo (VPush x); VPut y], false)) 1 (e :: l) 1 = Ok (st, [e]) /\ cells st = y :: l ++ [x].
Proof.
  unfold for_vector. cbn [vec_loop here past cells Nat.eqb length]. change (aget (e :: l) (Z.of_nat 0)) with (Ok e).
  cbn [bind app fst snd vdos vdo vec_step cells survive here past cap length].
  assert (E : Nat.leb (S (length l) + 1) (S (length l) + 0) = false) by (apply Nat.leb_gt; lia). rewrite E. split; [reflexivity|].
  rewrite Nat.leb_refl. cbn [stay Nat.ltb Nat.leb here bind cells]. unfold seq_push. rewrite aset_ok by (cbn [length app]; lia). eexists. split; reflexivity.
Qed.

(** {1,2,3}: a write ahead of the loop is seen; a push and a break; a push without one *)
Example C137_example :
  let ahead := fun vs : list Z => (match vs with [_] => [VDo (VSet 2 30); VPut 10] | [_; _] => [VDo (VGet 0); VPut 20] | _ => [] end, true) in
  let push_once := fun vs : list Z => match vs with [_; _] => ([VPut 5; VDo (VPush 9)], false) | _ => ([], true) end in
  int_calls ahead /\ (forall vs, tidy false (fst (ahead vs)) = true) /\
  omap (fun p => (cells (fst p), snd p)) (for_vector (fun _ _ => O) ahead 3 [1; 2; 3] 0) = Ok ([10; 20; 30], [1; 2; 30]) /\
  (forall vs, snd (push_once vs) = true -> existsb resizing (fst (push_once vs)) = false) /\
  omap (fun p => (cells (fst p), snd p)) (for_vector (fun _ _ => O) push_once 3 [1; 2; 3] 0) = Ok ([1; 5; 3; 9], [1; 2]) /\
  for_vector (fun _ _ => O) (fun _ => ([VDo (VPush 9)], true)) 9 [1; 2; 3] 100 = UB /\
  for_vector (fun _ _ => O) (fun _ => ([VDo VPop], true)) 9 [1; 2; 3] 0 = UB /\
  for_vector (fun _ _ => O) (fun _ => ([VDo (VErase 3)], true)) 9 [1; 2; 3] 0 = Err /\
  omap (fun p => (cells (fst p), snd p)) (for_vector (fun _ _ => O) (fun vs => (match rev vs with e :: _ => [VPut (e * e)] | [] => [] end, true)) 3 [1; 2; 3] 0) = Ok ([1; 4; 9], [1; 2; 3]).
Proof.
  cbv zeta. split.
  { intros vs o. destruct vs as [|? [|? []]]; cbn; intros H; repeat (destruct H as [H|H]; try discriminate); try contradiction; injection H as <-; reflexivity. }
  split; [intros vs; destruct vs as [|? [|? []]]; reflexivity|]. split; [reflexivity|].
  split; [intros vs; destruct vs as [|? [|? []]]; cbn; congruence|]. repeat split.
Qed.

Print Assumptions C137_index.
Print Assumptions C137_only.
Print Assumptions C137_ends.
Print Assumptions C137_safe.
Print Assumptions C137_values.
Print Assumptions C137_map.
Print Assumptions C137_resize_refuted.
Print Assumptions C137_write_refuted.
Print Assumptions C137_example.
