(** C133: loops over a List whose body changes it. *)
From Verif Require Import Base ContModel ContSpec ContProofs ListRefModel ListRefSpec WalkModel ListWalkModel ListWalkSpec ListWalkProofs.
Local Open Scope Z_scope.

(** the loop follows the element it stands at through every call, and goes on to the one behind it *)
Theorem C133_follows {A} (lt : A -> A -> bool) (body : list A -> list (lact A) * bool) fuel l :
  weak_order lt -> int_indices body ->
  omap (fun p => (map snd (links (fst p)), snd p)) (for_list lt body fuel l) = tour lt body fuel l 0 [].
Proof. intros WO W. exact (for_list_tour lt WO body fuel l W). Qed.

Lemma run_tour {A} (lt : A -> A -> bool) (body : list A -> list (lact A) * bool) fuel l st vs : weak_order lt -> int_indices body ->
  for_list lt body fuel l = Ok (st, vs) -> tour lt body fuel l 0 [] = Ok (map snd (links st), vs).
Proof. intros WO W H. rewrite <- (C133_follows lt body fuel l WO W), H. reflexivity. Qed.

(** a body that neither removes nor reorders: no undefined behaviour, and unless it leaves the loop,
    the elements there were are all seen, in their order *)
Theorem C133_sees {A} (lt : A -> A -> bool) (body : list A -> list (lact A) * bool) fuel l :
  weak_order lt -> int_indices body -> (forall vs, forallb keeps (fst (body vs)) = true) ->
  match for_list lt body fuel l with
  | Ok (st, vs) => snd (body vs) = true -> within l vs
  | UB => False
  | _ => True
  end.
Proof.
  intros WO W K. pose proof (C133_follows lt body fuel l WO W) as T. destruct (for_list lt body fuel l) as [[st vs]| | |]; auto; cbn [omap bind] in T; symmetry in T.
  - intros G. destruct (keep_tour lt body W K fuel [] l [] _ _ T G) as (ws & E & S). cbn [app snd] in E. subst ws. exact S.
  - exact (keep_safe lt body W K fuel [] l [] T).
Qed.

(** a List as a list of work to do: what the body pushes is seen as well, in the order of the
    pushes, and at the end everything in the List has been seen once *)
Theorem C133_work {A} (lt : A -> A -> bool) (g : list A -> list A) fuel l st vs :
  weak_order lt -> for_list lt (fun vs => (map (fun x => LDo (LPush x)) (g vs), true)) fuel l = Ok (st, vs) ->
  map snd (links st) = vs /\ vs = l ++ flat_map (fun n => g (firstn n vs)) (seq 1 (length vs)).
Proof.
  intros WO H. apply run_tour in H; [|exact WO|intros us o J; apply in_map_iff in J as (x & [= <-] & _); exact I].
  destruct (push_tour lt g fuel [] l _ _ H) as (-> & ws & -> & Q). split; [reflexivity|exact Q].
Qed.

(** pushing to the front: the loop sees the elements there were *)
Theorem C133_front {A} (lt : A -> A -> bool) (g : list A -> list A) l :
  weak_order lt -> exists st p, for_list lt (fun vs => (map (fun x => LDo (LPushFront x)) (g vs), true)) (length l) l = Ok (st, l) /\ map snd (links st) = p ++ l.
Proof.
  intros WO. destruct (front_tour lt g l (length l) [] [] (le_n _)) as (p & Q). cbn [app length] in Q.
  assert (W : int_indices (fun vs : list A => (map (fun x => LDo (LPushFront x)) (g vs), true))) by (intros us o J; apply in_map_iff in J as (x & [= <-] & _); exact I).
  rewrite <- (C133_follows lt _ _ _ WO W) in Q. destruct (for_list lt _ (length l) l) as [[st vs]| | |]; try discriminate. cbn [omap bind fst snd] in Q. injection Q as Q1 Q2. subst vs. exists st, p. auto.
Qed.

(** refuted: such a loop ends.  If each round pushes something, it never does *)
Theorem C133_ends_refuted {A} (lt : A -> A -> bool) (g : list A -> list A) fuel l :
  weak_order lt -> l <> [] -> (forall vs, vs <> [] -> g vs <> []) ->
  for_list lt (fun vs => (map (fun x => LDo (LPush x)) (g vs), true)) fuel l = Fuel.
Proof.
  intros WO N G. assert (W : int_indices (fun vs : list A => (map (fun x => LDo (LPush x)) (g vs), true))) by (intros us o J; apply in_map_iff in J as (x & [= <-] & _); exact I).
  pose proof (C133_follows lt _ fuel l WO W) as T. rewrite (push_for_ever lt g G) in T by (destruct l; [congruence|cbn; lia]). destruct (for_list lt _ fuel l); try discriminate. reflexivity.
Qed.

(** refuted: erasing the present element (here: the first one) and going on *)
Theorem C133_current_refuted {A} (lt : A -> A -> bool) fuel l :
  weak_order lt -> l <> [] -> for_list lt (fun _ => ([LDo LPopFront], true)) (S fuel) l = UB.
Proof.
  intros WO N. assert (W : int_indices (fun _ : list A => ([LDo LPopFront], true))) by (intros us o [[= <-]|[]]; exact I).
  pose proof (C133_follows lt _ (S fuel) l WO W) as T. revert T. generalize (for_list lt (fun _ : list A => ([LDo LPopFront], true)) (S fuel) l). intros r T. destruct l as [|x l]; [congruence|]. cbn in T. destruct r; try discriminate. reflexivity.
Qed.

(** refuted: every element is seen.  Reversing the List at the first element ends the loop *)
Theorem C133_reverse_refuted {A} (lt : A -> A -> bool) fuel x l :
  weak_order lt -> exists st, for_list lt (fun vs => (match vs with [_] => [LDo LReverse] | _ => [] end, true)) (S fuel) (x :: l) = Ok (st, [x]) /\ map snd (links st) = rev (x :: l).
Proof.
  intros WO. assert (W : int_indices (fun vs : list A => (match vs with [_] => [LDo LReverse] | _ => [] end, true))) by (intros [|u [|? ?]] o J; cbn in J; [destruct J|destruct J as [[= <-]|[]]; exact I|destruct J]).
  pose proof (C133_follows lt _ (S fuel) (x :: l) WO W) as T. cbn [tour nth_error app fst snd edits list_step bind goes] in T.
  assert (Q : nth_error (list_reverse (x :: l)) (S (length (x :: l) - 1 - 0)) = None) by (apply nth_error_None; unfold list_reverse; rewrite rev_length; cbn [length]; lia).
  destruct fuel; cbn [tour] in T; rewrite Q in T; (destruct (for_list lt _ _ (x :: l)) as [[st vs]| | |]; try discriminate; cbn [omap bind fst snd] in T; injection T as T1 T2; subst vs; exists st; now split).
Qed.

(** concrete loops over [3; 1; 2] *)
Definition halves (vs : list Z) : list (lact Z) * bool := (map (fun x => LDo (LPush x)) (match rev vs with x :: _ => if x <? 2 then [] else [x / 2] | [] => [] end), true).
Definition kind (vs : list Z) : list (lact Z) * bool :=
  match vs with
  | [3] => ([LDo (LInsert 1 7); LPut 30; LDo (LPushFront 0)], true)
  | _ => ([LDo LSize], true)
  end.
Example C133_example :
  weak_order Z.ltb /\ int_indices kind /\ (forall vs, forallb keeps (fst (kind vs)) = true) /\
  omap (fun p => (map snd (links (fst p)), snd p)) (for_list Z.ltb kind 4 [3; 1; 2]) = Ok ([0; 30; 7; 1; 2], [3; 7; 1; 2]) /\
  (* work: halves are added until they are below 2 *)
  omap (fun p => snd p) (for_list Z.ltb halves 9 [3; 1; 6]) = Ok [3; 1; 6; 1; 3; 1] /\
  (* sorting at 3, which becomes the last element *)
  omap (fun p => snd p) (for_list Z.ltb (fun vs => (match vs with [3] => [LDo LSort] | _ => [] end, true)) 9 [3; 1; 2]) = Ok [3] /\
  (* erasing others, or the present one and leaving *)
  omap (fun p => (map snd (links (fst p)), snd p)) (for_list Z.ltb (fun vs => match vs with [3; 1] => ([LDo LPopFront; LDo LPop], true) | _ => ([], true) end) 9 [3; 1; 2]) = Ok ([1], [3; 1]) /\
  omap (fun p => (map snd (links (fst p)), snd p)) (for_list Z.ltb (fun vs => match vs with [3; 1] => ([LDo (LErase 1)], false) | _ => ([], true) end) 9 [3; 1; 2]) = Ok ([3; 2], [3; 1]) /\
  for_list Z.ltb (fun vs => match vs with [3; 1] => ([LDo (LErase 1)], true) | _ => ([], true) end) 9 [3; 1; 2] = UB /\
  for_list Z.ltb (fun vs => match vs with [3; 1] => ([LDo (LErase 1); LPut 5], false) | _ => ([], true) end) 9 [3; 1; 2] = UB /\
  for_list Z.ltb (fun vs => match vs with [3; 1] => ([LDo (LErase 3)], true) | _ => ([], true) end) 9 [3; 1; 2] = Err.
Proof.
  split; [split; [apply Z.ltb_irrefl|split; intros a b c; rewrite !Z.ltb_lt; lia]|].
  assert (C : forall vs, kind vs = ([LDo (LInsert 1 7); LPut 30; LDo (LPushFront 0)], true) \/ kind vs = ([LDo LSize], true)).
  { intros [|[|[[p|p|]|p|]|p] [|? ?]]; cbn; auto. }
  split; [intros vs o H; destruct (C vs) as [E|E]; rewrite E in H; cbn in H; repeat destruct H as [H|H]; try discriminate H; try (injection H as <-; now cbn); destruct H|].
  split; [intros vs; destruct (C vs) as [-> | ->]; reflexivity|]. repeat (split; [vm_compute; reflexivity|]). vm_compute. reflexivity.
Qed.

Print Assumptions C133_follows.
Print Assumptions C133_sees.
Print Assumptions C133_work.
Print Assumptions C133_front.
Print Assumptions C133_ends_refuted.
Print Assumptions C133_current_refuted.
Print Assumptions C133_reverse_refuted.
