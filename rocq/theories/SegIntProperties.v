(** Property theorem C94: SegmentTree<int> and SegmentTree<long long>. *)
From Verif Require Import Base SegModel SegIntModel SegSpec SegIntSpec SegProofs SegMainProofs SegIntProofs SegIntMainProofs SegProperties.
Local Open Scope Z_scope.

(** whatever a program with machine integers returns is the result in exact arithmetic
    (so C35-C37 hold for it) *)
Theorem C94_sound : forall M v cs k lv rv x, client_m M v cs k lv rv = Ok x -> client v cs k lv rv = Ok x.
Proof.
  intros M v cs k lv rv. change (refines (client_m M v cs k lv rv) (client v cs k lv rv)). unfold client_m, client.
  apply refines_bind; [apply init_refines|]. intros s. apply refines_bind; [apply run_refines|]. intros s'. apply refines_omap, query_refines.
Qed.
Print Assumptions C94_sound.
(** no operation overflows while size * bound fits the type *)
Theorem C94_no_overflow : forall M v cs k lv rv W, v <> [] ->
  Forall (valid_call (Z.of_nat (length v))) cs -> valid_range (Z.of_nat (length v)) lv rv ->
  1 <= W -> Forall (fun x => Z.abs x <= W) v -> Z.of_nat (length v) * bound W cs <= M ->
  client_m M v cs k lv rv = client v cs k lv rv.
Proof. intros M v cs k lv rv W Hv Hcs Hr HW HF HM. exact (client_agrees M v cs k lv rv W Hv Hcs Hr HF HW HM). Qed.
Print Assumptions C94_no_overflow.
(** so every value can be read back *)
Theorem C94_points : forall M v cs k i W, v <> [] -> safe_size (Z.of_nat (length v)) ->
  Forall (valid_call (Z.of_nat (length v))) cs -> 0 <= i < Z.of_nat (length v) ->
  1 <= W -> Forall (fun x => Z.abs x <= W) v -> Z.of_nat (length v) * bound W cs <= M ->
  client_m M v cs k i i = Ok (after cs (at_ v) i).
Proof.
  intros M v cs k i W Hv Hs Hcs Hi HW HF HM. rewrite (C94_no_overflow M v cs k i i W Hv Hcs ltac:(unfold valid_range; lia) HW HF HM). now apply C36_points_total.
Qed.
Print Assumptions C94_points.
(** the condition cannot be weakened by one *)
Theorem C94_bound_refuted : exists v W, v <> [] /\ 1 <= W /\ Forall (fun x => Z.abs x <= W) v /\ Z.of_nat (length v) * bound W [] = int_max + 1 /\
  client_m int_max v [] QMax 0 0 = UB.
Proof.
  exists [2 ^ 30; 2 ^ 30], (2 ^ 30). split; [discriminate|]. split; [lia|]. split; [repeat constructor; lia|]. split; vm_compute; reflexivity.
Qed.
Print Assumptions C94_bound_refuted.
(** construction adds everything up, also when only maxima are asked for *)
Theorem C94_maximum_refuted : exists v, Forall (fun x => Z.abs x <= int_max) v /\ client_m int_max v [] QMax 0 1 = UB /\ client v [] QMax 0 1 = Ok 2000000000.
Proof. exists [2000000000; 1999999999]. split; [repeat constructor; unfold int_max; lia|]. split; vm_compute; reflexivity. Qed.
Print Assumptions C94_maximum_refuted.
(** factors that wait at inner nodes overflow though every value is 0 all the time *)
Theorem C94_pending_refuted : exists v cs, Forall (valid_call 2) cs /\ (forall cs1 cs2 i, cs = cs1 ++ cs2 -> after cs1 (at_ v) i = 0) /\
  client v cs QSum 0 1 = Ok 0 /\ client_m int_max v cs QSum 0 1 = UB.
Proof.
  exists [0; 0], (repeat (CUpdate (Mul 2) 0 1) 32). split; [|split; [|split; vm_compute; reflexivity]].
  - apply Forall_forall. intros c Hc. apply repeat_spec in Hc. subst c. cbn. unfold valid_range. lia.
  - intros cs1 cs2 i E. assert (H : Forall (fun c => c = CUpdate (Mul 2) 0 1) cs1).
    { apply Forall_forall. intros c Hc. apply (repeat_spec 32). rewrite E. apply in_or_app. now left. }
    assert (Z0 : forall i, at_ [0; 0] i = 0) by (intros j; unfold at_; destruct (Z.to_nat j) as [|[|[|]]]; reflexivity).
    revert Z0. generalize (at_ [0; 0]). clear E. revert i. induction H as [|c cs1 -> H IH]; intros i f Z0; [apply Z0|].
    unfold after. cbn [fold_left]. apply (IH i (after1 (CUpdate (Mul 2) 0 1) f)). intros j. cbn [after1 app1]. rewrite Z0. destruct (_ && _); reflexivity.
Qed.
Print Assumptions C94_pending_refuted.
(** a history within the bound, one outside it that still returns, and one that needs long long *)
Example C94_example :
  let v := [3; -1; 4; 1] in let cs := [CUpdate (Add 100) 0 2; CUpdate (Mul (-3)) 1 3; CQuery QSum 0 3; CUpdate (Add 1000000) 3 3] in
  let cs' := cs ++ [CUpdate (Mul 30000) 0 3] in
  Forall (valid_call 4) cs' /\ Forall (fun x => Z.abs x <= 4) v /\ 4 * bound 4 cs <= int_max /\
  client_m int_max v cs QMax 3 3 = Ok 999997 /\ after cs (at_ v) 3 = 999997 /\
  client_m int_max v cs' QSum 3 3 = UB /\ 4 * bound 4 cs' <= ll_max /\ client_m ll_max v cs' QSum 3 3 = Ok 29999910000.
Proof.
  cbv zeta. split; [repeat constructor; cbn; unfold valid_range; lia|]. split; [repeat constructor; lia|]. split; [vm_compute; discriminate|].
  split; [vm_compute; reflexivity|]. split; [vm_compute; reflexivity|]. split; [vm_compute; reflexivity|]. split; [vm_compute; discriminate|]. vm_compute; reflexivity.
Qed.
