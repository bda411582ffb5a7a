(** C123: stack, size of the text and copying of dump; stack of copying and destroying. *)
From Verif Require Import Base DecModel JsonModel JsonCostSpec JsonDumpModel JsonDumpSpec JsonDumpProofs.
Local Open Scope nat_scope.

(** dump needs room for exactly as many nested calls as the value is nested; then its text is that
    of the model without limits, and the characters copied lie between the length of the
    text and about twice the length for every level. *)
Theorem C123_dump : forall (F : Type) (D : doubles F) (v : json F) (stk depth : nat) (tab : bytes),
  (height v <= stk -> exists w, dump_c D stk depth tab v = Ok (dump D depth tab v, w) /\
     length (dump D depth tab v) <= w <= 2 * height v * length (dump D depth tab v) + nodes v * ((depth + height v) * length tab)) /\
  (stk < height v -> dump_c D stk depth tab v = UB).
Proof. intros F D v stk depth tab. exact (dump_c_spec D v stk depth tab). Qed.
Print Assumptions C123_dump.
(** Copying and destroying need the same room. *)
Theorem C123_copy : forall (F : Type) (v : json F) (stk : nat), copy_c stk v = if height v <=? stk then Ok v else UB.
Proof. intros F v stk. destruct (copy_c_spec v stk) as [A B]. destruct (Nat.leb_spec (height v) stk); auto. Qed.
Print Assumptions C123_copy.
Theorem C123_destroy : forall (F : Type) (v : json F) (stk : nat), destroy_c stk v = if height v <=? stk then Ok tt else UB.
Proof. intros F v stk. destruct (destroy_c_spec v stk) as [A B]. destruct (Nat.leb_spec (height v) stk); auto. Qed.
Print Assumptions C123_destroy.
(** So for every stack there is a value that cannot even be destroyed. *)
Theorem C123_any_stack_refuted : forall (F : Type) (D : doubles F) (stk : nat),
  exists v : json F, nodes v = S stk /\ destroy_c stk v = UB /\ copy_c stk v = UB /\ forall depth tab, dump_c D stk depth tab v = UB.
Proof.
  intros F D stk. exists (deep_array stk). assert (H : height (@deep_array F stk) = S stk) by apply height_deep_array.
  split; [|split; [|split]].
  - clear H. induction stk as [|n IH]; [reflexivity|]. cbn [deep_array nodes fold_right]. rewrite IH. lia.
  - rewrite C123_destroy, H. replace (S stk <=? stk) with false; [reflexivity|]. symmetry. apply Nat.leb_gt. lia.
  - rewrite C123_copy, H. replace (S stk <=? stk) with false; [reflexivity|]. symmetry. apply Nat.leb_gt. lia.
  - intros depth tab. apply C123_dump. lia.
Qed.
Print Assumptions C123_any_stack_refuted.

(** The text is that without indentation plus at most 2*nodes - 1 indentations. *)
Theorem C123_size : forall (F : Type) (D : doubles F) (v : json F) (depth : nat) (tab : bytes),
  length (dump D 0 [] v) <= length (dump D depth tab v) <= length (dump D 0 [] v) + (2 * nodes v - 1) * ((depth + height v) * length tab).
Proof. intros. apply dump_size. Qed.
Print Assumptions C123_size.
(** n objects around an empty one, in the default layout: a text of quadratic length, and a cubic
    number of characters copied. *)
Theorem C123_objects : forall (F : Type) (D : doubles F) (n stk : nat), n < stk ->
  length (dump D 0 [] (deep_object n)) = 9 * n + 4 /\
  length (dump D 1 (str "  ") (deep_object n)) = 2 * n * n + 11 * n + 4 /\
  exists w, dump_c D stk 1 (str "  ") (deep_object n) = Ok (dump D 1 (str "  ") (deep_object n), w) /\ n * n * n <= w.
Proof.
  intros F D n stk H. split; [apply dump_bare_object|]. split.
  - pose proof (dump_deep_object D n 0) as E. unfold two in E. rewrite E. lia.
  - destruct (dump_c_spec D (deep_object n) stk 1 (str "  ")) as [K _]. rewrite height_deep_object in K. destruct (K ltac:(lia)) as (w & E & _).
    exists w. split; [exact E|]. exact (deep_object_work D n stk 0 _ _ E).
Qed.
Print Assumptions C123_objects.
(** Neither the length of the text nor the work is linear in the text without indentation; the work is not
    even linear in the text, for arrays too. *)
Theorem C123_linear_refuted : forall (F : Type) (D : doubles F) (c : nat),
  (exists v, c * length (dump D 0 [] v) < length (dump D 1 (str "  ") v)) /\
  (exists v w stk, dump_c D stk 1 (str "  ") v = Ok (dump D 1 (str "  ") v, w) /\
     c * length (dump D 1 (str "  ") v) < w /\ length (dump D 1 (str "  ") v) = length (dump D 0 [] v)).
Proof.
  intros F D c. split.
  - exists (deep_object (13 * c + 13)). destruct (C123_objects F D (13 * c + 13) (S (13 * c + 13)) ltac:(lia)) as (A & B & _). rewrite A, B. nia.
  - set (n := 4 * c + 4). exists (deep_array n). destruct (dump_c_spec D (deep_array n) (S n) 1 (str "  ")) as [K _].
    rewrite height_deep_array in K. destruct (K ltac:(lia)) as (w & E & _). exists w, (S n). split; [exact E|].
    pose proof (deep_array_work D n _ _ _ _ _ E) as W. rewrite !dump_deep_array. split; [|reflexivity]. subst n. nia.
Qed.
Print Assumptions C123_linear_refuted.
(** The closing braces stand where they should exactly for indentations of two characters (or none). *)
Theorem C123_aligned : forall (F : Type) (D : doubles F) (tab : bytes),
  dump D 1 tab (JObj [(str "a", JObj [])]) = aligned tab <-> length tab = 2 \/ tab = [].
Proof. intros. apply aligned_iff. Qed.
Print Assumptions C123_aligned.

Definition sample : json unit := JObj [(str "a", JArr [JInt 1; JNull]); (str "b", JObj [(str "c", JBool true)])].
(** a value of height 3 on stacks of 3 and 2 *)
Example C123_example : forall D : doubles unit,
  height sample = 3 /\ nodes sample = 6 /\
  (exists w, dump_c D 3 1 (str "  ") sample = Ok (dump D 1 (str "  ") sample, w) /\ length (dump D 1 (str "  ") sample) = 51 /\ w = 194) /\
  dump_c D 2 1 (str "  ") sample = UB /\ destroy_c 3 sample = Ok tt /\ destroy_c 2 sample = UB /\ copy_c 2 sample = UB.
Proof.
  intros D. split; [reflexivity|]. split; [reflexivity|]. split; [|repeat split; reflexivity].
  eexists. split; [vm_compute; reflexivity|]. split; vm_compute; reflexivity.
Qed.
