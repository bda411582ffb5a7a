(** C116: how deep loadJSON recurses and how much it copies. *)
From Verif Require Import Base DecModel JsonModel JsonSpec JsonProofs JsonCostModel JsonCostSpec JsonCostProofs.
Local Open Scope nat_scope.

(** A stack with room for one call more than the text has '[' and '{' is enough: the
    outcome is that of the parser without limit, for texts that load and texts that fail. *)
Theorem C116_enough : forall (F : Type) (D : doubles F) (stk : nat) (s : bytes),
  openings s < stk -> omap fst (load_c D stk s) = loadJSON D s.
Proof. exact @load_same. Qed.
Print Assumptions C116_enough.

(** A run that does not overflow gives the same value and makes the same copies on a larger
    stack. *)
Theorem C116_more : forall (F : Type) (D : doubles F) (stk stk' : nat) (s : bytes),
  stk <= stk' -> load_c D stk s <> UB -> load_c D stk' s = load_c D stk s.
Proof. exact @load_more. Qed.
Print Assumptions C116_more.

(** When a text loads, the value is that of the parser without limit, it is nested no deeper
    than the stack allows, and the copies lie between the sum over all members of the size
    of the member and the number of '{' times the length of the text plus one. *)
Theorem C116_loaded : forall (F : Type) (D : doubles F) (stk : nat) (s : bytes) (v : json F) (k : nat),
  load_c D stk s = Ok (v, k) ->
  loadJSON D s = Ok v /\ height v <= stk /\ member_work v <= k <= braces s * (length s + 1).
Proof.
  intros F D stk s v k H. destruct (load_ok D stk s v k H) as (A & B & C & E). auto.
Qed.
Print Assumptions C116_loaded.

(** Without '{' nothing is copied: arrays are filled by moving. *)
Theorem C116_arrays_move : forall (F : Type) (D : doubles F) (stk : nat) (s : bytes) (v : json F) (k : nat),
  ~ In "{"%char s -> load_c D stk s = Ok (v, k) -> k = 0.
Proof.
  intros F D stk s v k N H. destruct (load_ok D stk s v k H) as (_ & _ & _ & E).
  assert (B : braces s = 0).
  { unfold braces. clear - N. induction s as [|a s IH]; [reflexivity|]. cbn [filter].
    destruct (Ascii.eqb_spec a "{") as [->|]; [contradiction N; now left|]. apply IH. intros I. apply N. now right. }
  rewrite B in E. lia.
Qed.
Print Assumptions C116_arrays_move.

(** n arrays inside each other need exactly n nested calls; and any text that begins with
    more '[' than the stack has room for overflows, whatever follows. *)
Theorem C116_depth : forall (F : Type) (D : doubles F) (stk n : nat),
  load_c D stk (brackets (S n)) = (if S n <=? stk then Ok (deep_array n, 0) else UB) /\
  (forall r, stk < n -> load_c D stk (repeat "["%char n ++ r) = UB).
Proof.
  intros F D stk n. split; [|intros r; apply load_arrays_over].
  destruct (Nat.leb_spec (S n) stk) as [L|L]; [apply load_arrays_fit; lia|]. apply load_arrays_over. lia.
Qed.
Print Assumptions C116_depth.

(** "loadJSON handles every text" is false on every stack: a text that loads without the
    limit overflows. *)
Theorem C116_any_stack_refuted : forall (F : Type) (D : doubles F) (stk : nat),
  exists s v, length s = 2 * stk + 2 /\ loadJSON D s = Ok v /\ load_c D stk s = UB.
Proof.
  intros F D stk. exists (brackets (S stk)), (deep_array stk). split; [|split].
  - unfold brackets. rewrite app_length, !repeat_length. lia.
  - destruct (load_ok D (S stk) _ _ _ (load_arrays_fit D (S stk) stk ltac:(lia))) as [H _]. exact H.
  - apply load_arrays_over. lia.
Qed.
Print Assumptions C116_any_stack_refuted.

(** n + 1 objects inside each other, a text of 5 n + 2 bytes, are loaded with n (n + 1) / 2
    copies. *)
Theorem C116_quadratic : forall (F : Type) (D : doubles F) (stk n : nat), n < stk ->
  length (nested n) = 5 * n + 2 /\
  exists k, load_c D stk (nested n) = Ok (deep_object n, k) /\ 2 * k = n * (n + 1).
Proof.
  intros F D stk n L. split; [apply nested_len|]. exists (tri n). split; [now apply load_nested|apply tri_eq].
Qed.
Print Assumptions C116_quadratic.

(** "Loading takes a number of copies proportional to the length" is false. *)
Theorem C116_linear_refuted : forall (F : Type) (D : doubles F) (c : nat),
  exists s stk v k, load_c D stk s = Ok (v, k) /\ c * length s < k.
Proof.
  intros F D c. set (n := 14 * c + 14). destruct (C116_quadratic F D (S n) n ltac:(lia)) as (L & k & E & K).
  exists (nested n), (S n), (deep_object n), k. split; [exact E|]. rewrite L. subst n. clear - K. nia.
Qed.
Print Assumptions C116_linear_refuted.

(** a text with an object inside an array inside an object, a repeated name, and the
    bounds of [C116_loaded] for it *)
Definition ex_doubles : doubles unit := Doubles (fun _ => []) (fun _ => tt) (fun x _ => x).
Definition ex_text : bytes := str "{'a':[1,{'b':2}],'a':[3,{'c':null}]}".
Definition ex_fix (s : bytes) : bytes := map (fun c => if Ascii.eqb c "'" then DQ else c) s.
Example C116_example :
  openings (ex_fix ex_text) = 5 /\
  load_c ex_doubles 3 (ex_fix ex_text) = UB /\
  (exists v, load_c ex_doubles 4 (ex_fix ex_text) = Ok (v, 10) /\ height v = 4 /\ nodes v = 5 /\ member_work v = 5) /\
  load_c ex_doubles 2 (ex_fix (str "[{'a' 1}]")) = UB /\ load_c ex_doubles 3 (ex_fix (str "[{'a' 1}]")) = Err /\
  load_c ex_doubles 9 (str "[[1,2],[[3]]]") = Ok (JArr [JArr [JInt 1; JInt 2]; JArr [JArr [JInt 3]]], 0) /\
  load_c ex_doubles 3 (nested 2) = Ok (deep_object 2, 3) /\
  load_c ex_doubles 3 (ex_fix (str "{{'a':1}:[2]}")) = Ok (JObj [([], JArr [JInt 2])], 3).
Proof. repeat split; try (vm_compute; reflexivity). eexists. repeat split; vm_compute; reflexivity. Qed.
