(** Common definitions: outcomes of C++ calls, machine integers, byte strings. *)
From Coq Require Export Ascii String.
From Coq Require Export Arith ZArith Lia Bool List.
From Coq Require Export ZifyBool ZifyNat ZifyN.
Export ListNotations.
#[global] Open Scope list_scope.

(** Outcome of a C++ call.  [Err] is [cuhksz::error(...)], i.e. message and
    [exit(EXIT_FAILURE)] (src/include/utils/error.h:17-23); [UB] is undefined
    behaviour; [Fuel] means that the fuel of a loop or recursion ran out. *)
Inductive outcome (A : Type) : Type :=
| Ok (a : A)
| Err
| UB
| Fuel.
Arguments Ok {A} a.
Arguments Err {A}.
Arguments UB {A}.
Arguments Fuel {A}.

(** sequencing of C++ statements: a later statement runs only after a normal earlier one (error() of utils/error.h ends the program) *)
Definition bind {A B} (m : outcome A) (k : A -> outcome B) : outcome B :=
  match m with
  | Ok a => k a
  | Err => Err
  | UB => UB
  | Fuel => Fuel
  end.

(** the result of a C++ call passed through a function without effects (used e.g. for Random.cpp:39) *)
Definition omap {A B} (f : A -> B) (m : outcome A) : outcome B :=
  bind m (fun a => Ok (f a)).

Notation "x <- m ;; k" := (bind m (fun x => k))
  (at level 61, m at next level, right associativity).
Notation "' p <- m ;; k" := (bind m (fun p => k))
  (at level 61, p pattern, m at next level, right associativity).

(** Machine integers.  [in_int32]/[in_int64]: representable in [int] /
    [int64_t] (assumed 32 and 64 bit two's complement, as on every platform the
    project supports).  [wrap32]: conversion to [int] (implementation-defined in
    C++11, modular on all supported compilers); std::numeric_limits of int and int64_t *)
Definition int32_min : Z := -2147483648.
(** INT_MAX (std::numeric_limits) *)
Definition int32_max : Z := 2147483647.
(** INT64_MIN (std::numeric_limits) *)
Definition int64_min : Z := -9223372036854775808.
(** INT64_MAX (std::numeric_limits) *)
Definition int64_max : Z := 9223372036854775807.
(** representable in int (std) *)
Definition in_int32 (z : Z) : bool := (int32_min <=? z)%Z && (z <=? int32_max)%Z.
(** representable in int64_t (std) *)
Definition in_int64 (z : Z) : bool := (int64_min <=? z)%Z && (z <=? int64_max)%Z.
(** std conversion to int, modulo 2^32, e.g. Random.cpp:14 *)
Definition wrap32 (z : Z) : Z := ((z + 2147483648) mod 4294967296 - 2147483648)%Z.
(** std conversion to int64_t, modulo 2^64 *)
Definition wrap64 (z : Z) : Z :=
  ((z + 9223372036854775808) mod 18446744073709551616 - 9223372036854775808)%Z.
(** std conversion to uint64_t, e.g. Random.cpp:10 *)
Definition wrapu64 (z : Z) : Z := (z mod 18446744073709551616)%Z.

(** Result of a signed [int] / [int64_t] operation: overflow is UB; C++ std [expr]/4; used wherever the library computes in int, e.g. Fraction.h *)
Definition chk32 (z : Z) : outcome Z := if in_int32 z then Ok z else UB.
(** a signed int64_t operation: overflow is UB (C++ std [expr]/4) *)
Definition chk64 (z : Z) : outcome Z := if in_int64 z then Ok z else UB.

(** [std::string] as a list of bytes. *)
Definition bytes := list ascii.
(** a string literal of the library sources, as std::string *)
Definition str (s : string) : bytes := list_ascii_of_string s.
(** value of an unsigned char, e.g. network_functions.cpp:38 *)
Definition byteZ (c : ascii) : Z := Z.of_N (N_of_ascii c).
(** value of a (signed) [char]; e.g. network_functions.cpp:30 *)
Definition charZ (c : ascii) : Z :=
  let v := byteZ c in if (v <? 128)%Z then v else (v - 256)%Z.
(** the terminating character of a std::string, e.g. Json.cpp:176 *)
Definition NUL : ascii := Ascii false false false false false false false false.

Lemma byteZ_range c : (0 <= byteZ c < 256)%Z.
Proof.
  unfold byteZ. pose proof (N_ascii_bounded c). lia.
Qed.

Lemma byteZ_inj a b : byteZ a = byteZ b -> a = b.
Proof.
  unfold byteZ. intros H. apply N2Z.inj in H.
  rewrite <- (ascii_N_embedding a), <- (ascii_N_embedding b). now rewrite H.
Qed.

Lemma wrap32_id z : in_int32 z = true -> wrap32 z = z.
Proof.
  unfold in_int32, wrap32, int32_min, int32_max. intros H.
  rewrite Z.mod_small; lia.
Qed.
Lemma wrap64_id z : in_int64 z = true -> wrap64 z = z.
Proof.
  unfold in_int64, wrap64, int64_min, int64_max. intros H.
  rewrite Z.mod_small; lia.
Qed.

Lemma bind_ok {A B} (m : outcome A) (k : A -> outcome B) b :
  bind m k = Ok b -> exists a, m = Ok a /\ k a = Ok b.
Proof. destruct m; simpl; intros H; try discriminate. eauto. Qed.

(** The first [n] elements of a list, and update at an index: bounds-checked
    array access used by several models; std: element assignment of an array or vector, e.g. edit_distance.cpp:35 *)
Fixpoint upd {A} (l : list A) (i : nat) (x : A) : list A :=
  match l, i with
  | [], _ => []
  | _ :: t, O => x :: t
  | h :: t, S j => h :: upd t j x
  end.

Lemma upd_length {A} (l : list A) i x : length (upd l i x) = length l.
Proof. revert i; induction l as [|h t IH]; destruct i; simpl; auto. Qed.

Lemma nth_error_upd_eq {A} (l : list A) i x :
  i < length l -> nth_error (upd l i x) i = Some x.
Proof.
  revert i; induction l as [|h t IH]; destruct i; simpl; intros H; try lia; auto.
  apply IH; lia.
Qed.

Lemma nth_error_upd_neq {A} (l : list A) i j x :
  i <> j -> nth_error (upd l i x) j = nth_error l j.
Proof.
  revert i j; induction l as [|h t IH]; destruct i, j; simpl; intros H; auto; try lia.
Qed.

Lemma nth_upd_eq {A} (l : list A) i x d : i < length l -> nth i (upd l i x) d = x.
Proof.
  revert i; induction l as [|h t IH]; destruct i; simpl; intros H; try lia; auto.
  apply IH; lia.
Qed.
Lemma nth_upd_neq {A} (l : list A) i j x d : i <> j -> nth j (upd l i x) d = nth j l d.
Proof.
  revert i j; induction l as [|h t IH]; destruct i, j; simpl; intros H; auto; try lia.
Qed.
Lemma upd_oob {A} (l : list A) i x : length l <= i -> upd l i x = l.
Proof.
  revert i; induction l as [|h t IH]; destruct i; simpl; intros H; try lia; auto.
  f_equal. apply IH; lia.
Qed.

(** bounds-checked read and write of an array ([vec[i]]): UB when out of range; std operator[], e.g. edit_distance.cpp:40 *)
Definition aget {A} (l : list A) (i : Z) : outcome A :=
  if (i <? 0)%Z then UB
  else match nth_error l (Z.to_nat i) with Some x => Ok x | None => UB end.
(** assignment through std operator[], e.g. edit_distance.cpp:35 *)
Definition aset {A} (l : list A) (i : Z) (x : A) : outcome (list A) :=
  if (i <? 0)%Z || (Z.of_nat (length l) <=? i)%Z then UB
  else Ok (upd l (Z.to_nat i) x).

Lemma aget_ok {A} (l : list A) i d :
  (0 <= i < Z.of_nat (length l))%Z -> aget l i = Ok (nth (Z.to_nat i) l d).
Proof.
  intros H. unfold aget. destruct (Z.ltb_spec i 0); [lia|].
  rewrite (nth_error_nth' l d); [reflexivity|lia].
Qed.
Lemma aset_ok {A} (l : list A) i x :
  (0 <= i < Z.of_nat (length l))%Z -> aset l i x = Ok (upd l (Z.to_nat i) x).
Proof.
  intros H. unfold aset.
  destruct (Z.ltb_spec i 0); [lia|]. destruct (Z.leb_spec (Z.of_nat (length l)) i); [lia|].
  reflexivity.
Qed.

Local Open Scope Z_scope.
(** A C++ counting loop [for (i = lo; ...; i++) body]: [n] iterations from [i]; e.g. edit_distance.cpp:26, BigNum.h:250 *)
Fixpoint for_loop {S} (n : nat) (i : Z) (body : Z -> S -> outcome S) (s : S) : outcome S :=
  match n with
  | O => Ok s
  | Datatypes.S k => s' <- body i s ;; for_loop k (i + 1) body s'
  end.

Lemma for_loop_inv {S} (I : Z -> S -> Prop) (body : Z -> S -> outcome S) n i s :
  I i s ->
  (forall k x, i <= k < i + Z.of_nat n -> I k x -> exists x', body k x = Ok x' /\ I (k + 1) x') ->
  exists s', for_loop n i body s = Ok s' /\ I (i + Z.of_nat n) s'.
Proof.
  revert i s; induction n as [|n IH]; intros i s H0 Hstep.
  - exists s. split; [reflexivity|]. now replace (i + Z.of_nat 0) with i by lia.
  - destruct (Hstep i s) as (x & E & Hx); [lia|assumption|].
    destruct (IH (i + 1) x) as (s' & E' & H'); [assumption| |].
    + intros k y Hk Hy. apply Hstep; [lia|assumption].
    + exists s'. cbn [for_loop]. rewrite E. cbn [bind]. split; [assumption|].
      now replace (i + Z.of_nat (Datatypes.S n)) with (i + 1 + Z.of_nat n) by lia.
Qed.

Lemma aget_inv {A} (l : list A) i x : aget l i = Ok x ->
  0 <= i < Z.of_nat (length l) /\ nth_error l (Z.to_nat i) = Some x.
Proof.
  unfold aget. destruct (Z.ltb_spec i 0); [discriminate|].
  destruct (nth_error l (Z.to_nat i)) as [y|] eqn:E; [|discriminate].
  intros H1. injection H1 as <-. split; [|reflexivity].
  assert (Z.to_nat i < length l)%nat by (apply nth_error_Some; congruence). lia.
Qed.
Lemma aget_nth_error {A} (l : list A) i x : 0 <= i -> nth_error l (Z.to_nat i) = Some x -> aget l i = Ok x.
Proof. intros H E. unfold aget. destruct (Z.ltb_spec i 0); [lia|]. now rewrite E. Qed.

Lemma aset_spec {A} (l : list A) i x : 0 <= i < Z.of_nat (length l) ->
  exists l', aset l i x = Ok l' /\ length l' = length l /\
    forall j, aget l' j = if j =? i then Ok x else aget l j.
Proof.
  intros H. exists (upd l (Z.to_nat i) x). split; [now apply aset_ok|].
  split; [apply upd_length|]. intros j.
  destruct (Z.eqb_spec j i) as [->|].
  - apply aget_nth_error; [lia|]. apply nth_error_upd_eq. lia.
  - unfold aget. destruct (Z.ltb_spec j 0); [reflexivity|].
    rewrite nth_error_upd_neq by lia. reflexivity.
Qed.
