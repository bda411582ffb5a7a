(** Levenshtein distance by edit scripts. *)
From Verif Require Import Base.

(** One single-character edit. *)
Inductive edit1 : bytes -> bytes -> Prop :=
| e_insert u v c : edit1 (u ++ v) (u ++ c :: v)
| e_delete u v c : edit1 (u ++ c :: v) (u ++ v)
| e_replace u v c c' : edit1 (u ++ c :: v) (u ++ c' :: v).

(** [edits n a b]: [b] is reached from [a] by exactly [n] single edits. *)
Inductive edits : nat -> bytes -> bytes -> Prop :=
| es_nil a : edits 0 a a
| es_step n a b c : edit1 a b -> edits n b c -> edits (S n) a c.

(** [n] is the least number of edits from [a] to [b]. *)
Definition least_edits (a b : bytes) (n : nat) : Prop :=
  edits n a b /\ forall k, edits k a b -> n <= k.
