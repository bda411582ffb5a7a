(** Number of binary digits, and its sum over the depths of a tree. *)
From Verif Require Import Base TreeSpec.
Local Open Scope nat_scope.

(** binary digits of d; none for 0 *)
Definition digits (d : nat) : nat := if d =? 0 then 0 else S (Nat.log2 d).
(** t is the sum of [digits] over the depths of the nodes x, ..., x+n-1 *)
Inductive digit_sum (ps : list nat) : nat -> nat -> nat -> Prop :=
| ds_nil x : digit_sum ps x 0 0
| ds_cons x n d t : depth ps x d -> digit_sum ps (S x) n t -> digit_sum ps x (S n) (digits d + t).
