(** Vocabulary for the cost of BST calls. *)
From Verif Require Import Base BstModel.
Local Open Scope nat_scope.

(** insert the keys 0, 1, ..., n-1 in this order *)
Fixpoint ascending (n : nat) : list op :=
  match n with O => [] | S m => ascending m ++ [Ins (Z.of_nat m) 0] end.
