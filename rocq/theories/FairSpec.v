(** Counting engine outputs: the chance of an event when the 2^64 outputs of the engine are
    equally likely is the number of outputs that cause it divided by 2^64. *)
From Coq Require Import Permutation.
From Verif Require Import Base RandSpec.
Local Open Scope Z_scope.

(** exactly [n] of the 2^64 outputs cause the event *)
Definition causes (event : Z -> Prop) (n : Z) : Prop :=
  exists l, NoDup l /\ (forall x, In x l <-> output x /\ event x) /\ Z.of_nat (length l) = n.

Lemma causes_unique event m n : causes event m -> causes event n -> m = n.
Proof.
  intros (l & D & I & <-) (k & D' & I' & <-). f_equal. apply Permutation_length. apply NoDup_Permutation; try assumption.
  intros x. now rewrite I, I'.
Qed.
