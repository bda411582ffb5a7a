(** The memory a [Trie] holds, and the amounts of text a client hands to it. *)
From Verif Require Import Base TrieModel TrieSpec.
Local Open Scope Z_scope.

(** how many calls of [insert] a client makes, and how many characters they pass *)
Fixpoint inserts (ops : list op) : Z :=
  match ops with [] => 0 | Insert _ :: ops => 1 + inserts ops | _ :: ops => inserts ops end.
Fixpoint letters (ops : list op) : Z :=
  match ops with [] => 0 | Insert w :: ops => Z.of_nat (length w) + letters ops | _ :: ops => letters ops end.

(** characters in the strings the object keeps *)
Definition chars (l : list bytes) : Z := fold_right (fun s n => Z.of_nat (length s) + n) 0 l.

(** insert a word and remove it again, k times *)
Fixpoint cycles (k : nat) (w : bytes) : list op :=
  match k with O => [] | S k => Insert w :: Remove w :: cycles k w end.
