(** The work done by the operations of a client of one [Trie]. *)
From Verif Require Import Base TrieModel TrieSpec TrieCostModel.
Local Open Scope Z_scope.

(** forget the counters *)
Definition erase {A} (m : counted A) : outcome A := x <- m ;; Ok (fst x).

(** the operations of TrieSpec with their work: accesses of the integer arrays, characters copied *)
Definition stepC (f : ascii -> outcome Z) (t : trie) (o : op) : counted (trie * list bool) :=
  match o with
  | Insert w => t <~ insertC f f t w ;; ret (t, [])
  | Remove w => t <~ removeC f t w ;; ret (t, [])
  | Contain w => b <~ containC f t w ;; ret (t, [b])
  end.
Fixpoint runC (f : ascii -> outcome Z) (t : trie) (ops : list op) : counted (trie * list bool) :=
  match ops with
  | [] => ret (t, [])
  | o :: ops => ta <~ stepC f t o ;; tb <~ runC f (fst ta) ops ;; ret (fst tb, snd ta ++ snd tb)
  end.
Definition clientC f ops : counted (trie * list bool) := t <~ free mkTrie ;; runC f t ops.

(** the longest string kept *)
Definition longest (l : list bytes) : Z := fold_right (fun s n => Z.max (Z.of_nat (length s)) n) 0 l.
