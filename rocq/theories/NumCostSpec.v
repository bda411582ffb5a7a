(** Fibonacci numbers and the number of one bits. *)
From Verif Require Import Base.
Local Open Scope Z_scope.

(** the n-th and the next Fibonacci number, counted from 0, 1, 1, 2, 3, 5 *)
Fixpoint fibs (n : nat) : Z * Z := match n with O => (0, 1) | S n => let (a, b) := fibs n in (b, a + b) end.
Definition fib (n : nat) : Z := fst (fibs n).
(** number of one bits *)
Fixpoint pones (p : positive) : Z := match p with xH => 1 | xO p => pones p | xI p => 1 + pones p end.
Definition ones (z : Z) : Z := match z with Zpos p => pones p | _ => 0 end.
(** multiplications of repeated squaring: one per bit and one more per one bit *)
Definition products (e : Z) : Z := if e <=? 0 then 0 else Z.log2 e + 1 + ones e.
