(** The bound on the nodes one call may visit. *)
From Verif Require Import Base.
Local Open Scope Z_scope.

(** for n elements: with d the least number such that n <= 2^d, at most d+1
    nodes when d <= 1 and at most 4d-3 beyond *)
Definition node_bound (n : Z) : Z := Z.max (Z.log2_up n + 1) (4 * Z.log2_up n - 3).
