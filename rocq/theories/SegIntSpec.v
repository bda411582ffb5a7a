(** How large the numbers in a tree can get. *)
From Verif Require Import Base SegModel SegSpec.
Local Open Scope Z_scope.

(** a bound for the absolute values before a call gives one after it *)
Definition grow (W : Z) (c : call) : Z :=
  match c with
  | CQuery _ _ _ => W
  | CUpdate (Add x) _ _ => W + Z.abs x
  | CUpdate (Mul m) _ _ => W * Z.max 1 (Z.abs m)
  end.
Definition bound (W : Z) (cs : list call) : Z := fold_left grow cs W.
(** int and long long *)
Definition int_max : Z := 2 ^ 31 - 1.
Definition ll_max : Z := 2 ^ 63 - 1.
