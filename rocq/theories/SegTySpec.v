(** Notions used in the statements about SegmentTree at every integer type. *)
From Verif Require Import Base SegModel SegSpec IntTyModel IntTySpec.
Local Open Scope Z_scope.

(** the arguments of a call are values of the type *)
Definition call_inty (t : ty) (c : call) : Prop :=
  match c with
  | CQuery _ _ _ => True
  | CUpdate (Add x) _ _ => inty t x
  | CUpdate (Mul m) _ _ => inty t m
  end.
(** types and sizes for which no arithmetic of a tree is ever undefined: unsigned types that are not promoted to
    int, and the types of which n values, added or multiplied, fit an int *)
Definition calm (t : ty) (n : Z) : Prop :=
  match t with
  | Ty false W32 | Ty false W64 => True
  | Ty false W8 => 255 * (n + 1) <= 2 ^ 31 - 1
  | Ty true W8 => 128 * (n + 1) <= 2 ^ 31
  | Ty true W16 => 32768 * (n + 1) <= 2 ^ 31
  | _ => False
  end.
