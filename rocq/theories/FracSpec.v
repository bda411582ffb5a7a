(** Specification vocabulary for Fraction. *)
From Coq Require Import QArith.
From Verif Require Import Base FracModel.
Local Open Scope Z_scope.

(** Lowest terms with positive denominator, members representable. *)
Definition canonical (f : frac) : Prop :=
  0 < den f /\ Z.gcd (num f) (den f) = 1 /\ in_int32 (num f) = true /\ in_int32 (den f) = true.

(** The rational number denoted. *)
Definition fval (f : frac) : Q := (inject_Z (num f) / inject_Z (den f))%Q.

(** Expressions: every way of obtaining a Fraction from the public interface. *)
Inductive fexpr :=
| EDefault | EInt (n : Z) | EPair (n d : Z)
| EAdd (a b : fexpr) | ESub (a b : fexpr) | EMul (a b : fexpr) | EDiv (a b : fexpr)
| EDivAssign (a b : fexpr)
| EIntAdd (n : Z) (a : fexpr) | EIntSub (n : Z) (a : fexpr)
| EIntMul (n : Z) (a : fexpr) | EIntDiv (n : Z) (a : fexpr).

(** Evaluation by the library's operations; [int] literals are representable. *)
Fixpoint feval (e : fexpr) : outcome frac :=
  match e with
  | EDefault => fdefault
  | EInt n => n <- chk32 n ;; of_int n
  | EPair n d => n <- chk32 n ;; d <- chk32 d ;; mk n d
  | EAdd a b => x <- feval a ;; y <- feval b ;; add x y
  | ESub a b => x <- feval a ;; y <- feval b ;; sub x y
  | EMul a b => x <- feval a ;; y <- feval b ;; mul x y
  | EDiv a b => x <- feval a ;; y <- feval b ;; div x y
  | EDivAssign a b => x <- feval a ;; y <- feval b ;; div_assign x y
  | EIntAdd n a => n <- chk32 n ;; x <- feval a ;; int_add n x
  | EIntSub n a => n <- chk32 n ;; x <- feval a ;; int_sub n x
  | EIntMul n a => n <- chk32 n ;; x <- feval a ;; int_mul n x
  | EIntDiv n a => n <- chk32 n ;; x <- feval a ;; int_div n x
  end.

(** The rational value the expression should have, for expressions that avoid the
    three deviating operators (C24); [None] when a division by zero occurs. *)
Fixpoint qeval (e : fexpr) : option Q :=
  let bin op a b :=
    match qeval a, qeval b with Some x, Some y => op x y | _, _ => None end in
  let qdiv x y := if Qeq_bool y 0 then None else Some (x / y)%Q in
  match e with
  | EDefault => Some 0%Q
  | EInt n => Some (inject_Z n)
  | EPair n d => qdiv (inject_Z n) (inject_Z d)
  | EAdd a b => bin (fun x y => Some (x + y)%Q) a b
  | ESub a b => bin (fun x y => Some (x - y)%Q) a b
  | EMul a b => bin (fun x y => Some (x * y)%Q) a b
  | EDiv a b | EDivAssign a b => bin qdiv a b
  | EIntAdd n a => option_map (fun x => inject_Z n + x)%Q (qeval a)
  | EIntSub n a => option_map (fun x => inject_Z n - x)%Q (qeval a)
  | EIntMul n a => option_map (fun x => inject_Z n * x)%Q (qeval a)
  | EIntDiv n a => match qeval a with Some x => qdiv (inject_Z n) x | None => None end
  end.

(** Expressions without the deviating operators. *)
Fixpoint regular (e : fexpr) : Prop :=
  match e with
  | EDefault | EInt _ | EPair _ _ => True
  | EAdd a b | ESub a b | EMul a b | EDiv a b => regular a /\ regular b
  | EIntAdd _ a | EIntMul _ a => regular a
  | EDivAssign _ _ | EIntSub _ _ | EIntDiv _ _ => False
  end.

(** No intermediate result leaves the symmetric int range. *)
Definition fits (z : Z) : Prop := int32_min < z <= int32_max.
