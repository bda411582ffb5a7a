(** Model of src/include/math_utils/Fraction.h.  [int] is 32 bit; every [int]
    operation is range-checked. *)
From Verif Require Import Base NumModel.
Local Open Scope Z_scope.

(** Fraction.h:128, the two members. *)
Record frac := Frac { num : Z; den : Z }.

(** [abs(int)] used at Fraction.h:29: UB for INT_MIN. *)
Definition iabs (z : Z) : outcome Z := chk32 (Z.abs z).

(** Fraction.h:19-30, [Fraction(int, int)]. *)
Definition mk (n d : Z) : outcome frac :=
  if d =? 0 then Err
  else
    g <- gcd I32 n d ;;
    n <- idiv I32 n g ;;
    d <- idiv I32 d g ;;
    n <- (if d <? 0 then chk32 (n * -1) else Ok n) ;;
    d <- iabs d ;;
    Ok (Frac n d).

(** Fraction.h:16-17, [Fraction(int)] (implicit conversion). *)
Definition of_int (n : Z) : outcome frac := mk n 1.
(** Fraction.h:14, [Fraction()]. *)
Definition fdefault : outcome frac := of_int 0.

(** Fraction.h:35-39, [operator+]; 45-50, [operator+=] computes the same temporary. *)
Definition add (a b : frac) : outcome frac :=
  x <- chk32 (num a * den b) ;; y <- chk32 (den a * num b) ;;
  n <- chk32 (x + y) ;; d <- chk32 (den a * den b) ;; mk n d.
(** Fraction.h:52-56 and 62-67, [operator-], [operator-=]. *)
Definition sub (a b : frac) : outcome frac :=
  x <- chk32 (num a * den b) ;; y <- chk32 (den a * num b) ;;
  n <- chk32 (x - y) ;; d <- chk32 (den a * den b) ;; mk n d.
(** Fraction.h:69-72 and 78-82, [operator*], [operator*=]. *)
Definition mul (a b : frac) : outcome frac :=
  n <- chk32 (num a * num b) ;; d <- chk32 (den a * den b) ;; mk n d.
(** Fraction.h:84-87, [operator/]. *)
Definition div (a b : frac) : outcome frac :=
  n <- chk32 (num a * den b) ;; d <- chk32 (den a * num b) ;; mk n d.
(** Fraction.h:93-97, [operator/=]. *)
Definition div_assign (a b : frac) : outcome frac :=
  n <- idiv I32 (num a) (num b) ;; d <- idiv I32 (den a) (den b) ;; mk n d.

(** Fraction.h:41-43, 58-60, 74-76, 89-91: [int op Fraction]; the [int] operand of
    the inner expression converts implicitly. *)
Definition int_add (v : Z) (f : frac) : outcome frac := g <- of_int v ;; add f g.
(** int - Fraction, Fraction.h:58-60 *)
Definition int_sub (v : Z) (f : frac) : outcome frac := g <- of_int v ;; sub f g.
(** int * Fraction, Fraction.h:74-76 *)
Definition int_mul (v : Z) (f : frac) : outcome frac := g <- of_int v ;; mul f g.
(** int / Fraction, Fraction.h:89-91 *)
Definition int_div (v : Z) (f : frac) : outcome frac := g <- of_int v ;; div f g.

(** Fraction.h:99-105, [operator==], [operator!=]. *)
Definition eqF (a b : frac) : bool := (num a =? num b) && (den a =? den b).
(** operator!=, Fraction.h:103-105 *)
Definition neF (a b : frac) : bool := negb (num a =? num b) || negb (den a =? den b).
(** Fraction.h:107-121, the order comparisons. *)
Definition cmp (op : Z -> Z -> bool) (a b : frac) : outcome bool :=
  x <- chk32 (num a * den b) ;; y <- chk32 (den a * num b) ;; Ok (op x y).
(** operator<, Fraction.h:107-109 *)
Definition ltF := cmp Z.ltb.
(** operator<=, Fraction.h:111-113 *)
Definition leF := cmp Z.leb.
(** operator>, Fraction.h:115-117 *)
Definition gtF := cmp Z.gtb.
(** operator>=, Fraction.h:119-121 *)
Definition geF := cmp Z.geb.
