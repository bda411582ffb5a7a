(** What a BigNum variable stands for: stated only on the fields. *)
From Verif Require Import Base DecModel BigModel.
Local Open Scope Z_scope.

(** value of digits, least significant first *)
Fixpoint dval (ds : list Z) : Z :=
  match ds with [] => 0 | d :: t => d + 10 * dval t end.
Definition digit (d : Z) : Prop := 0 <= d <= 9.

(** [b] has capacity [cap] and its first [len] cells are the decimal digits of
    [m >= 0] without a leading zero; nothing is said about the sign *)
Definition magnitude (cap : nat) (b : big) (m : Z) : Prop :=
  exists ds tail,
    el b = map Some ds ++ tail /\ length (el b) = cap /\
    len b = Z.of_nat (length ds) /\ Forall digit ds /\
    (ds <> [] -> last ds 0 <> 0) /\ m = dval ds.
(** ... and its sign is that of [z] (+ for zero) *)
Definition denotes (cap : nat) (b : big) (z : Z) : Prop :=
  magnitude cap b (Z.abs z) /\ sgn b = (if z <? 0 then -1 else 1).
(** all cells above [len] hold 0 *)
Definition clean (b : big) : Prop :=
  forall i, len b <= i < Z.of_nat (length (el b)) -> aget (el b) i = Ok (Some 0).
(** the cells of [b] above its digits start with the (left-over) digits [st] *)
Definition leftover (b : big) (st : list Z) : Prop :=
  Forall digit st /\
  forall k, (k < length st)%nat -> aget (el b) (len b + Z.of_nat k) = Ok (Some (nth k st 0)).

(** Expressions over the public value operators, and their integer values. *)
Inductive bexpr :=
| BInt (n : Z) | BStr (s : bytes)
| BAdd (a b : bexpr) | BSub (a b : bexpr) | BMul (a b : bexpr).
Fixpoint zeval (e : bexpr) : Z :=
  match e with
  | BInt n => n
  | BStr s => dec_value s
  | BAdd a b => zeval a + zeval b
  | BSub a b => zeval a - zeval b
  | BMul a b => zeval a * zeval b
  end.
Fixpoint beval (cap : nat) (e : bexpr) : outcome big :=
  match e with
  | BInt n => of_int64 cap n
  | BStr s => of_string cap s
  | BAdd a b => x <- beval cap a ;; y <- beval cap b ;; plus 2 cap x y
  | BSub a b => x <- beval cap a ;; y <- beval cap b ;; minus 2 cap x y
  | BMul a b => x <- beval cap a ;; y <- beval cap b ;; times cap x y
  end.
(** every literal is valid and the value of every subexpression is in
    [0, 10^(cap-1)) *)
Fixpoint natural (cap : nat) (e : bexpr) : Prop :=
  0 <= zeval e < 10 ^ (Z.of_nat cap - 1) /\
  match e with
  | BInt n => in_int64 n = true
  | BStr s => forallb is_digit s = true /\ s <> [] /\ hd_error s <> Some "0"%char
  | BAdd a b | BSub a b | BMul a b => natural cap a /\ natural cap b
  end.
