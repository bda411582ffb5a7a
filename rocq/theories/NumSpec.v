(** Mathematical notions used in the statements about the integer functions;
    independent of the model. *)
From Coq Require Import QArith.
From Verif Require Import Base.
Local Open Scope Z_scope.

(** [g] is a greatest common divisor of [a] and [b] (up to sign). *)
Definition is_gcd (g a b : Z) : Prop :=
  (g | a) /\ (g | b) /\ forall d, (d | a) -> (d | b) -> (d | g).

(** [m] is the least common multiple of two non-negative numbers. *)
Definition is_lcm (m a b : Z) : Prop :=
  0 <= m /\ (a | m) /\ (b | m) /\ forall k, (a | k) -> (b | k) -> (m | k).

(** n! *)
Fixpoint zfact (n : nat) : Z :=
  match n with O => 1 | S k => Z.of_nat n * zfact k end.

(** The [n]-fold product x*(x*(...)), n >= 1. *)
Fixpoint nfold {A} (mul : A -> A -> A) (x : A) (n : nat) : A :=
  match n with
  | O => x
  | S O => x
  | S k => mul x (nfold mul x k)
  end.

(** Rational sum and mean of a list, and the mean squared deviation. *)
Fixpoint qsum (l : list Q) : Q := match l with [] => 0 | x :: l => x + qsum l end%Q.
Definition qlen (l : list Q) : Q := inject_Z (Z.of_nat (length l)).
Definition qmean (l : list Q) : Q := (qsum l / qlen l)%Q.
Definition sum_sq_dev (l : list Q) : Q := qsum (map (fun x => (x - qmean l) * (x - qmean l)) l)%Q.

(** The exact domain of [binaryPow] for [exp >= 0]: the final (superfluous)
    squaring computes [base ^ (2 ^ (number of bits of exp))]. *)
Definition pow_safe (base exp : Z) : Prop :=
  exp = 0 \/ base = 1 \/ (base = 2 /\ exp <= 62)
  \/ (base <> 2 /\ base ^ (2 ^ (Z.log2 exp + 1)) <= int64_max).

(** Sum of an int array; no [int] overflow: every square and every prefix sum fits. *)
Definition zsum (l : list Z) : Z := fold_right Z.add 0%Z l.
Definition no_int_overflow (l : list Z) : Prop :=
  (forall x, In x l -> in_int32 (x * x) = true) /\
  (forall p q, l = p ++ q -> in_int32 (zsum p) = true).

