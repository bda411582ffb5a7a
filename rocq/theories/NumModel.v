(** Model of src/include/math_utils/math_functions.h (integer functions and
    statistics), src/math_utils/binary_pow.cpp and src/math_utils/statistics.cpp. *)
From Coq Require Import QArith.
From Verif Require Import Base.
Local Open Scope Z_scope.

(** Instantiations of the templates: [int] and [int64_t] (arguments of one common
    type; unsigned and sub-int types are not modelled); math_functions.h:23-46, 497-515 *)
Inductive ity := I32 | I64.
(** std::numeric_limits of the argument type of math_functions.h:23-45 *)
Definition imin (t : ity) : Z := match t with I32 => int32_min | I64 => int64_min end.
(** std::numeric_limits of the argument type of math_functions.h:23-45 *)
Definition imax (t : ity) : Z := match t with I32 => int32_max | I64 => int64_max end.
(** representable in the argument type of math_functions.h:23-45 *)
Definition inr (t : ity) (z : Z) : bool := (imin t <=? z) && (z <=? imax t).
(** a signed operation of math_functions.h:23-45 and 497-515; overflow is undefined *)
Definition chk (t : ity) (z : Z) : outcome Z := if inr t z then Ok z else UB.

(** C++ [/] and [%] on signed integers: truncated; UB for a zero divisor and when
    the quotient is not representable (C++11 [expr.mul]); used at math_functions.h:45, 501 *)
Definition idiv (t : ity) (a b : Z) : outcome Z :=
  if b =? 0 then UB else chk t (Z.quot a b).
(** used at math_functions.h:27 *)
Definition imod (t : ity) (a b : Z) : outcome Z :=
  if b =? 0 then UB else if inr t (Z.quot a b) then Ok (Z.rem a b) else UB.

(** math_functions.h:27: [while ((a %= b) && (b %= a)) {}]; returns the final (a, b). *)
Fixpoint gcd_loop (fuel : nat) (t : ity) (a b : Z) : outcome (Z * Z) :=
  match fuel with
  | O => Fuel
  | S k =>
      a <- imod t a b ;;
      if a =? 0 then Ok (a, b)
      else
        b <- imod t b a ;;
        if b =? 0 then Ok (a, b) else gcd_loop k t a b
  end.

(** math_functions.h:23-30, [gcd].  65 rounds of fuel (shown sufficient). *)
Definition gcd (t : ity) (a b : Z) : outcome Z :=
  '(a, b) <- (if negb (b =? 0) then gcd_loop 65 t a b else Ok (a, b)) ;;
  chk t (a + b).

(** math_functions.h:42-46, [lcm]. *)
Definition lcm (t : ity) (a b : Z) : outcome Z :=
  p <- chk t (a * b) ;;
  g <- gcd t a b ;;
  idiv t p g.

(** binary_pow.cpp:11-17, the loop of [binaryPow]; [exp & 1] and [exp >>= 1] on a
    non-negative int. *)
Fixpoint bpow_loop (fuel : nat) (base exp result : Z) : outcome Z :=
  match fuel with
  | O => Fuel
  | S k =>
      if exp =? 0 then Ok result
      else
        result <- (if Z.odd exp then chk64 (result * base) else Ok result) ;;
        base <- chk64 (base * base) ;;
        bpow_loop k base (Z.shiftr exp 1) result
  end.

(** binary_pow.cpp:4-19, [binaryPow].  [base << (exp - 1)]: UB when the shift count
    is at least 64 or the value is not representable (C++11 [expr.shift]). *)
Definition binaryPow (base exp : Z) : outcome Z :=
  if exp =? 0 then Ok 1
  else if exp <? 0 then Err
  else if base =? 1 then Ok 1
  else if base =? 2 then (if 64 <=? exp - 1 then UB else chk64 (Z.shiftl base (exp - 1)))
  else bpow_loop 33 base exp 1.

Section Generic.
Context {A : Type} (mul : A -> A -> A).
(** math_functions.h:421-427 and 442-448: the loop; [mul] models [*=] (assumed to be a
    total function of the two values). *)
Fixpoint gpow_loop (fuel : nat) (base : A) (exp : Z) (result : A) : outcome A :=
  match fuel with
  | O => Fuel
  | S k =>
      if exp =? 0 then Ok result
      else
        let result := if Z.rem exp 2 =? 1 then mul result base else result in
        gpow_loop k (mul base base) (Z.quot exp 2) result
  end.

(** math_functions.h:409-429: types constructible from int; [one] is [BaseType{1}]. *)
Definition genericBinaryPow1 (one base : A) (exp : Z) : outcome A :=
  if exp =? 0 then Ok one
  else if exp =? 1 then Ok base
  else if exp <? 0 then Err
  else gpow_loop 65 base (exp - 1) base.

(** math_functions.h:432-450: other types. *)
Definition genericBinaryPow (base : A) (exp : Z) : outcome A :=
  if exp =? 1 then Ok base
  else if exp <=? 0 then Err
  else gpow_loop 65 base (exp - 1) base.
End Generic.

(** math_functions.h:459-465, [factorial]: [for (i = 2; i <= n; i++) fac *= i]
    ([n - 1] iterations; [i++] is range-checked). *)
Definition factorial (t : ity) (n : Z) : outcome Z :=
  if n <? 0 then Err
  else for_loop (Z.to_nat (n - 1)) 2 (fun i fac => fac <- chk t (fac * i) ;; _ <- chk t (i + 1) ;; Ok fac) 1.

(** math_functions.h:481-483: [for (; r > 1; r--, n--) result *= n]. *)
Fixpoint perm_loop (k : nat) (t : ity) (n result : Z) : outcome Z :=
  match k with
  | O => Ok result
  | S k => result <- chk t (result * n) ;; n <- chk t (n - 1) ;; perm_loop k t n result
  end.
(** math_functions.h:476-485, [permutation]; [r - 1] iterations when [r > 1]. *)
Definition permutation (t : ity) (n r : Z) : outcome Z :=
  if (n <? 0) || (r <? 0) || (n <? r) then Err
  else perm_loop (Z.to_nat (r - 1)) t (n - 1) n.

(** math_functions.h:505-511: one pass of the inner loop. *)
Definition binom_row (t : ity) (r : Z) (c : list Z) : outcome (list Z) :=
  @for_loop (list Z) (Z.to_nat r) 0 (fun j c =>
    _ <- chk32 (j + 1) ;;
    if j =? 0 then
      v <- aget c j ;; v <- chk t (v + 1) ;; aset c j v
    else
      v <- aget c j ;; w <- aget c (j - 1) ;; v <- chk t (v + w) ;; aset c j v) c.

(** math_functions.h:502-514: the body once [r <= n / 2]; the counters are [int]
    whatever [IntType] is, and their increments are range-checked. *)
Definition binom_body (t : ity) (n r : Z) : outcome Z :=
  c <- @for_loop (list Z) (Z.to_nat (n - r)) 0
         (fun i c => _ <- chk32 (i + 1) ;; binom_row t r c) (repeat 1 (Z.to_nat r)) ;;
  aget c (r - 1).

(** math_functions.h:498-515, [binomial]; the recursive call at line 501 happens at
    most once, so fuel 2 is enough (shown). *)
Fixpoint binomial_fuel (fuel : nat) (t : ity) (n r : Z) : outcome Z :=
  match fuel with
  | O => Fuel
  | S k =>
      if (n <? 0) || (r <? 0) || (n <? r) then Err
      else if r =? 0 then Ok 1
      else if Z.quot n 2 <? r then binomial_fuel k t n (n - r)
      else binom_body t n r
  end.
(** [binomial], math_functions.h:497-515 *)
Definition binomial (t : ity) (n r : Z) : outcome Z := binomial_fuel 2 t n r.

(** Statistics: [double] arithmetic is modelled by exact rationals (no rounding,
    no NaN); [int] arithmetic is range-checked.  [arr, size] is a list. *)

(** math_functions.h:57-64, [sum(const int* , int)]. *)
Fixpoint sum_int_loop (l : list Z) (s : Z) : outcome Z :=
  match l with [] => Ok s | x :: l => s <- chk32 (s + x) ;; sum_int_loop l s end.
(** [sum] of an int array, math_functions.h:57-64 *)
Definition sum_int (l : list Z) : outcome Z := sum_int_loop l 0.
(** math_functions.h:57-64 for [double]. *)
Definition sum_dbl (l : list Q) : Q := fold_left Qplus l 0%Q.

(** math_functions.h:143-146, [mean]. *)
Definition size {A} (l : list A) : Q := inject_Z (Z.of_nat (length l)).
(** [mean] of an int array, math_functions.h:143-146, the quotient exact *)
Definition mean_int (l : list Z) : outcome Q :=
  s <- sum_int l ;; Ok (inject_Z s / size l)%Q.
(** [mean] of a double array, math_functions.h:143-146, in exact arithmetic *)
Definition mean_dbl (l : list Q) : Q := (sum_dbl l / size l)%Q.

(** statistics.cpp:9-12 and 35-38 / 44-47: the loop adding squared differences. *)
Definition sum_square (means : Q) (l : list Q) : Q :=
  fold_left (fun acc x => acc + (x - means) * (x - means))%Q l 0%Q.

(** statistics.cpp:6-14, [variance(const double* , int)]. *)
Definition variance_dbl (l : list Q) : Q := (sum_square (mean_dbl l) l / size l)%Q.

(** statistics.cpp:16-23, [variance(const int* , int)]. *)
Fixpoint sum_sq_loop (l : list Z) (acc : Q) : outcome Q :=
  match l with
  | [] => Ok acc
  | x :: l => p <- chk32 (x * x) ;; sum_sq_loop l (acc + inject_Z p)%Q
  end.
(** statistics.cpp:16-23, [variance] of an int array, in exact arithmetic *)
Definition variance_int (l : list Z) : outcome Q :=
  ss <- sum_sq_loop l 0%Q ;;
  m <- mean_int l ;;
  Ok (ss / size l - m * m)%Q.

(** statistics.cpp:32-40, [sample_variance(const double* , int)]. *)
Definition sample_variance_dbl (l : list Q) : Q :=
  (sum_square (mean_dbl l) l / (size l - 1))%Q.
(** statistics.cpp:41-49, [sample_variance(const int* , int)]. *)
Definition sample_variance_int (l : list Z) : outcome Q :=
  m <- mean_int l ;;
  Ok (sum_square m (map inject_Z l) / (size l - 1))%Q.
