(** The integer templates of src/include/math_utils/math_functions.h at every standard
    integer type: [gcd] and [lcm] with two argument types, [factorial], [permutation],
    [binomial], [genericBinaryPow] and [sum].  (NumModel.v has them for [int] and
    [int64_t] with both arguments of one type.) *)
From Verif Require Import Base.
Local Open Scope Z_scope.

(** Argument types of the templates at math_functions.h:23, 42, 57, 409, 459, 476, 497: the signed and
    unsigned integer types of 8, 16, 32 and 64 bits (two's complement; [long] and
    [long long] are one type here; [bool] and the character types other than
    [signed char] and [unsigned char] are left out) *)
Inductive width := W8 | W16 | W32 | W64.
(** one of these types (template parameters of math_functions.h:23 etc.) *)
Inductive ty := Ty (sg : bool) (w : width).
(** number of bits (math_functions.h:23 etc.) *)
Definition wbits (w : width) : Z := match w with W8 => 8 | W16 => 16 | W32 => 32 | W64 => 64 end.
(** number of bits of a type (math_functions.h:23 etc.) *)
Definition bits (t : ty) : Z := match t with Ty _ w => wbits w end.
(** is the type signed (math_functions.h:23 etc.) *)
Definition sgn (t : ty) : bool := match t with Ty s _ => s end.
(** std::numeric_limits<T>::min() (math_functions.h:23 etc.) *)
Definition tmin (t : ty) : Z := if sgn t then - 2 ^ (bits t - 1) else 0.
(** std::numeric_limits<T>::max() (math_functions.h:23 etc.) *)
Definition tmax (t : ty) : Z := if sgn t then 2 ^ (bits t - 1) - 1 else 2 ^ bits t - 1.
(** representable in the type (math_functions.h:23 etc.) *)
Definition has (t : ty) (z : Z) : bool := (tmin t <=? z) && (z <=? tmax t).

(** [int], [int64_t], and the types used in the examples; math_functions.h:27, 45 *)
Definition i16 := Ty true W16.
(** unsigned short, an argument type of math_functions.h:23 *)
Definition u16 := Ty false W16.
(** int, the type of the literals of math_functions.h *)
Definition i32 := Ty true W32.
(** unsigned, an argument type of math_functions.h:23 *)
Definition u32 := Ty false W32.
(** int64_t, an argument type of math_functions.h:23 *)
Definition i64 := Ty true W64.
(** uint64_t, an argument type of math_functions.h:23 *)
Definition u64 := Ty false W64.

(** conversion to an integer type: modular ([conv.integral]; for signed targets
    implementation-defined, modular on all mainstream compilers); implied at
    math_functions.h:27, 29, 45, 61, 423, 463, 482 *)
Definition conv (t : ty) (z : Z) : Z := (z - tmin t) mod 2 ^ bits t + tmin t.

(** integral promotion ([conv.prom]) of the operands at math_functions.h:27, 29, 45, 61, 423, 463, 482 *)
Definition promote (t : ty) : ty := if bits t <? 32 then i32 else t.
(** usual arithmetic conversions ([expr]/10) of the operands at math_functions.h:27, 29, 45 *)
Definition common (t1 t2 : ty) : ty :=
  let p := promote t1 in
  let q := promote t2 in
  if Bool.eqb (sgn p) (sgn q) then (if bits p <? bits q then q else p)
  else
    let s := if sgn p then p else q in
    let u := if sgn p then q else p in
    if bits s <=? bits u then u else s.
(** equality of types, decided (std::common_type at math_functions.h:25 keeps equal types) *)
Definition ty_eqb (t1 t2 : ty) : bool := Bool.eqb (sgn t1) (sgn t2) && (bits t1 =? bits t2).
(** [std::common_type<IntType1, IntType2>::type], math_functions.h:25 and 44: no promotion
    when both types are the same *)
Definition ret (t1 t2 : ty) : ty := if ty_eqb t1 t2 then t1 else common t1 t2.

(** an arithmetic operation in type [c] (at least [int]) at math_functions.h:29, 45, 61, 423, 463, 482:
    signed overflow is undefined, unsigned arithmetic is modular *)
Definition arith (c : ty) (z : Z) : outcome Z :=
  if sgn c then (if has c z then Ok z else UB) else Ok (z mod 2 ^ bits c).
(** [/] in type [c], math_functions.h:45 *)
Definition adiv (c : ty) (a b : Z) : outcome Z :=
  if b =? 0 then UB else arith c (Z.quot a b).
(** [%] in type [c], math_functions.h:27; undefined also when the quotient is not representable *)
Definition amod (c : ty) (a b : Z) : outcome Z :=
  if b =? 0 then UB else _ <- arith c (Z.quot a b) ;; Ok (Z.rem a b).

(** a compound assignment [x op= y] with [x] of type [t1] and [y] of type [t2]: both
    operands are converted to the common type and the result is converted back;
    math_functions.h:27, 61, 423, 425, 463, 482, 507, 509 *)
Definition opassign (op : ty -> Z -> Z -> outcome Z) (t1 t2 : ty) (x y : Z) : outcome Z :=
  let c := common t1 t2 in
  v <- op c (conv c x) (conv c y) ;; Ok (conv t1 v).
(** [x *= y], math_functions.h:423, 425, 463, 482 *)
Definition mulassign := opassign (fun c a b => arith c (a * b)).
(** [x += y], math_functions.h:61, 80, 107, 131, 507, 509; with a literal also [i++] at 463 *)
Definition addassign := opassign (fun c a b => arith c (a + b)).
(** [x -= y], math_functions.h:418; with a literal also [n--] at 480 and 481 *)
Definition subassign := opassign (fun c a b => arith c (a - b)).
(** [x %= y], math_functions.h:27 *)
Definition modassign := opassign amod.

(** math_functions.h:27: [while ((a %= b) && (b %= a)) {}] with [a] of type [t1] and [b] of type [t2] *)
Fixpoint gcd_loop (fuel : nat) (t1 t2 : ty) (a b : Z) : outcome (Z * Z) :=
  match fuel with
  | O => Fuel
  | S k =>
      a <- modassign t1 t2 a b ;;
      if a =? 0 then Ok (a, b)
      else
        b <- modassign t2 t1 b a ;;
        if b =? 0 then Ok (a, b) else gcd_loop k t1 t2 a b
  end.
(** math_functions.h:23-30, [gcd] *)
Definition gcd (fuel : nat) (t1 t2 : ty) (a b : Z) : outcome Z :=
  '(a, b) <- (if negb (b =? 0) then gcd_loop fuel t1 t2 a b else Ok (a, b)) ;;
  let c := common t1 t2 in
  s <- arith c (conv c a + conv c b) ;; Ok (conv (ret t1 t2) s).
(** math_functions.h:42-46, [lcm]; the result of [gcd] has the type [ret t1 t2], whose common type
    with [common t1 t2] is [common t1 t2] *)
Definition lcm (fuel : nat) (t1 t2 : ty) (a b : Z) : outcome Z :=
  let c := common t1 t2 in
  p <- arith c (conv c a * conv c b) ;;
  g <- gcd fuel t1 t2 a b ;;
  q <- adiv c p (conv c g) ;;
  Ok (conv (ret t1 t2) q).

(** math_functions.h:463: [for (IntType i = 2; i <= n; i++) fac *= i] *)
Fixpoint fact_loop (fuel : nat) (t : ty) (n i fac : Z) : outcome Z :=
  match fuel with
  | O => Fuel
  | S k =>
      if i <=? n then
        fac <- mulassign t t fac i ;;
        i <- addassign t i32 i 1 ;;
        fact_loop k t n i fac
      else Ok fac
  end.
(** math_functions.h:459-465, [factorial] *)
Definition factorial (fuel : nat) (t : ty) (n : Z) : outcome Z :=
  if n <? 0 then Err else fact_loop fuel t n 2 1.

(** math_functions.h:481-483: [for (; r > 1; r--, n--) result *= n]; [k] is [r - 1] *)
Fixpoint perm_loop (k : nat) (t : ty) (n result : Z) : outcome Z :=
  match k with
  | O => Ok result
  | S k =>
      result <- mulassign t t result n ;;
      n <- subassign t i32 n 1 ;;
      perm_loop k t n result
  end.
(** math_functions.h:476-485, [permutation] *)
Definition permutation (t : ty) (n r : Z) : outcome Z :=
  if (n <? 0) || (r <? 0) || (n <? r) then Err
  else
    n' <- subassign t i32 n 1 ;;
    perm_loop (Z.to_nat (r - 1)) t n' n.

(** math_functions.h:505-511: one pass of the inner loop; the counter is an [int] *)
Definition binom_row (t : ty) (r : Z) (c : list Z) : outcome (list Z) :=
  @for_loop (list Z) (Z.to_nat r) 0 (fun j c =>
    _ <- chk32 (j + 1) ;;
    if j =? 0 then
      v <- aget c j ;; v <- addassign t i32 v 1 ;; aset c j v
    else
      v <- aget c j ;; w <- aget c (j - 1) ;; v <- addassign t t v w ;; aset c j v) c.
(** math_functions.h:502-514: the body once [r <= n / 2] (the loop of line 503 is [repeat]; its
    counter overflows only if that of line 505 does) *)
Definition binom_body (t : ty) (n r : Z) : outcome Z :=
  c <- @for_loop (list Z) (Z.to_nat (n - r)) 0
         (fun i c => _ <- chk32 (i + 1) ;; binom_row t r c) (repeat 1 (Z.to_nat r)) ;;
  aget c (r - 1).
(** math_functions.h:498-515, [binomial], for types of at least 32 bits (for narrower ones
    [n - r] at line 501 is an [int] and the recursive call does not compile) *)
Definition binomial (t : ty) (n r : Z) : outcome Z :=
  if (n <? 0) || (r <? 0) || (n <? r) then Err
  else if r =? 0 then Ok 1
  else if Z.quot n 2 <? r then
    (let r := n - r in
     if (n <? 0) || (r <? 0) || (n <? r) then Err
     else if r =? 0 then Ok 1
     else if Z.quot n 2 <? r then Fuel
     else binom_body t n r)
  else binom_body t n r.

(** math_functions.h:421-427: the loop; the exponent is of any integer type, its operations do
    not overflow *)
Fixpoint gpow_loop (fuel : nat) (t : ty) (base exp result : Z) : outcome Z :=
  match fuel with
  | O => Fuel
  | S k =>
      if exp =? 0 then Ok result
      else
        result <- (if Z.rem exp 2 =? 1 then mulassign t t result base else Ok result) ;;
        base <- mulassign t t base base ;;
        gpow_loop k t base (Z.quot exp 2) result
  end.
(** math_functions.h:409-429, [genericBinaryPow] on an integer base; 65 rounds (shown sufficient) *)
Definition genericBinaryPow (t : ty) (base exp : Z) : outcome Z :=
  if exp =? 0 then Ok 1
  else if exp =? 1 then Ok base
  else if exp <? 0 then Err
  else gpow_loop 65 t base (exp - 1) base.

(** math_functions.h:103-110 and 126-134: [sum] with a mapping function that returns the type
    [t] (or ends the program, or is undefined); arrays and containers are lists, the first [size]
    elements being those of the list *)
Fixpoint sum_map_loop {A} (t : ty) (fn : A -> outcome Z) (l : list A) (s : Z) : outcome Z :=
  match l with
  | [] => Ok s
  | x :: l =>
      v <- fn x ;;
      s <- addassign t t s v ;;
      sum_map_loop t fn l s
  end.
(** [sum(arr, size, fn)] and [sum(container, fn)], math_functions.h:103-110, 126-134 *)
Definition sum_map {A} (t : ty) (fn : A -> outcome Z) (l : list A) : outcome Z :=
  sum_map_loop t fn l 0.
(** math_functions.h:57-64 and 77-83: [sum] *)
Fixpoint sum_loop (t : ty) (l : list Z) (s : Z) : outcome Z :=
  match l with
  | [] => Ok s
  | x :: l => s <- addassign t t s x ;; sum_loop t l s
  end.
(** [sum(arr, size)] and [sum(container)], math_functions.h:57-64, 77-83 *)
Definition sum (t : ty) (l : list Z) : outcome Z := sum_loop t l 0.
