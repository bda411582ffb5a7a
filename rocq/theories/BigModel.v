(** Model of src/include/math_utils/BigNum.h ([BigNum<MAX_SIZE>], base 10,
    order 1).  [cap] is the template argument MAX_SIZE.

    Conventions.
    - [elem] is a list of [cap] cells; [None] is an indeterminate (never
      written) cell, reading one is UB.
    - Accesses outside [elem] are UB, as is [int] overflow in digit sums.
    - Functions that build [ret] and return it construct the result in place
      (the usual copy elision); an explicit copy [BigNum x = y] or an
      assignment [x = y] is modelled by [copy] / [assign].
    - A C++ exception ([std::stoi] on a non-digit) is modelled by [Err].
    - [x = x] (memcpy onto itself) is not distinguished from a plain copy. *)
From Verif Require Import Base DecModel.
Local Open Scope Z_scope.

(** data members, BigNum.h:315-317 *)
Record big := Big { el : list (option Z); len : Z; sgn : Z }.

(** reading and writing one cell: [elem[i]], BigNum.h:60-62 *)
Definition rd (l : list (option Z)) (i : Z) : outcome Z :=
  o <- aget l i ;; match o with Some v => Ok v | None => UB end.
(** [elem[i] = v], BigNum.h:60-62; the cell must exist *)
Definition wr (l : list (option Z)) (i v : Z) : outcome (list (option Z)) :=
  x <- chk32 v ;; aset l i (Some x).

(** memset to zero, BigNum.h:18 *)
Definition zeros (cap : nat) : list (option Z) := repeat (Some 0) cap.

(** BigNum(), BigNum.h:17-21 *)
Definition mk0 (cap : nat) : big := Big (zeros cap) 0 1.

(** loop of BigNum(int64_t), BigNum.h:27-28; fuel 20 exceeds the number of
    decimal digits of every int64 *)
Fixpoint int_loop (fuel : nat) (l : list (option Z)) (n i : Z) : outcome (list (option Z) * Z) :=
  if i =? 0 then Ok (l, n)
  else match fuel with
       | O => Fuel
       | S f => l' <- wr l n (Z.rem i 10) ;; int_loop f l' (n + 1) (Z.quot i 10)
       end.
(** BigNum(int64_t), BigNum.h:23-29; std::abs of the minimum is UB *)
Definition of_int64 (cap : nat) (x : Z) : outcome big :=
  a <- chk64 (Z.abs x) ;;
  ' (l, n) <- int_loop 20 (zeros cap) 0 a ;;
  Ok (Big l n (if x <? 0 then -1 else 1)).

(** BigNum(const std::string&), BigNum.h:31-41, with order = 1: the loop takes
    single characters from the back; [% order] is 0, so lines 38-40 do nothing.
    [std::stoi] of a one-character string returns the digit or throws.
    [i] is taken as an unbounded integer (strings shorter than 2^31). *)
Definition stoi1 (c : ascii) : outcome Z :=
  if is_digit c then Ok (byteZ c - 48) else Err.
(** [s[0] == '-'] of BigNum(std::string), BigNum.h:31-41 *)
Definition is_minus (s : bytes) : bool :=
  match s with c :: _ => Ascii.eqb c "-"%char | [] => false end.
(** BigNum(std::string), BigNum.h:31-41 *)
Definition of_string (cap : nat) (s : bytes) : outcome big :=
  let size := Z.of_nat (length s) in
  let neg := is_minus s in
  let count := size - (if neg then 1 else 0) in
  l <- for_loop (Z.to_nat count) 0
         (fun k l => c <- aget s (size - 1 - k) ;; d <- stoi1 c ;; wr l k d) (zeros cap) ;;
  Ok (Big l count (if neg then -1 else 1)).

(** BigNum(const BigNum&), BigNum.h:43-47: only [len] cells are copied, the
    others stay indeterminate *)
Definition copy (cap : nat) (src : big) : outcome big :=
  if (len src <? 0) || (Z.of_nat (length (el src)) <? len src) || (Z.of_nat cap <? len src) then UB
  else Ok (Big (firstn (Z.to_nat (len src)) (el src) ++ repeat None (cap - Z.to_nat (len src)))
               (len src) (sgn src)).
(** operator=, BigNum.h:52-57: only [len] cells are overwritten *)
Definition assign (dst src : big) : outcome big :=
  if (len src <? 0) || (Z.of_nat (length (el src)) <? len src)
     || (Z.of_nat (length (el dst)) <? len src) then UB
  else Ok (Big (firstn (Z.to_nat (len src)) (el src) ++ skipn (Z.to_nat (len src)) (el dst))
               (len src) (sgn src)).

(** cmp, BigNum.h:239-245: the digit loop from [i = a.len - 1] down *)
Fixpoint cmp_loop (n : nat) (s : Z) (a b : list (option Z)) : outcome Z :=
  match n with
  | O => Ok 0
  | S k => x <- rd a (Z.of_nat k) ;; y <- rd b (Z.of_nat k) ;;
           if x =? y then cmp_loop k s a b
           else Ok (if x >? y then s else - s)
  end.
(** cmp, BigNum.h:239-245 *)
Definition cmp (isAbs : bool) (a b : big) : outcome Z :=
  if negb isAbs && negb (sgn a =? sgn b) then Ok (if sgn a >? sgn b then 1 else -1)
  else if negb (len a =? len b) then Ok (if len a >? len b then sgn a else - sgn a)
  else cmp_loop (Z.to_nat (len a)) (sgn a) (el a) (el b).

(** comparison operators, BigNum.h:71-81 *)
Definition lt (a b : big) := omap (fun c => c <? 0) (cmp false a b).
(** operator<=, BigNum.h:73 *)
Definition le (a b : big) := omap (fun c => c <=? 0) (cmp false a b).
(** operator>, BigNum.h:75 *)
Definition gt (a b : big) := omap (fun c => c >? 0) (cmp false a b).
(** operator>=, BigNum.h:77 *)
Definition ge (a b : big) := omap (fun c => c >=? 0) (cmp false a b).
(** operator==, BigNum.h:79 *)
Definition eq (a b : big) := omap (fun c => c =? 0) (cmp false a b).
(** operator!=, BigNum.h:81 *)
Definition ne (a b : big) := omap (fun c => negb (c =? 0)) (cmp false a b).

(** add, BigNum.h:247-259 *)
Definition add_digits (a b : list (option Z)) (i : Z) (r : list (option Z)) :=
  x <- rd a i ;; y <- rd b i ;; wr r i (x + y).
(** the carry loop of add, BigNum.h:251-255 *)
Definition add_carry (i : Z) (r : list (option Z)) : outcome (list (option Z)) :=
  x <- rd r i ;;
  if x >=? 10 then r' <- wr r i (x - 10) ;; y <- rd r' (i + 1) ;; wr r' (i + 1) (y + 1)
  else Ok r.
(** add, BigNum.h:247-259 *)
Definition add (cap : nat) (a b : big) : outcome big :=
  let n := Z.max (len a) (len b) in
  r <- for_loop (Z.to_nat n) 0 (add_digits (el a) (el b)) (zeros cap) ;;
  r <- for_loop (Z.to_nat n) 0 add_carry r ;;
  t <- rd r n ;;
  Ok (Big r (if t =? 0 then n else n + 1) (sgn a)).

(** sub, BigNum.h:261-278 *)
Definition sub_digits (a b : list (option Z)) (i : Z) (r : list (option Z)) :=
  x <- rd a i ;; y <- rd b i ;; wr r i (x - y).
(** the borrow loop of sub, BigNum.h:271-275 *)
Definition sub_borrow (i : Z) (r : list (option Z)) : outcome (list (option Z)) :=
  x <- rd r i ;;
  if x <? 0 then r' <- wr r i (x + 10) ;; y <- rd r' (i + 1) ;; wr r' (i + 1) (y - 1)
  else Ok r.
(** the loop at BigNum.h:276 *)
Fixpoint strip (n : nat) (r : list (option Z)) : outcome Z :=
  match n with
  | O => Ok 0
  | S k => x <- rd r (Z.of_nat k) ;; if x =? 0 then strip k r else Ok (Z.of_nat n)
  end.
(** the recursive call at BigNum.h:264 assigns its result to the default [ret] *)
Fixpoint sub (fuel : nat) (cap : nat) (a b : big) : outcome big :=
  match fuel with
  | O => Fuel
  | S f =>
      c <- cmp true a b ;;
      if c <? 0 then
        r <- sub f cap b a ;;
        ret <- assign (mk0 cap) r ;;
        Ok (Big (el ret) (len ret) (-1))
      else
        let n := len a in
        r <- for_loop (Z.to_nat n) 0 (sub_digits (el a) (el b)) (zeros cap) ;;
        r <- for_loop (Z.to_nat n) 0 sub_borrow r ;;
        m <- strip (Z.to_nat n) r ;;
        Ok (Big r m 1)
  end.

(** mul, BigNum.h:280-296 *)
Definition mul_inner (a b : list (option Z)) (i j : Z) (r : list (option Z)) :=
  x <- rd a i ;; y <- rd b j ;; p <- chk32 (x * y) ;;
  z <- rd r (i + j) ;; wr r (i + j) (z + p).
(** one row of the digit products of mul, BigNum.h:285-288 *)
Definition mul_row (a b : list (option Z)) (lb : Z) (i : Z) (r : list (option Z)) :=
  for_loop (Z.to_nat lb) 0 (mul_inner a b i) r.
(** the carry loop of mul, BigNum.h:289-292 *)
Definition mul_carry (i : Z) (r : list (option Z)) : outcome (list (option Z)) :=
  x <- rd r i ;; y <- rd r (i + 1) ;;
  r' <- wr r (i + 1) (y + Z.quot x 10) ;; wr r' i (Z.rem x 10).
(** mul, BigNum.h:280-296 *)
Definition mul (cap : nat) (a b : big) : outcome big :=
  if (len a =? 0) || (len b =? 0) then Ok (mk0 cap)
  else
    let n := len a + len b - 1 in
    r <- for_loop (Z.to_nat (len a)) 0 (mul_row (el a) (el b) (len b)) (zeros cap) ;;
    r <- for_loop (Z.to_nat n) 0 mul_carry r ;;
    t <- rd r n ;;
    Ok (Big r (if t =? 0 then n else n + 1) (sgn a)).

(** operator+ and operator-, BigNum.h:84-95 and 136-147: the result is assigned
    to a default-constructed [ret].  The forms taking an int64 (97-108, 149-160)
    do the same with [BigNum(smallNum)]. *)
Definition plus_val (fuel cap : nat) (a b : big) : outcome big :=
  if sgn a =? sgn b then add cap a b
  else if sgn a <? 0 then sub fuel cap b a else sub fuel cap a b.
(** operator-, BigNum.h:136-147 (recursive with operator+) *)
Definition minus_val (fuel cap : nat) (a b : big) : outcome big :=
  if sgn a =? sgn b then (if sgn a <? 0 then sub fuel cap b a else sub fuel cap a b)
  else add cap a b.
(** operator+, BigNum.h:84-95 *)
Definition plus (fuel cap : nat) (a b : big) : outcome big :=
  r <- plus_val fuel cap a b ;; assign (mk0 cap) r.
(** operator-, BigNum.h:136-147 *)
Definition minus (fuel cap : nat) (a b : big) : outcome big :=
  r <- minus_val fuel cap a b ;; assign (mk0 cap) r.
(** operator+= and operator-=, BigNum.h:110-133 and 162-185: assigned to *this *)
Definition plus_assign (fuel cap : nat) (a b : big) : outcome big :=
  r <- plus_val fuel cap a b ;; assign a r.
(** operator-=, BigNum.h:162-185 *)
Definition minus_assign (fuel cap : nat) (a b : big) : outcome big :=
  r <- minus_val fuel cap a b ;; assign a r.
(** operator* (BigNum), BigNum.h:188-191 (copy elided) and operator* (int64),
    193-197 (assigned to a default [ret]) *)
Definition times (cap : nat) (a b : big) : outcome big := mul cap a b.
(** operator*(int), BigNum.h:193-197 *)
Definition times_int (cap : nat) (a : big) (n : Z) : outcome big :=
  b <- of_int64 cap n ;; r <- mul cap a b ;; assign (mk0 cap) r.
(** operator*= (int64), BigNum.h:204-208 *)
Definition times_assign_int (cap : nat) (a : big) (n : Z) : outcome big :=
  b <- of_int64 cap n ;; r <- mul cap a b ;; assign a r.
(** unary minus, BigNum.h:211-215: a true copy, so the tail is indeterminate *)
Definition opp (cap : nat) (a : big) : outcome big :=
  r <- copy cap a ;; Ok (Big (el r) (len r) (- sgn r)).
(** prefix ++ and --, BigNum.h:217-220 and 228-231 *)
Definition incr (fuel cap : nat) (a : big) : outcome big :=
  b <- of_int64 cap 1 ;; plus_assign fuel cap a b.
(** prefix --, BigNum.h:228-231 *)
Definition decr (fuel cap : nat) (a : big) : outcome big :=
  b <- of_int64 cap 1 ;; minus_assign fuel cap a b.

(** toString, BigNum.h:305-310 *)
Fixpoint print_loop (n : nat) (l : list (option Z)) : outcome bytes :=
  match n with
  | O => Ok []
  | S k => x <- rd l (Z.of_nat k) ;; t <- print_loop k l ;; Ok (to_string_Z x ++ t)
  end.
(** toString, BigNum.h:305-310 *)
Definition toString (a : big) : outcome bytes :=
  t <- print_loop (Z.to_nat (len a)) (el a) ;;
  Ok ((if sgn a <? 0 then ["-"%char] else []) ++ t).
