(** The text of doubles on streams with default flags: what [os << x] prints (Point.h:135-139,
    and Vector.h:389-401 for Vector<double>) and what [is >> x] reads (Vector.h:415-416, StringCast.h:26), for
    IEEE-754 binary64 in the "C" locale. *)
From Coq Require Import Floats.SpecFloat.
From Verif Require Import Base DecModel Float VecIOModel VecAnyModel OutModel JsonFloatModel.
Local Open Scope Z_scope.

(** a/b rounded to an integer, ties to even; std: "%g" as used by [os << x], Vector.h:395-400 *)
Definition round_div (a b : Z) : Z :=
  match Z.compare (2 * (a mod b)) b with
  | Lt => a / b
  | Gt => a / b + 1
  | Eq => if Z.even (a / b) then a / b else a / b + 1
  end.
(** the value m * 2^e as a fraction; Vector.h:395-400 *)
Definition fraction (m : positive) (e : Z) : Z * Z :=
  if 0 <=? e then (Zpos m * 2 ^ e, 1) else (Zpos m, 2 ^ (- e)).
(** the greatest k <= start with 10^k <= n/d; std: "%g", Vector.h:395-400 *)
Fixpoint decade (fuel : nat) (k n d : Z) : Z :=
  match fuel with
  | O => k
  | S fuel =>
      if (if 0 <=? k then 10 ^ k * d <=? n else d <=? n * 10 ^ (- k)) then k else decade fuel (k - 1) n d
  end.
(** n/d * 10^(5-k) rounded; std: "%g", Vector.h:395-400 *)
Definition scaled (n d k : Z) : Z :=
  if 5 <=? k then round_div n (d * 10 ^ (k - 5)) else round_div (n * 10 ^ (5 - k)) d.
(** the six significant digits and the exponent of the first; a double is less than
    10^309 and at least 10^-324; std: "%g", Vector.h:395-400 *)
Definition significant (m : positive) (e : Z) : Z * Z :=
  let (n, d) := fraction m e in
  let k := decade 634 308 n d in
  let N := scaled n d k in
  if N =? 1000000 then (100000, k + 1) else (N, k).
(** zeros at the end removed; std: "%g", Vector.h:395-400 *)
Fixpoint strip (s : bytes) : bytes :=
  match s with
  | [] => []
  | c :: t => match strip t with [] => if Ascii.eqb c "0" then [] else [c] | t => c :: t end
  end.
(** a point and the digits behind it, nothing if there are none; std: "%g", Vector.h:395-400 *)
Definition behind (b : bytes) : bytes := match strip b with [] => [] | t => "."%char :: t end.
(** the exponent, at least two digits; std: "%g", Vector.h:395-400 *)
Definition exponent_text (k : Z) : bytes :=
  "e"%char :: (if k <? 0 then "-"%char else "+"%char) :: (if Z.abs k <? 10 then ["0"%char] else []) ++ dec_nat (Z.abs k).
(** six significant digits N with the point behind the first, times 10^k; Vector.h:395-400 *)
Definition digits_text (N k : Z) : bytes :=
  if (k <? -4) || (6 <=? k) then firstn 1 (six N) ++ behind (skipn 1 (six N)) ++ exponent_text k
  else if 0 <=? k then firstn (Z.to_nat (k + 1)) (six N) ++ behind (skipn (Z.to_nat (k + 1)) (six N))
  else "0"%char :: behind (repeat "0"%char (Z.to_nat (- k - 1)) ++ six N).
(** [os << x]; Vector.h:395-400, Point.h:136-138.  The sign of a NaN is [nan_sign], as in
    JsonFloatModel. *)
Definition show_double (nan_sign : bool) (x : double) : bytes :=
  match x with
  | S754_zero s => (if s then ["-"%char] else []) ++ ["0"%char]
  | S754_finite s m e => let (N, k) := significant m e in (if s then ["-"%char] else []) ++ digits_text N k
  | S754_infinity s => if s then str "-inf" else str "inf"
  | S754_nan => if nan_sign then str "-nan" else str "nan"
  end.

(** std: consume the characters [w]; Vector.h:416 *)
Definition advance (s : stream) (w : bytes) : stream :=
  let r := skipn (length w) (rest s) in
  Stream (rev w ++ before s) r (match r with [] => true | _ => false end) (fail s).
(** std: the sign in front; Vector.h:416 *)
Definition sign_of (r : bytes) : bytes :=
  match r with
  | c :: _ => if Ascii.eqb c "+" || Ascii.eqb c "-" then [c] else []
  | [] => []
  end.
(** std: a point in front and the digits behind it; Vector.h:416 *)
Definition point_of (r : bytes) : bytes :=
  match r with
  | c :: t => if Ascii.eqb c "." then c :: span t else []
  | [] => []
  end.
(** std: an exponent in front, complete or not; Vector.h:416 *)
Definition exponent_of (r : bytes) : bytes :=
  match r with
  | c :: t => if Ascii.eqb c "e" || Ascii.eqb c "E" then c :: sign_of t ++ span (skipn (length (sign_of t)) t) else []
  | [] => []
  end.
(** std: is there a minus sign; Vector.h:416 *)
Definition minus (w : bytes) : bool := match w with c :: _ => Ascii.eqb c "-" | [] => false end.
(** std: is the double nearest to +-n/d infinite; Vector.h:416 *)
Definition overflows (neg : bool) (n d : Z) : bool :=
  if n =? 0 then false
  else match SFdiv 53 1024 (S754_finite neg (Z.to_pos n) 0) (S754_finite false (Z.to_pos d) 0) with S754_infinity _ => true | _ => false end.
(** std: [is >> value] for a double (num_get, then strtod): optional sign, digits, optional
    point and digits, and, if there was a digit, optional exponent; eofbit if the end is
    reached; no digits, or an exponent without digits: failbit and 0; beyond the range:
    failbit and the greatest double.  If the sentry fails the variable keeps its value
    [garbage].  Vector.h:415-416.  (A digit sequence is unlimited in length.) *)
Definition get_double (s : stream) (garbage : double) : stream * double :=
  let (s, ok) := sentry s in
  if negb ok then (s, garbage)
  else
    let sg := sign_of (rest s) in
    let r := skipn (length sg) (rest s) in
    let a := span r in
    let r := skipn (length a) r in
    let p := point_of r in
    let r := skipn (length p) r in
    let b := skipn 1 p in
    let x := match a ++ b with [] => [] | _ => exponent_of r end in
    let s := advance s (sg ++ a ++ p ++ x) in
    let failed := Stream (before s) (rest s) (eof s) true in
    let es := sign_of (skipn 1 x) in
    let c := skipn (length es) (skipn 1 x) in
    match a ++ b, x, c with
    | [], _, _ => (failed, dzero)
    | _, _ :: _, [] => (failed, dzero)
    | ds, _, _ =>
        let q := (if minus es then - dec_value c else dec_value c) - Z.of_nat (length b) in
        let n := if 0 <=? q then dec_value ds * 10 ^ q else dec_value ds in
        let d := if 0 <=? q then 1 else 10 ^ (- q) in
        (if overflows (minus sg) n d then failed else s, nearest (minus sg) n d)
    end.
(** operator<< of Vector<double>; Vector.h:389-401 *)
Definition print_doubles (nan_sign : bool) : list double -> outcome bytes := print_of (fun x => Ok (show_double nan_sign x)).
(** operator>> of Vector<double>; Vector.h:403-430.  [gd n] is the content of the
    uninitialised variable [value] (line 415) in the n-th iteration. *)
Definition read_doubles (gd : nat -> double) (gc : ascii) (fuel : nat) : stream -> outcome (stream * list double) :=
  read_of (fun n s => Ok (get_double s (gd n))) gc fuel.
(** [stringCast<double>], StringCast.h:22-32: if only white space is left, the
    uninitialised variable [casted] (line 24) is returned *)
Definition cast_double (t : bytes) : outcome double :=
  if snd (sentry (Stream [] t false false)) then Ok (snd (get_double (Stream [] t false false) dzero)) else UB.
(** operator<< of Point<double, N>; Point.h:135-139 *)
Definition print_coordinates (nan_sign : bool) : list double -> outcome bytes := print_point (show_double nan_sign).
