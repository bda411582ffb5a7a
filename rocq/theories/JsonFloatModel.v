(** The text of doubles in JSON, concretely: what [std::to_string(double)] prints
    (src/json/Json.cpp:462) and what [stringCast<double>] reads (Json.cpp:191, 193),
    for IEEE-754 binary64.  The parser and the printer around them are those of
    JsonModel. *)
From Coq Require Import Floats.SpecFloat.
From Verif Require Import Base DecModel Float JsonModel.
Local Open Scope Z_scope.

(** m * 2^e millions rounded to an integer, ties to even: the digits printed by
    [std::to_string(double)] (that is "%f": six decimals, exact arithmetic, current
    rounding mode to nearest); Json.cpp:462 *)
Definition micros (m : positive) (e : Z) : Z :=
  if 0 <=? e then Zpos m * 2 ^ e * 1000000
  else
    let d := 2 ^ (- e) in
    let q := (Zpos m * 1000000) / d in
    let r := (Zpos m * 1000000) mod d in
    match Z.compare (2 * r) d with
    | Lt => q
    | Gt => q + 1
    | Eq => if Z.even q then q else q + 1
    end.
(** six decimals; std: "%f", Json.cpp:462 *)
Definition six (n : Z) : bytes :=
  [digit_char (n / 100000); digit_char (n / 10000 mod 10); digit_char (n / 1000 mod 10);
   digit_char (n / 100 mod 10); digit_char (n / 10 mod 10); digit_char (n mod 10)].
(** sign, digits, point, six decimals; Json.cpp:462 *)
Definition fixed (s : bool) (n : Z) : bytes :=
  (if s then ["-"%char] else []) ++ dec_nat (n / 1000000) ++ "."%char :: six (n mod 1000000).
(** [std::to_string(Data.Float)], Json.cpp:462, in the "C" locale.  The sign printed for
    a NaN is that of its sign bit, which the type [double] of the model does not keep:
    [nan_sign] says whether there is one. *)
Definition float_text (nan_sign : bool) (x : double) : bytes :=
  match x with
  | S754_zero s => fixed s 0
  | S754_finite s m e => fixed s (micros m e)
  | S754_infinity s => if s then str "-inf" else str "inf"
  | S754_nan => if nan_sign then str "-nan" else str "nan"
  end.

(** the double nearest to +-n/d; beyond the range the greatest double (C++11
    [num_get]); std: strtod as used by [stream >> double], StringCast.h:26 *)
Definition nearest (s : bool) (n d : Z) : double :=
  if n =? 0 then S754_zero s
  else
    match SFdiv 53 1024 (S754_finite s (Z.to_pos n) 0) (S754_finite false (Z.to_pos d) 0) with
    | S754_infinity s => S754_finite s 9007199254740991 971
    | x => x
    end.
(** [stringCast<double>(val)], Json.cpp:191, 193, for the texts parse_number collects
    (characters '-', '.' and digits): optional sign, digits, optionally a point and
    digits, anything after that ignored; 0 if there is no digit; StringCast.h:22-32 *)
Definition float_read (s : bytes) : double :=
  let (neg, t) := match s with
                  | c :: t => if Ascii.eqb c "-" then (true, t) else (false, s)
                  | [] => (false, [])
                  end in
  let a := digit_prefix t in
  let b := match skipn (length a) t with
           | c :: t => if Ascii.eqb c "." then digit_prefix t else []
           | [] => []
           end in
  match a ++ b with
  | [] => dzero
  | ds => nearest neg (dec_value ds) (10 ^ Z.of_nat (length b))
  end.
(** the operations of JsonModel on doubles; [p10 e] is [std::pow(10, e)], Json.cpp:191, 193 *)
Definition binary64 (nan_sign : bool) (p10 : Z -> double) : doubles double :=
  Doubles (float_text nan_sign) float_read (fun x e => dmul x (p10 e)).
