(** Specification of the text of doubles: decimal numbers, rounding to six significant digits. *)
From Coq Require Import Reals Floats.SpecFloat.
From Flocq Require Import Core IEEE754.BinarySingleNaN.
From Verif Require Import Base DecModel Float FloatProofs VecIOSpec JsonFloatSpec.
Local Open Scope R_scope.

Definition radix10 : radix := Build_radix 10 eq_refl.
(** [r] rounded to six significant decimal digits, ties to even *)
Definition to_six (r : R) : R := round radix10 (FLX_exp 6) ZnearestE r.
(** the numbers with at most six significant digits *)
Definition of_six (r : R) : Prop := exists n k : Z, (Z.abs n < 1000000)%Z /\ r = IZR n * bpow radix10 k.
(** decimal numbers: sign, digits, point, digits, exponent *)
Definition sign_text (w : bytes) (neg : bool) : Prop :=
  w = [] /\ neg = false \/ w = ["+"%char] /\ neg = false \/ w = ["-"%char] /\ neg = true.
Definition exponent_part (x : bytes) (q : Z) : Prop :=
  x = [] /\ q = 0%Z \/
  exists e es neg c, (e = "e"%char \/ e = "E"%char) /\ sign_text es neg /\ c <> [] /\ digits c /\
    x = e :: es ++ c /\ q = (if neg then - dec_value c else dec_value c)%Z.
Definition number_text (t : bytes) (neg : bool) (r : R) : Prop :=
  exists sg a p b x q, t = sg ++ a ++ p ++ x /\ sign_text sg neg /\ digits a /\ digits b /\ a ++ b <> [] /\
    (p = [] /\ b = [] \/ p = "."%char :: b) /\ exponent_part x q /\
    r = (if neg then -1 else 1) * (IZR (dec_value (a ++ b)) * bpow radix10 (q - Z.of_nat (length b))).
(** a character that cannot continue a number *)
Definition stops (c : ascii) : Prop := is_digit c = false /\ c <> "."%char /\ c <> "e"%char /\ c <> "E"%char.
(** the form in which a number with six significant digits is printed: no digit that could
    be left out; an exponent (sign, at least two digits) exactly outside 10^-4 <= |r| < 10^6 *)
Definition exponent_form (x : bytes) (q : Z) : Prop :=
  x = [] /\ q = 0%Z \/
  exists (neg : bool) c, x = "e"%char :: (if neg then "-"%char else "+"%char) :: c /\ digits c /\ (2 <= length c)%nat /\
    (length c = 2%nat \/ hd_error c <> Some "0"%char) /\ q = (if neg then - dec_value c else dec_value c)%Z.
Definition pointed (b : bytes) : bytes := match b with [] => [] | _ => "."%char :: b end.
Definition six_text (t : bytes) (neg : bool) (r : R) : Prop :=
  exists a b x q, t = (if neg then ["-"%char] else []) ++ a ++ pointed b ++ x /\ canon_digits a /\ digits b /\
    (forall u, b <> u ++ ["0"%char]) /\ exponent_form x q /\
    (x = [] <-> r = 0 \/ bpow radix10 (-4) <= Rabs r < bpow radix10 6) /\ (x <> [] -> length a = 1%nat /\ a <> ["0"%char]) /\
    r = (if neg then -1 else 1) * (IZR (dec_value (a ++ b)) * bpow radix10 (q - Z.of_nat (length b))).
(** what may follow a number *)
Definition ends (u : bytes) : Prop := match u with [] => True | c :: _ => stops c end.
(** [y] is the double nearest to the six digits of [x] *)
Definition back (x y : double) : Prop := is_nearest (sign_SF x) (to_six (real x)) y.
(** elements in braces, separated by ", " *)
Definition vector_text (texts : list bytes) : bytes := str "{" ++ joined texts ++ str "}".
(** zero, or not closer to it than 10^-300 *)
Definition ordinary (x : double) : Prop := real x = 0 \/ bpow radix10 (-300) <= Rabs (real x).
