(** RFC 3986 percent-encoding and well-formed inputs of the decoder. *)
From Verif Require Import Base.
Local Open Scope Z_scope.

Definition unreserved (c : ascii) : Prop :=
  48 <= byteZ c <= 57 \/ 65 <= byteZ c <= 90 \/ 97 <= byteZ c <= 122 \/
  In c (str "-_.~").

(** value of an upper-case hexadecimal digit *)
Definition hex_value (c : ascii) (v : Z) : Prop :=
  (48 <= byteZ c <= 57 /\ v = byteZ c - 48) \/ (65 <= byteZ c <= 70 /\ v = byteZ c - 55).

(** [pct_encoded s t]: [t] is the percent-encoding of [s]. *)
Inductive pct_encoded : bytes -> bytes -> Prop :=
| pe_nil : pct_encoded [] []
| pe_plain c s t : unreserved c -> pct_encoded s t -> pct_encoded (c :: s) (c :: t)
| pe_escape c h l vh vl s t :
    ~ unreserved c -> hex_value h vh -> hex_value l vl -> byteZ c = 16 * vh + vl ->
    pct_encoded s t -> pct_encoded (c :: s) ("%"%char :: h :: l :: t).

(** [scannable t]: the left-to-right scan of [t] never needs a character behind
    the terminating NUL and never classifies a byte >= 0x80 as a digit. *)
Definition ascii7 (c : ascii) : Prop := byteZ c < 128.
Inductive scannable : bytes -> Prop :=
| sc_nil : scannable []
| sc_char c t : c <> "%"%char -> scannable t -> scannable (c :: t)
| sc_last h : ascii7 h -> scannable ["%"%char; h]
| sc_escape h l t : ascii7 h -> ascii7 l -> scannable t -> scannable ("%"%char :: h :: l :: t).

(** What the decoder yields.  A hexadecimal digit of either case has its value;
    beyond that, the letters G-Z / g-z count as 16..35 and every other 7-bit
    character as 0. *)
Definition hex_digit (c : ascii) (v : Z) : Prop :=
  hex_value c v \/ (97 <= byteZ c <= 102 /\ v = byteZ c - 87).
Definition lenient_digit (c : ascii) (v : Z) : Prop :=
  hex_digit c v \/
  (71 <= byteZ c <= 90 /\ v = byteZ c - 55) \/ (103 <= byteZ c <= 122 /\ v = byteZ c - 87) \/
  (byteZ c < 128 /\ (forall w, ~ hex_digit c w) /\ ~ (71 <= byteZ c <= 90) /\ ~ (103 <= byteZ c <= 122) /\ v = 0).

(** [decoded dig t s]: [s] is the application/x-www-form-urlencoded decoding of
    [t], the two characters behind a percent sign being digits in the sense of [dig]. *)
Inductive decoded (dig : ascii -> Z -> Prop) : bytes -> bytes -> Prop :=
| de_nil : decoded dig [] []
| de_plus t s : decoded dig t s -> decoded dig ("+"%char :: t) (" "%char :: s)
| de_plain c t s : c <> "+"%char -> c <> "%"%char -> decoded dig t s -> decoded dig (c :: t) (c :: s)
| de_escape h l vh vl b t s :
    dig h vh -> dig l vl -> byteZ b = (16 * vh + vl) mod 256 ->
    decoded dig t s -> decoded dig ("%"%char :: h :: l :: t) (b :: s).
