(** [std::to_string(int)] and the textbook value of a decimal numeral. *)
From Verif Require Import Base.
Local Open Scope Z_scope.

(** character of a decimal digit; std formatting of int, e.g. BigNum.h:305-310, Json.cpp:429-469, Vector.h:389-401 *)
Definition digit_char (d : Z) : ascii := ascii_of_N (Z.to_N (48 + d)).

(** digits of a non-negative number, most significant first.  The fuel
    [S (Z.log2 n)] is at least the number of digits; std formatting of int, e.g. Json.cpp:429-469, Vector.h:389-401 *)
Fixpoint dec_loop (fuel : nat) (n : Z) (acc : bytes) : bytes :=
  match fuel with
  | O => acc
  | S f =>
      if n <? 10 then digit_char n :: acc
      else dec_loop f (n / 10) (digit_char (n mod 10) :: acc)
  end.
(** std formatting of a non-negative int, e.g. Json.cpp:429-469, Vector.h:389-401 *)
Definition dec_nat (n : Z) : bytes := dec_loop (S (Z.to_nat (Z.log2 n))) n [].

(** [std::to_string(z)] of an integer; used at src/include/math_utils/BigNum.h:308
    and src/json/json.cpp (integer printing). *)
Definition to_string_Z (z : Z) : bytes :=
  if z <? 0 then "-"%char :: dec_nat (- z) else dec_nat z.

(** textbook: value of a digit string, most significant first; digit tests, Json.cpp:154, 174, and std number extraction (StringCast.h:22-32) *)
Definition is_digit (c : ascii) : bool := (48 <=? byteZ c) && (byteZ c <=? 57).
(** value read by std number extraction, StringCast.h:22-32 *)
Definition dec_value (s : bytes) : Z :=
  fold_left (fun acc c => 10 * acc + (byteZ c - 48)) s 0.
(** a canonical unsigned numeral: digits only, no superfluous leading zero; the form produced by std formatting of a non-negative int (Vector.h:389-401) *)
Definition canon_digits (s : bytes) : Prop :=
  s <> [] /\ forallb is_digit s = true /\ (length s = 1%nat \/ hd_error s <> Some "0"%char).
(** canonical signed numeral and its value; the form produced by std formatting of an int (Vector.h:389-401) *)
Definition numeral (s : bytes) (z : Z) : Prop :=
  (canon_digits s /\ dec_value s = z) \/
  (exists t, s = "-"%char :: t /\ canon_digits t /\ dec_value t <> 0 /\ - dec_value t = z).
