(** Model of src/network/network_functions.cpp. *)
From Verif Require Import Base.

(** network_functions.cpp:10-21, [hexToInt].  [isdigit(x)] on a negative [char]
    is undefined behaviour (C11 7.4p1): the argument is not representable as
    [unsigned char]. *)
Definition hexToInt (x : ascii) : outcome Z :=
  let v := charZ x in
  if ((65 <=? v) && (v <=? 90))%Z then Ok (v - 65 + 10)%Z
  else if ((97 <=? v) && (v <=? 122))%Z then Ok (v - 97 + 10)%Z
  else if (v <? 0)%Z then UB
  else if ((48 <=? v) && (v <=? 57))%Z then Ok (v - 48)%Z
  else Ok 0%Z.

(** [isalnum] in the "C" locale, for non-negative chars (network_functions.cpp:31). *)
Definition isalnum (v : Z) : bool :=
  ((48 <=? v) && (v <=? 57) || (65 <=? v) && (v <=? 90) || (97 <=? v) && (v <=? 122))%Z.

(** Upper-case hexadecimal digit, as printed by [std::hex << std::uppercase]. *)
Definition hexdigit (n : N) : ascii :=
  if (n <? 10)%N then ascii_of_N (48 + n) else ascii_of_N (55 + n).

(** [setw(2) << int((unsigned char)c)] with fill '0' (network_functions.cpp:26,38):
    at least two digits; a byte never needs more. *)
Definition hex2 (n : N) : bytes := [hexdigit (n / 16); hexdigit (n mod 16)].

(** network_functions.cpp:24-43, [urlEncode]; one loop iteration per byte. *)
Definition encode_char (c : ascii) : bytes :=
  if ((0 <=? charZ c)%Z
      && (isalnum (charZ c) || Ascii.eqb c "-" || Ascii.eqb c "_" || Ascii.eqb c "."
          || Ascii.eqb c "~"))%bool
  then [c]
  else "%"%char :: hex2 (N_of_ascii c).
(** network_functions.cpp:24-43, [urlEncode] *)
Definition urlEncode (s : bytes) : bytes := flat_map encode_char s.

(** [str[i]] on a [const std::string]: index [length] is the NUL terminator, any
    larger index is undefined behaviour. *)
Definition char_at (s : bytes) (i : nat) : outcome ascii :=
  match nth_error (s ++ [NUL]) i with Some c => Ok c | None => UB end.

(** network_functions.cpp:45-64, [urlDecode]: the loop over [i], the output
    accumulated in reverse.  [fuel] bounds the iterations. *)
Fixpoint decode_loop (fuel : nat) (s : bytes) (i : nat) (out : bytes) : outcome bytes :=
  if Nat.ltb i (length s) then
    match fuel with
    | O => Fuel
    | S f =>
        c <- char_at s i ;;
        if Ascii.eqb c "+" then decode_loop f s (i + 1) (" "%char :: out)
        else if Ascii.eqb c "%" then
          ch <- char_at s (i + 1) ;;
          high <- hexToInt ch ;;
          cl <- char_at s (i + 2) ;;
          low <- hexToInt cl ;;
          (* (unsigned char)(high * 16 + low) *)
          decode_loop f s (i + 3) (ascii_of_N (Z.to_N ((high * 16 + low) mod 256)) :: out)
        else decode_loop f s (i + 1) (c :: out)
    end
  else Ok (rev out).
(** network_functions.cpp:45-64, [urlDecode] *)
Definition urlDecode (s : bytes) : outcome bytes := decode_loop (length s) s 0 [].
