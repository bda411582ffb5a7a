(** Model of src/base64/base64_functions.cpp. *)
From Verif Require Import Base.

(** src/base64/base64_functions.cpp:9-10, [codes] (65 characters, '=' last;
    the C string's terminating NUL is not part of [std::string{codes}]). *)
Definition codes : bytes :=
  str "ABCDEFGHIJKLMNOPQRSTUVWXYZabcdefghijklmnopqrstuvwxyz0123456789+/=".

(** [std::bitset<n>(v).to_string()] (base64_functions.cpp:20,61): the low [n]
    bits of [v], most significant first; the characters '0'/'1' are booleans. *)
Fixpoint bitset_string (n : nat) (v : N) : list bool :=
  match n with
  | O => []
  | S k => N.testbit v (N.of_nat k) :: bitset_string k v
  end.

(** [std::bitset<n>(text).to_ulong()] (base64_functions.cpp:28,69) for a text of
    at most [n] characters. *)
Definition bits_ulong (l : list bool) : nat :=
  fold_left (fun acc b => 2 * acc + (if b : bool then 1 else 0)) l 0.

(** Loop header [for (i = 0; i < size; i += k) ... substr(i, k)]
    (base64_functions.cpp:26-28, 67-69): the consecutive substrings.  The first
    argument bounds the number of iterations; it is always the text length,
    which suffices because k > 0. *)
Fixpoint substrs (iters k : nat) (l : list bool) : list (list bool) :=
  match iters with
  | O => []
  | S it => match l with
            | [] => []
            | _ => firstn k l :: substrs it k (skipn k l)
            end
  end.

(** [if (s.length() % k) s += std::string(k - s.length() % k, '0')]
    (base64_functions.cpp:22-24, 64-66). *)
Definition pad_zeros (k : nat) (l : list bool) : list bool :=
  let r := length l mod k in
  match r with O => l | _ => l ++ repeat false (k - r) end.

(** base64_functions.cpp:17-32: the characters before '=' padding.
    [(uint64_t)c] sign-extends a negative char; [bitset<8>] keeps the low 8
    bits, which are those of the byte itself. *)
Definition encode_body (s : bytes) : bytes :=
  let binary := pad_zeros 6 (flat_map (fun c => bitset_string 8 (N_of_ascii c)) s) in
  map (fun w => nth (bits_ulong w) codes NUL) (substrs (length binary) 6 binary).

(** base64_functions.cpp:13-54, [base64Encode(str, length)].  [length] is a C++
    int.  [(int)encodedStr.length()] is a narrowing conversion and
    [length - encodedStr.length()] is unsigned 64-bit arithmetic. *)
Definition base64Encode (s : bytes) (len : Z) : bytes :=
  if (len <? -1)%Z then []
  else
    let enc := encode_body s in
    let n := Z.of_nat (length enc) in
    if negb (len =? -1)%Z then
      if (len <? wrap32 n)%Z then []
      else enc ++ repeat "="%char (Z.to_nat (wrapu64 (len - n)))
    else
      match length enc mod 4 with
      | 2 => enc ++ str "=="
      | 3 => enc ++ str "="
      | _ => enc
      end.

(** [std::string{codes}.find(c)] (base64_functions.cpp:61); a character that
    does not occur gives [npos] = 2^64 - 1. *)
Fixpoint find_from (i : N) (c : ascii) (l : bytes) : N :=
  match l with
  | [] => 18446744073709551615%N
  | x :: t => if Ascii.eqb x c then i else find_from (i + 1) c t
  end.
(** [std::string{codes}.find(c)], base64_functions.cpp:61; npos when absent *)
Definition find_code (c : ascii) : N := find_from 0 c codes.

(** base64_functions.cpp:56-75, [base64Decode]. *)
Definition base64Decode (t : bytes) : bytes :=
  let binary :=
    pad_zeros 8 (flat_map
      (fun c => if Ascii.eqb c "="%char then [] else bitset_string 6 (find_code c)) t) in
  flat_map
    (fun w => let index := bits_ulong w in
              if Nat.eqb index 0 then [] else [ascii_of_nat index])
    (substrs (length binary) 8 binary).
