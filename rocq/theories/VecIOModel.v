(** Model of the stream operators of Vector<int>, src/include/containers/Vector.h:389-430.
    A stream is the text already read (latest character first), the text still to come
    and the flags eofbit and failbit (badbit is merged with failbit: both make the
    next extraction fail and neither is tested here).  The int formatting is that
    of the "C" locale. *)
From Verif Require Import Base DecModel ContModel.
Local Open Scope Z_scope.

(** std::istream as used at Vector.h:403-430: the characters left and the state flags *)
Record stream := Stream { before : bytes; rest : bytes; eof : bool; fail : bool }.

(** std::isspace *)
Definition is_space (c : ascii) : bool := (byteZ c =? 32) || ((9 <=? byteZ c) && (byteZ c <=? 13)).
(** std: consume characters while [p] holds *)
Fixpoint skip (p : ascii -> bool) (s : stream) (r : bytes) : stream :=
  match r with
  | c :: t => if p c then skip p (Stream (c :: before s) t (eof s) (fail s)) t else s
  | [] => s
  end.
(** std: constructing an istream::sentry: skips white space; fails if the stream is
    not good or nothing is left *)
Definition sentry (s : stream) : stream * bool :=
  if eof s || fail s then (Stream (before s) (rest s) (eof s) true, false)
  else
    let s := skip is_space s (rest s) in
    match rest s with
    | [] => (Stream (before s) [] true true, false)
    | _ => (s, true)
    end.
(** std: [is >> ch]; on failure [ch] keeps its value *)
Definition get_char (s : stream) (ch : ascii) : stream * ascii :=
  let (s, ok) := sentry s in
  if ok then
    match rest s with
    | c :: t => (Stream (c :: before s) t (eof s) (fail s), c)
    | [] => (s, ch)
    end
  else (s, ch).
(** std: the digits in front *)
Fixpoint span (r : bytes) : bytes :=
  match r with
  | c :: t => if is_digit c then c :: span t else []
  | [] => []
  end.
(** std: [is >> value] for an int (num_get): optional sign, digits; eofbit if the end
    is reached; no digits: failbit and 0; out of range: failbit and the nearest int.
    If the sentry fails the variable keeps its value [garbage]. *)
Definition get_int (s : stream) (garbage : Z) : stream * Z :=
  let (s, ok) := sentry s in
  if negb ok then (s, garbage)
  else
    let (sg, s) :=
      match rest s with
      | c :: t => if (byteZ c =? 43) || (byteZ c =? 45) then (byteZ c, Stream (c :: before s) t (eof s) (fail s)) else (43, s)
      | [] => (43, s)
      end in
    let ds := span (rest s) in
    let s := Stream (rev ds ++ before s) (skipn (length ds) (rest s)) (match skipn (length ds) (rest s) with [] => true | _ => false end) (fail s) in
    let v := if sg =? 45 then - dec_value ds else dec_value ds in
    match ds with
    | [] => (Stream (before s) (rest s) (eof s) true, 0)
    | _ =>
        if in_int32 v then (s, v)
        else (Stream (before s) (rest s) (eof s) true, if sg =? 45 then int32_min else int32_max)
    end.
(** std: [is.unget()]: clears eofbit, then puts back unless failed *)
Definition unget (s : stream) : stream :=
  if fail s then Stream (before s) (rest s) false true
  else match before s with
       | c :: b => Stream b (c :: rest s) false false
       | [] => Stream [] (rest s) false true
       end.

(** operator>>, Vector.h:403-430.  [gv n] is the content of the uninitialised variable
    [value] (line 415) in the n-th iteration and [gc] that of [ch] (line 405): reading
    them is formally undefined, the model lets them be anything. *)
Section Read.
Context (gv : nat -> Z) (gc : ascii).
(** the loop 414-427; Vector.h:414-427 *)
Fixpoint read_loop (fuel n : nat) (s : stream) (ch : ascii) (v : list Z) : outcome (list Z * stream) :=
  match fuel with
  | O => Fuel
  | S fuel =>
      let (s, value) := get_int s (gv n) in
      let v := seq_push v value in
      let (s, ch) := get_char s ch in
      if eof s then Err
      else if Ascii.eqb ch "}" then Ok (v, s)
      else if negb (Ascii.eqb ch ",") then Err
      else read_loop fuel (S n) s ch v
  end.
(** operator>>, Vector.h:403-430 *)
Definition read_vector (fuel : nat) (s : stream) : outcome (list Z * stream) :=
  let (s, ch) := get_char s gc in
  if negb (Ascii.eqb ch "{") then Err
  else
    let (s, ch) := get_char s ch in
    if negb (Ascii.eqb ch "}") then read_loop fuel 0 (unget s) ch []
    else Ok ([], s).
End Read.

(** operator<<, Vector.h:389-401 *)
Definition print_vector (v : list Z) : outcome bytes :=
  if size_int v =? 0 then Ok (str "{}")
  else
    x <- seq_last v ;;
    if size_int v =? 1 then Ok ("{"%char :: to_string_Z x ++ ["}"%char])
    else Ok ("{"%char :: flat_map (fun y => to_string_Z y ++ str ", ") (removelast v) ++ to_string_Z x ++ ["}"%char]).
