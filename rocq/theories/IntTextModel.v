(** Integers of every standard type as text: stringCast<T>, src/include/string_utils/StringCast.h:18-37,
    and the stream operators of Vector<T>, src/include/containers/Vector.h:389-430, for the
    signed and unsigned integer types of 8, 16, 32 and 64 bits.  Streams are those of
    VecIOModel, types those of IntTyModel. *)
From Verif Require Import Base DecModel ContModel VecIOModel VecAnyModel IntTyModel.
Local Open Scope Z_scope.

(** std: [is >> value] for an integer type of 16 bits or more (num_get; used at
    StringCast.h:26 and Vector.h:416): optional sign, digits; eofbit if the end is reached; no digits: failbit and
    0; the digits beyond the range: failbit and the end of the range.  A minus sign negates in
    the type, so modulo 2^bits if it is unsigned; an unsigned type bounds the digits by its
    maximum in either case.  (short and int are read as long and then clamped, which is the
    same.)  If the sentry fails the variable keeps its value [garbage]. *)
Definition get_num (t : ty) (s : stream) (garbage : Z) : stream * Z :=
  let (s, ok) := sentry s in
  if negb ok then (s, garbage)
  else
    let (sg, s) :=
      match rest s with
      | c :: r => if (byteZ c =? 43) || (byteZ c =? 45) then (byteZ c, Stream (c :: before s) r (eof s) (fail s)) else (43, s)
      | [] => (43, s)
      end in
    let ds := span (rest s) in
    let s := Stream (rev ds ++ before s) (skipn (length ds) (rest s)) (match skipn (length ds) (rest s) with [] => true | _ => false end) (fail s) in
    let neg := sg =? 45 in
    let limit := if neg && sgn t then - tmin t else tmax t in
    match ds with
    | [] => (Stream (before s) (rest s) (eof s) true, 0)
    | _ =>
        if dec_value ds <=? limit then (s, if neg then conv t (- dec_value ds) else dec_value ds)
        else (Stream (before s) (rest s) (eof s) true, if neg && sgn t then tmin t else tmax t)
    end.
(** std: [is >> value] for signed char and unsigned char (StringCast.h:26, Vector.h:416): a character *)
Definition get_byte (t : ty) (s : stream) (garbage : Z) : stream * Z :=
  let (s', c) := get_char s (ascii_of_N (Z.to_N (garbage mod 256))) in (s', conv t (byteZ c)).
(** std: [is >> value] for an integer type, StringCast.h:26, Vector.h:416 *)
Definition get_integer (t : ty) (s : stream) (garbage : Z) : stream * Z :=
  if bits t =? 8 then get_byte t s garbage else get_num t s garbage.
(** std: [os << value] for an integer type, Vector.h:395, 398-400: the types of 8 bits are
    character types *)
Definition show_integer (t : ty) (z : Z) : bytes :=
  if bits t =? 8 then [ascii_of_N (Z.to_N (z mod 256))] else to_string_Z z.

(** [stringCast<T>::operator T() const], StringCast.h:22-32: a blank text stores nothing in the
    uninitialised [casted] (line 24), whose content is [g] *)
Definition cast_integer (t : ty) (g : Z) (x : bytes) : outcome Z :=
  if snd (sentry (Stream [] x false false)) then Ok (snd (get_integer t (Stream [] x false false) g)) else UB.
(** operator>> of Vector<T>, Vector.h:403-430; [gv n] is the content of the uninitialised
    [value] (line 415) in the n-th iteration, [gc] that of [ch] (line 405) *)
Definition read_integers (t : ty) (gv : nat -> Z) (gc : ascii) (fuel : nat) (s : stream) : outcome (stream * list Z) :=
  read_of (fun n s => Ok (get_integer t s (gv n))) gc fuel s.
(** operator<< of Vector<T>, Vector.h:389-401 *)
Definition print_integers (t : ty) (v : list Z) : outcome bytes :=
  print_of (fun z => Ok (show_integer t z)) v.
