(** Model of stringCast, src/include/string_utils/StringCast.h:18-37, for T = int, unsigned,
    bool, char and std::string.  The extraction is that of std::stringstream in the "C"
    locale; it throws nothing (no exceptions are enabled), so lines 27-30 are never reached. *)
From Verif Require Import Base DecModel VecIOModel.
Local Open Scope Z_scope.

(** the type arguments of stringCast considered, StringCast.h:22-32 *)
Inductive ctype := TInt | TUnsigned | TBool | TChar | TString.
(** the results of stringCast for them, StringCast.h:22-32 *)
Inductive cvalue := VInt (z : Z) | VUnsigned (z : Z) | VBool (b : bool) | VChar (c : ascii) | VString (s : bytes).

(** std: num_get on the text behind the white space: the sign and the digits *)
Definition split_number (t : bytes) : bool * bytes :=
  match t with
  | c :: u => if byteZ c =? 45 then (true, span u) else if byteZ c =? 43 then (false, span u) else (false, span t)
  | [] => (false, [])
  end.
(** std: [is >> casted] for unsigned: digits beyond the range give the largest value, a minus
    sign negates modulo 2^32, no digits give 0 *)
Definition read_unsigned (t : bytes) : Z :=
  let (neg, ds) := split_number t in
  if 2 ^ 32 <=? dec_value ds then 2 ^ 32 - 1 else if neg then (- dec_value ds) mod 2 ^ 32 else dec_value ds.
(** std: [is >> casted] for bool without boolalpha: a long is read (clamped to its range,
    0 if there are no digits); everything but 0 is true *)
Definition read_bool (t : bytes) : bool :=
  let (neg, ds) := split_number t in
  let l := if neg then Z.max (- 2 ^ 63) (- dec_value ds) else Z.min (2 ^ 63 - 1) (dec_value ds) in
  negb (l =? 0).
(** std: [is >> casted] for std::string: the characters up to the next white space *)
Fixpoint word (t : bytes) : bytes :=
  match t with
  | c :: u => if is_space c then [] else c :: word u
  | [] => []
  end.
(** [operator T() const], StringCast.h:22-32, on the text referred to: if only white space is
    left nothing is stored in [casted] (line 24), which is uninitialised unless it is a string *)
Definition cast (ty : ctype) (t : bytes) : outcome cvalue :=
  let (s, ok) := sentry (Stream [] t false false) in
  match ty with
  | TString => Ok (VString (if ok then word (rest s) else []))
  | _ =>
      if negb ok then UB
      else match ty with
           | TInt => Ok (VInt (snd (get_int (Stream [] t false false) 0)))
           | TUnsigned => Ok (VUnsigned (read_unsigned (rest s)))
           | TBool => Ok (VBool (read_bool (rest s)))
           | _ => Ok (VChar (snd (get_char (Stream [] t false false) "000"%char)))
           end
  end.

(** Programs with std::string variables and named stringCast objects.  The object holds a
    reference (line 36): to a variable, or to a temporary that is gone after the declaration. *)
Record cworld := CWorld { texts : list (option bytes); casts : list (ctype * option nat) }.
(** client statements: strings, stringCast objects and conversions, StringCast.h:21-33 *)
Inductive cop :=
| SNew (t : bytes) | SAssign (i : nat) (t : bytes) | SEnd (i : nat)
| CNew (ty : ctype) (i : nat)      (* stringCast<T> c(s) *)
| CTemp (ty : ctype) (t : bytes)   (* stringCast<T> c("...") *)
| CCall (c : nat)                  (* c(), or a conversion to T (line 33) *)
| CDirect (ty : ctype) (t : bytes) (* stringCast<T>("...")() *).
(** update of a client variable, the string that the reference at StringCast.h:36 is bound to *)
Fixpoint cput {A} (l : list A) (i : nat) (x : A) : list A :=
  match l, i with
  | [], _ => []
  | _ :: l, O => x :: l
  | y :: l, S i => y :: cput l i x
  end.
(** the string [m_from] refers to, StringCast.h:36; undefined after its lifetime *)
Definition text_at (w : cworld) (i : nat) : outcome bytes :=
  match nth_error (texts w) i with Some (Some t) => Ok t | _ => UB end.
(** one client statement, StringCast.h:21-33 *)
Definition cstep (w : cworld) (o : cop) : outcome (cworld * option cvalue) :=
  match o with
  | SNew t => Ok (CWorld (texts w ++ [Some t]) (casts w), None)
  | SAssign i t => _ <- text_at w i ;; Ok (CWorld (cput (texts w) i (Some t)) (casts w), None)
  | SEnd i => _ <- text_at w i ;; Ok (CWorld (cput (texts w) i None) (casts w), None)
  | CNew ty i => _ <- text_at w i ;; Ok (CWorld (texts w) (casts w ++ [(ty, Some i)]), None)
  | CTemp ty t => Ok (CWorld (texts w) (casts w ++ [(ty, None)]), None)
  | CCall c =>
      match nth_error (casts w) c with
      | Some (ty, Some i) => t <- text_at w i ;; v <- cast ty t ;; Ok (w, Some v)
      | _ => UB
      end
  | CDirect ty t => v <- cast ty t ;; Ok (w, Some v)
  end.
(** a sequence of client statements, StringCast.h:21-33 *)
Fixpoint crun (w : cworld) (os : list cop) : outcome (cworld * list (option cvalue)) :=
  match os with
  | [] => Ok (w, [])
  | o :: os => ' (w, r) <- cstep w o ;; ' (w, rs) <- crun w os ;; Ok (w, r :: rs)
  end.
