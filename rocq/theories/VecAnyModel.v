(** Model of the stream operators of Vector for element types other than int:
    src/include/containers/Vector.h:389-430 at int, char, std::string and vectors of
    these nested to any depth.  Streams are those of VecIOModel. *)
From Verif Require Import Base DecModel ContModel VecIOModel.
Local Open Scope Z_scope.

(** the element types (template parameter ValueType, Vector.h:389, 403) *)
Inductive elt := EInt | EChar | EStr | EVec (t : elt).
(** their values; Vector.h:389, 403 *)
Fixpoint val (t : elt) : Type :=
  match t with
  | EInt => Z
  | EChar => ascii
  | EStr => bytes
  | EVec t => list (val t)
  end.

(** std: the characters in front up to white space *)
Fixpoint word (r : bytes) : bytes :=
  match r with
  | c :: t => if is_space c then [] else c :: word t
  | [] => []
  end.
(** std: [is >> value] for a fresh std::string: skips white space, then takes characters
    up to the next white space; eofbit if the end is reached.  (The limits width() and
    max_size() are not modelled.) *)
Definition get_word (s : stream) : stream * bytes :=
  let (s, ok) := sentry s in
  if ok then
    let w := word (rest s) in
    let r := skipn (length w) (rest s) in
    (Stream (rev w ++ before s) r (match r with [] => true | _ => false end) (fail s), w)
  else (s, []).

(** operator>>, Vector.h:403-430, for elements read by [g]; [g n s] reads the element of
    the n-th iteration and may itself stop the program *)
Section Read.
Context {A : Type} (g : nat -> stream -> outcome (stream * A)) (gc : ascii).
(** the loop; Vector.h:414-427 *)
Fixpoint loop_of (fuel n : nat) (s : stream) (ch : ascii) (v : list A) : outcome (stream * list A) :=
  match fuel with
  | O => Fuel
  | S fuel =>
      ' (s, value) <- g n s ;;
      let v := seq_push v value in
      let (s, ch) := get_char s ch in
      if eof s then Err
      else if Ascii.eqb ch "}" then Ok (s, v)
      else if negb (Ascii.eqb ch ",") then Err
      else loop_of fuel (S n) s ch v
  end.
(** operator>>; Vector.h:403-430 *)
Definition read_of (fuel : nat) (s : stream) : outcome (stream * list A) :=
  let (s, ch) := get_char s gc in
  if negb (Ascii.eqb ch "{") then Err
  else
    let (s, ch) := get_char s ch in
    if negb (Ascii.eqb ch "}") then loop_of fuel 0 (unget s) ch []
    else Ok (s, []).
End Read.

(** [is >> value], Vector.h:415-416, at each element type.  [gi n] and [gch n] are the
    contents of an uninitialised [value] (line 415) of type int and char in the n-th
    iteration, [gc] that of [ch] (line 405); they may be anything (simplification: the
    same in every nested vector).  The same fuel bounds every loop. *)
Fixpoint get (gi : nat -> Z) (gch : nat -> ascii) (gc : ascii) (fuel : nat) (t : elt) (n : nat) (s : stream) : outcome (stream * val t) :=
  match t with
  | EInt => Ok (get_int s (gi n))
  | EChar => Ok (get_char s (gch n))
  | EStr => Ok (get_word s)
  | EVec t => read_of (get gi gch gc fuel t) gc fuel s
  end.

(** std: printing each element of a range followed by ", " (ostream_iterator), Vector.h:398-399 *)
Fixpoint show_all {A} (sh : A -> outcome bytes) (l : list A) : outcome bytes :=
  match l with
  | [] => Ok []
  | x :: l => a <- sh x ;; b <- show_all sh l ;; Ok (a ++ str ", " ++ b)
  end.
(** operator<<; Vector.h:389-401 *)
Definition print_of {A} (sh : A -> outcome bytes) (v : list A) : outcome bytes :=
  if size_int v =? 0 then Ok (str "{}")
  else if size_int v =? 1 then
    x <- seq_last v ;; a <- sh x ;; Ok ("{"%char :: a ++ ["}"%char])
  else
    ss <- show_all sh (removelast v) ;;
    x <- seq_last v ;; a <- sh x ;; Ok ("{"%char :: ss ++ a ++ ["}"%char]).
(** [os << value] at each element type; Vector.h:395, 398-400 *)
Fixpoint show (t : elt) : val t -> outcome bytes :=
  match t with
  | EInt => fun z => Ok (to_string_Z z)
  | EChar => fun c => Ok [c]
  | EStr => fun s => Ok s
  | EVec t => print_of (show t)
  end.
