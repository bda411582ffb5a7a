(** Model of src/json/json_functions.cpp and src/json/Json.cpp: escaping, the
    recursive-descent parser and [dump].

    Values are modelled as trees (how they are stored, copied and destroyed is the
    subject of JsonHeapModel.v).  A [std::map] is its association list in iteration
    order, i.e. with strictly increasing keys.  [double] is an arbitrary type [F]
    with the three library operations the code applies to it.  [isspace] is taken
    in the "C" locale, where no byte >= 128 is a space.  The recursion depth of
    the parser (stack size) is not limited; [size_t] offsets do not wrap. *)
From Verif Require Import Base DecModel.
Local Open Scope nat_scope.

(** operations on [double]: [f_text] is std::to_string(double) (Json.cpp:462),
    [f_read] is [stream >> double] (StringCast.h:22-32), [f_scale x e] is
    [x * std::pow(10, e)] (Json.cpp:191-193) *)
Record doubles (F : Type) := Doubles { f_text : F -> bytes; f_read : bytes -> F; f_scale : F -> Z -> F }.
Arguments f_text {F}. Arguments f_read {F}. Arguments f_scale {F}. Arguments Doubles {F}.

(** class JSONObject: objType and Data, Json.h:62-79, 563 *)
Inductive json (F : Type) :=
| JNull | JBool (b : bool) | JInt (z : Z) | JFlt (f : F) | JStr (s : bytes)
| JArr (l : list (json F)) | JObj (m : list (bytes * json F)).
Arguments JNull {F}. Arguments JBool {F}. Arguments JInt {F}. Arguments JFlt {F}. Arguments JStr {F}.
Arguments JArr {F}. Arguments JObj {F}.

(** the character of json_functions.cpp:7-32 *)
Definition BS : ascii := "008"%char.   (* '\b' *)
(** the character of json_functions.cpp:7-32 *)
Definition HT : ascii := "009"%char.   (* '\t' *)
(** the character of json_functions.cpp:7-32 *)
Definition LF : ascii := "010"%char.   (* '\n' *)
(** the character of json_functions.cpp:7-32 *)
Definition FF : ascii := "012"%char.   (* '\f' *)
(** the character of json_functions.cpp:7-32 *)
Definition CR : ascii := "013"%char.   (* '\r' *)
(** the character of json_functions.cpp:7-32 *)
Definition DQ : ascii := "034"%char.   (* the double quote *)
(** the character of json_functions.cpp:7-32 *)
Definition BSL : ascii := "092"%char.  (* the backslash *)

(** one step of the switch in jsonEscape, json_functions.cpp:7-32 *)
Definition escape1 (c : ascii) : bytes :=
  if Ascii.eqb c DQ then [BSL; DQ]
  else if Ascii.eqb c BSL then [BSL; BSL]
  else if Ascii.eqb c BS then [BSL; "b"%char]
  else if Ascii.eqb c FF then [BSL; "f"%char]
  else if Ascii.eqb c LF then [BSL; "n"%char]
  else if Ascii.eqb c CR then [BSL; "r"%char]
  else if Ascii.eqb c HT then [BSL; "t"%char]
  else [c].
(** jsonEscape, json_functions.cpp:5-34 *)
Fixpoint jsonEscape (s : bytes) : bytes :=
  match s with [] => [] | c :: s => escape1 c ++ jsonEscape s end.

(** [str[i]] of a std::string: the byte, NUL at the end, UB behind it *)
Definition at_ (s : bytes) (i : nat) : outcome ascii :=
  match nth_error s i with
  | Some c => Ok c
  | None => if i =? length s then Ok NUL else UB
  end.
(** isspace in the "C" locale; Json.cpp:16, 176, 185 *)
Definition isspace (c : ascii) : bool :=
  ((9 <=? byteZ c)%Z && (byteZ c <=? 13)%Z) || (byteZ c =? 32)%Z.
(** skip_whitespaces, Json.cpp:15-17 *)
Fixpoint skip_ws (fuel : nat) (s : bytes) (off : nat) : outcome nat :=
  match fuel with
  | O => Fuel
  | S fuel => c <- at_ s off ;; if isspace c then skip_ws fuel s (S off) else Ok off
  end.
(** skip_whitespaces, Json.cpp:15-17 *)
Definition skip_whitespaces (s : bytes) (off : nat) : outcome nat := skip_ws (length s + 2) s off.

(** the escape characters, Json.cpp:93-117 and 133-135 *)
Definition unescape (c : ascii) : ascii :=
  if Ascii.eqb c DQ then DQ
  else if Ascii.eqb c BSL then BSL
  else if Ascii.eqb c "/" then "/"%char
  else if Ascii.eqb c "b" then BS
  else if Ascii.eqb c "f" then FF
  else if Ascii.eqb c "n" then LF
  else if Ascii.eqb c "r" then CR
  else if Ascii.eqb c "t" then HT
  else BSL.
(** hexadecimal digit, Json.cpp:122-123 *)
Definition ishex (c : ascii) : bool :=
  let v := byteZ c in
  ((48 <=? v)%Z && (v <=? 57)%Z) || ((97 <=? v)%Z && (v <=? 102)%Z) || ((65 <=? v)%Z && (v <=? 70)%Z).
(** the loop of Json.cpp:120-130: [n] more characters from offset [i] *)
Fixpoint hex_loop (n : nat) (s : bytes) (i : nat) (val : bytes) : outcome bytes :=
  match n with
  | O => Ok val
  | S n => c <- at_ s i ;; if ishex c then hex_loop n s (S i) (val ++ [c]) else Err
  end.
(** the loop of parse_string, Json.cpp:91-140; [off] is the offset of [c] *)
Fixpoint str_loop (fuel : nat) (s : bytes) (off : nat) (val : bytes) : outcome (bytes * nat) :=
  match fuel with
  | O => Fuel
  | S fuel =>
      c <- at_ s off ;;
      if Ascii.eqb c DQ then Ok (val, S off)
      else if Ascii.eqb c BSL then
        e <- at_ s (S off) ;;
        if Ascii.eqb e "u" then
          val <- hex_loop 4 s (S (S off)) (val ++ [BSL; "u"%char]) ;;
          str_loop fuel s (off + 6) val
        else str_loop fuel s (S (S off)) (val ++ [unescape e])
      else str_loop fuel s (S off) (val ++ [c])
  end.
(** parse_string, Json.cpp:88-144 *)
Definition parse_string {F} (s : bytes) (off : nat) : outcome (json F * nat) :=
  ' (val, off) <- str_loop (length s + 2) s (S off) [] ;;
  Ok (JStr val, off).

(** the loop of Json.cpp:152-162; returns val, isDouble, c, offset *)
Fixpoint num_loop (fuel : nat) (s : bytes) (off : nat) (val : bytes) (dbl : bool)
  : outcome (bytes * bool * ascii * nat) :=
  match fuel with
  | O => Fuel
  | S fuel =>
      c <- at_ s off ;;
      if Ascii.eqb c "-" || is_digit c then num_loop fuel s (S off) (val ++ [c]) dbl
      else if Ascii.eqb c "." then num_loop fuel s (S off) (val ++ [c]) true
      else Ok (val, dbl, c, S off)
  end.
(** characters allowed behind a number, Json.cpp:176, 185 *)
Definition delimiter (c : ascii) : bool :=
  isspace c || Ascii.eqb c "," || Ascii.eqb c "]" || Ascii.eqb c "}" || Ascii.eqb c NUL.
(** the loop of Json.cpp:171-183; returns exp_str, c, offset *)
Fixpoint exp_loop (fuel : nat) (s : bytes) (off : nat) (es : bytes) : outcome (bytes * ascii * nat) :=
  match fuel with
  | O => Fuel
  | S fuel =>
      c <- at_ s off ;;
      if is_digit c then exp_loop fuel s (S off) (es ++ [c])
      else if delimiter c then Ok (es, c, off)
      else Err
  end.
(** [stream >> int] for text made of '-', '.' and digits: optional sign, longest
    run of digits; 0 if there is none; saturates at the int range (C++11
    [num_get]), StringCast.h:22-32 *)
Fixpoint digit_prefix (s : bytes) : bytes :=
  match s with c :: t => if is_digit c then c :: digit_prefix t else [] | [] => [] end.
(** saturation of std number extraction, StringCast.h:22-32 *)
Definition clamp32 (z : Z) : Z := Z.max int32_min (Z.min int32_max z).
(** the number extracted, StringCast.h:22-32, before saturation *)
Definition scan_Z (s : bytes) : Z :=
  match s with
  | c :: t => if Ascii.eqb c "-" then (- dec_value (digit_prefix t))%Z else dec_value (digit_prefix s)
  | [] => 0%Z
  end.
(** [stringCast<int>(val)], Json.cpp:195 *)
Definition scan_int (s : bytes) : Z := clamp32 (scan_Z s).
(** [exp = stringCast<double>(exp_str)], Json.cpp:184: the text is an optional '-'
    and digits; converting a double outside the range of int is UB *)
Definition exp_value (es : bytes) : outcome Z := chk32 (scan_Z es).
(** parse_number, Json.cpp:146-197 *)
Definition parse_number {F} (D : doubles F) (s : bytes) (off : nat) : outcome (json F * nat) :=
  ' (val, dbl, c, off) <- num_loop (length s + 2) s off [] false ;;
  ' (es, exp, c, off) <-
    (if Ascii.eqb c "E" || Ascii.eqb c "e" then
       if off =? length s then Err
       else
         c <- at_ s off ;;
         ' (es, c, off) <- exp_loop (length s + 2) s (S off) (if Ascii.eqb c "-" then ["-"%char] else []) ;;
         exp <- exp_value es ;;
         Ok (es, exp, c, off)
     else if delimiter c then Ok ([], 0%Z, c, off) else Err) ;;
  let off := if Ascii.eqb c NUL then off else off - 1 in
  Ok (match dbl, es with
      | false, [] => JInt (scan_int val)
      | _, _ => JFlt (f_scale D (f_read D val) exp)
      end, off).

(** [str.substr(off, n)]; Json.cpp:201, 203, 215 *)
Definition substr (s : bytes) (off n : nat) : bytes := firstn n (skipn off s).
(** comparison of strings, Json.cpp:201, 203, 215 *)
Definition beq (a b : bytes) : bool := if list_eq_dec Ascii.ascii_dec a b then true else false.
(** parse_bool, Json.cpp:199-211 *)
Definition parse_bool {F} (s : bytes) (off : nat) : outcome (json F * nat) :=
  if beq (substr s off 4) (str "true") then Ok (JBool true, off + 4)
  else if beq (substr s off 5) (str "false") then Ok (JBool false, off + 5)
  else Err.
(** parse_null, Json.cpp:213-219 *)
Definition parse_null {F} (s : bytes) (off : nat) : outcome (json F * nat) :=
  if beq (substr s off 4) (str "null") then Ok (JNull, off + 4) else Err.

(** std::less<std::string>: lexicographic on unsigned bytes *)
Fixpoint bless (a b : bytes) : bool :=
  match a, b with
  | _, [] => false
  | [], _ :: _ => true
  | x :: a, y :: b => if (byteZ x <? byteZ y)%Z then true else if (byteZ y <? byteZ x)%Z then false else bless a b
  end.
(** [map[key] = value] on the sorted entries of a std::map, Json.cpp:39, 361-364 *)
Fixpoint map_set {V} (m : list (bytes * V)) (k : bytes) (v : V) : list (bytes * V) :=
  match m with
  | [] => [(k, v)]
  | (k', v') :: m => if bless k k' then (k, v) :: (k', v') :: m
                     else if bless k' k then (k', v') :: map_set m k v
                     else (k', v) :: m
  end.
(** JSONObject::toString, Json.cpp:399-401 *)
Definition toString {F} (v : json F) : bytes := match v with JStr s => jsonEscape s | _ => [] end.

Section Parser.
Context {F : Type} (D : doubles F).
(** parse_next, Json.cpp:221-242; the loop of parse_object, Json.cpp:29-53 (with the
    start 20-27 in [parse_next]); the loop of parse_array, Json.cpp:69-83 (start
    59-67).  [Array[index++] = v] appends. *)
Fixpoint parse_next (fuel : nat) (s : bytes) (off : nat) : outcome (json F * nat) :=
  match fuel with
  | O => Fuel
  | S fuel =>
      off <- skip_whitespaces s off ;;
      c <- at_ s off ;;
      if Ascii.eqb c "[" then
        off <- skip_whitespaces s (S off) ;;
        c <- at_ s off ;;
        if Ascii.eqb c "]" then Ok (JArr [], S off) else arr_loop fuel s off []
      else if Ascii.eqb c "{" then
        off <- skip_whitespaces s (S off) ;;
        c <- at_ s off ;;
        if Ascii.eqb c "}" then Ok (JObj [], S off) else obj_loop fuel s off []
      else if Ascii.eqb c DQ then parse_string s off
      else if Ascii.eqb c "t" || Ascii.eqb c "f" then parse_bool s off
      else if Ascii.eqb c "n" then parse_null s off
      else if is_digit c || Ascii.eqb c "-" then parse_number D s off
      else Err
  end
with obj_loop (fuel : nat) (s : bytes) (off : nat) (acc : list (bytes * json F)) : outcome (json F * nat) :=
  match fuel with
  | O => Fuel
  | S fuel =>
      ' (key, off) <- parse_next fuel s off ;;
      off <- skip_whitespaces s off ;;
      c <- at_ s off ;;
      if Ascii.eqb c ":" then
        off <- skip_whitespaces s (S off) ;;
        ' (v, off) <- parse_next fuel s off ;;
        let acc := map_set acc (toString key) v in
        off <- skip_whitespaces s off ;;
        c <- at_ s off ;;
        if Ascii.eqb c "," then obj_loop fuel s (S off) acc
        else if Ascii.eqb c "}" then Ok (JObj acc, S off)
        else Err
      else Err
  end
with arr_loop (fuel : nat) (s : bytes) (off : nat) (acc : list (json F)) : outcome (json F * nat) :=
  match fuel with
  | O => Fuel
  | S fuel =>
      ' (v, off) <- parse_next fuel s off ;;
      let acc := acc ++ [v] in
      off <- skip_whitespaces s off ;;
      c <- at_ s off ;;
      if Ascii.eqb c "," then arr_loop fuel s (S off) acc
      else if Ascii.eqb c "]" then Ok (JArr acc, S off)
      else Err
  end.
(** loadJSON, Json.cpp:484-487; the fuel is shown to suffice for every text *)
Definition loadJSON (s : bytes) : outcome (json F) :=
  omap fst (parse_next (2 * length s + 3) s 0).

(** [for (int i = 0; i < depth; ++i, pad += tab)], Json.cpp:430-432 *)
Fixpoint pad (depth : nat) (tab : bytes) : bytes :=
  match depth with O => [] | S d => pad d tab ++ tab end.
(** JSONObject::dump, Json.cpp:429-469 ([depth] >= 0) *)
Fixpoint dump (depth : nat) (tab : bytes) (v : json F) : bytes :=
  match v with
  | JNull => str "null"
  | JObj m =>
      ["{"%char; LF] ++
      (fix go (skip : bool) (m : list (bytes * json F)) : bytes :=
         match m with
         | [] => []
         | (k, v) :: m =>
             (if skip then [] else [","%char; LF]) ++
             pad depth tab ++ [DQ] ++ k ++ [DQ; " "%char; ":"%char; " "%char] ++ dump (S depth) tab v ++ go false m
         end) true m ++
      [LF] ++ skipn 2 (pad depth tab) ++ ["}"%char]
  | JArr l =>
      ["["%char] ++
      (fix go (skip : bool) (l : list (json F)) : bytes :=
         match l with
         | [] => []
         | v :: l => (if skip then [] else [","%char; " "%char]) ++ dump (S depth) tab v ++ go false l
         end) true l ++
      ["]"%char]
  | JStr s => [DQ] ++ jsonEscape s ++ [DQ]
  | JFlt f => f_text D f
  | JInt z => to_string_Z z
  | JBool b => if b then str "true" else str "false"
  end.
End Parser.
