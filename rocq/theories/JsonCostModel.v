(** Model of loadJSON (src/json/Json.cpp) with the two resources JsonModel.v leaves
    out: the call stack and the copies of JSONObject made on the way.

    The functions are those of JsonModel.v, with two additions.  [stk] is the number of
    nested calls of parse_next for which there is room on the stack; a call beyond
    that is stack exhaustion, undefined behaviour.  (Each of them brings at most
    two more frames: parse_array or parse_object and a leaf function, so a stack of b
    bytes has room for about b divided by the size of those frames.)  The last
    component of a result counts the JSONObject values assigned or constructed by
    copying; moves and the copies of strings are not counted. *)
From Verif Require Import Base DecModel JsonModel.
Local Open Scope nat_scope.

(** operator=(const JSONObject &) and JSONObject(const JSONObject &), Json.cpp:301-318,
    329-347: the object itself, then every element of a fresh std::map or std::deque,
    constructed from the element of the source *)
Fixpoint copied {F} (v : json F) : nat :=
  match v with
  | JArr l => S ((fix go l := match l with [] => 0 | v :: l => copied v + go l end) l)
  | JObj m => S ((fix go m := match m with [] => 0 | (_, v) :: m => copied v + go m end) m)
  | _ => 1
  end.

Section Parser.
Context {F : Type} (D : doubles F).
(** a leaf of the parser: parse_string, parse_bool, parse_null, parse_number
    (Json.cpp:88-219) build their result in place *)
Definition no_copy (m : outcome (json F * nat)) : outcome (json F * nat * nat) :=
  ' (v, off) <- m ;; Ok (v, off, 0).
(** parse_next, Json.cpp:221-242, with parse_object (19-57) and parse_array (58-86) as in
    JsonModel.v; results are returned by move (Json.cpp:252-256) or in place.
    [Object[Key.toString()] = Value], Json.cpp:39, is the copy assignment, since
    [Value] is a named variable; [Array[index++] = parse_next(...)], Json.cpp:70, is the
    move assignment (Json.cpp:320-327). *)
Fixpoint next_c (fuel stk : nat) (s : bytes) (off : nat) : outcome (json F * nat * nat) :=
  match fuel with
  | O => Fuel
  | S fuel =>
  match stk with
  | O => UB
  | S stk =>
      off <- skip_whitespaces s off ;;
      c <- at_ s off ;;
      if Ascii.eqb c "[" then
        off <- skip_whitespaces s (S off) ;;
        c <- at_ s off ;;
        if Ascii.eqb c "]" then Ok (JArr [], S off, 0) else arr_c fuel stk s off [] 0
      else if Ascii.eqb c "{" then
        off <- skip_whitespaces s (S off) ;;
        c <- at_ s off ;;
        if Ascii.eqb c "}" then Ok (JObj [], S off, 0) else obj_c fuel stk s off [] 0
      else if Ascii.eqb c DQ then no_copy (parse_string s off)
      else if Ascii.eqb c "t" || Ascii.eqb c "f" then no_copy (parse_bool s off)
      else if Ascii.eqb c "n" then no_copy (parse_null s off)
      else if is_digit c || Ascii.eqb c "-" then no_copy (parse_number D s off)
      else Err
  end
  end
with obj_c (fuel stk : nat) (s : bytes) (off : nat) (acc : list (bytes * json F)) (k : nat)
  : outcome (json F * nat * nat) :=
  match fuel with
  | O => Fuel
  | S fuel =>
      ' (key, off, k1) <- next_c fuel stk s off ;;
      off <- skip_whitespaces s off ;;
      c <- at_ s off ;;
      if Ascii.eqb c ":" then
        off <- skip_whitespaces s (S off) ;;
        ' (v, off, k2) <- next_c fuel stk s off ;;
        let acc := map_set acc (toString key) v in
        let k := k + k1 + k2 + copied v in
        off <- skip_whitespaces s off ;;
        c <- at_ s off ;;
        if Ascii.eqb c "," then obj_c fuel stk s (S off) acc k
        else if Ascii.eqb c "}" then Ok (JObj acc, S off, k)
        else Err
      else Err
  end
with arr_c (fuel stk : nat) (s : bytes) (off : nat) (acc : list (json F)) (k : nat)
  : outcome (json F * nat * nat) :=
  match fuel with
  | O => Fuel
  | S fuel =>
      ' (v, off, k1) <- next_c fuel stk s off ;;
      let acc := acc ++ [v] in
      let k := k + k1 in
      off <- skip_whitespaces s off ;;
      c <- at_ s off ;;
      if Ascii.eqb c "," then arr_c fuel stk s (S off) acc k
      else if Ascii.eqb c "]" then Ok (JArr acc, S off, k)
      else Err
  end.
(** loadJSON, Json.cpp:484-487, with room for [stk] nested calls: the value and the number
    of copies; the fuel is that of JsonModel.loadJSON *)
Definition load_c (stk : nat) (s : bytes) : outcome (json F * nat) :=
  ' (v, _, k) <- next_c (2 * length s + 3) stk s 0 ;; Ok (v, k).
End Parser.
