(** Model of JSONObject::dump, of copying and of destroying a JSONObject (src/json/Json.cpp)
    with the resources JsonModel.v leaves out: the call stack and the characters written.

    [stk] is the number of nested calls for which there is room on the stack (frames of
    the standard library in between count with the call they belong to); a call beyond
    that is stack exhaustion, undefined behaviour.  The number in a result counts the
    characters copied or appended into strings; what a string does when it outgrows its
    storage, and the work inside jsonEscape and std::to_string, are not counted. *)
From Verif Require Import Base DecModel JsonModel.
Local Open Scope nat_scope.

Section Dump.
Context {F : Type} (D : doubles F).
(** a string made by a leaf, Json.cpp:436, 460-466 *)
Definition leaf_c (w : nat) (s : bytes) : outcome (bytes * nat) := Ok (s, w + length s).
(** JSONObject::dump, Json.cpp:429-469: the parameter tab is a copy (429), pad is appended to
    depth times (430-432); a member (442) is built from a copy of pad, then appended to s;
    the last line (445) likewise; an element of an array (453) is appended to s.  The sum of two
    temporaries in line 442 appends the right one to the left one. *)
Fixpoint dump_c (stk depth : nat) (tab : bytes) (v : json F) : outcome (bytes * nat) :=
  match stk with
  | O => UB
  | S stk =>
      let p := pad depth tab in
      let w := length tab + length p in
      match v with
      | JNull => leaf_c w (str "null")
      | JObj m =>
          ' (s, w) <- (fix go (skip : bool) (m : list (bytes * json F)) (s : bytes) (w : nat) : outcome (bytes * nat) :=
             match m with
             | [] => Ok (s, w)
             | (k, v) :: m =>
                 let sep := if skip then [] else [","%char; LF] in
                 ' (t, w1) <- dump_c stk (S depth) tab v ;;
                 let line := p ++ [DQ] ++ k ++ [DQ; " "%char; ":"%char; " "%char] ++ t in
                 go false m (s ++ sep ++ line) (w + length sep + w1 + length line + length line)
             end) true m ["{"%char; LF] (w + 2) ;;
          let last := [LF] ++ skipn 2 p ++ ["}"%char] in
          Ok (s ++ last, w + length last + length last)
      | JArr l =>
          ' (s, w) <- (fix go (skip : bool) (l : list (json F)) (s : bytes) (w : nat) : outcome (bytes * nat) :=
             match l with
             | [] => Ok (s, w)
             | v :: l =>
                 let sep := if skip then [] else [","%char; " "%char] in
                 ' (t, w1) <- dump_c stk (S depth) tab v ;;
                 go false l (s ++ sep ++ t) (w + length sep + w1 + length t)
             end) true l ["["%char] (w + 1) ;;
          Ok (s ++ ["]"%char], w + 1)
      | JStr s => leaf_c w ([DQ] ++ jsonEscape s ++ [DQ])
      | JFlt f => leaf_c w (f_text D f)
      | JInt z => leaf_c w (to_string_Z z)
      | JBool b => leaf_c w (if b then str "true" else str "false")
      end
  end.
End Dump.

(** JSONObject(const JSONObject &), Json.cpp:301-318 (and operator=, 329-347): every element
    of the new std::map or std::deque is made by the same constructor *)
Fixpoint copy_c {F} (stk : nat) (v : json F) : outcome (json F) :=
  match stk with
  | O => UB
  | S stk =>
      match v with
      | JArr l =>
          omap JArr ((fix go (l : list (json F)) : outcome (list (json F)) :=
             match l with [] => Ok [] | v :: l => v <- copy_c stk v ;; l <- go l ;; Ok (v :: l) end) l)
      | JObj m =>
          omap JObj ((fix go (m : list (bytes * json F)) : outcome (list (bytes * json F)) :=
             match m with [] => Ok [] | (k, v) :: m => v <- copy_c stk v ;; m <- go m ;; Ok ((k, v) :: m) end) m)
      | v => Ok v
      end
  end.
(** ~JSONObject, Json.cpp:258, 288-299: deleting the map or deque destroys every element *)
Fixpoint destroy_c {F} (stk : nat) (v : json F) : outcome unit :=
  match stk with
  | O => UB
  | S stk =>
      match v with
      | JArr l =>
          (fix go (l : list (json F)) : outcome unit :=
             match l with [] => Ok tt | v :: l => _ <- destroy_c stk v ;; go l end) l
      | JObj m =>
          (fix go (m : list (bytes * json F)) : outcome unit :=
             match m with [] => Ok tt | (_, v) :: m => _ <- destroy_c stk v ;; go m end) m
      | _ => Ok tt
      end
  end.
