(** src/string_utils/Trie.cpp once more, counting the work: the same functions as in
    TrieModel, returning beside the result the number of accesses to the arrays [base]
    and [check] (calls of [get], [getWithCheck] and [set], Trie.h:22-35) and the number of
    characters copied (strings returned by value by the array [tail], [substr], strings
    passed to [tail.set], [str + endChar]).  Characters compared are not counted: every
    comparison is of characters copied just before.  Growth of the arrays is the subject of
    C118.  TrieCostProofs shows that forgetting the counters gives back TrieModel. *)
From Verif Require Import Base TrieModel.
Local Open Scope Z_scope.

(** a result with the accesses and the characters copied; bookkeeping for Trie.cpp:64-290 *)
Definition counted (A : Type) : Type := outcome (A * (Z * Z)).
(** no access, no copy; bookkeeping for Trie.cpp:64-290 *)
Definition free {A} (m : outcome A) : counted A := x <- m ;; Ok (x, (0, 0)).
(** one access of [base] or [check], Trie.h:22-35 *)
Definition one {A} (m : outcome A) : counted A := x <- m ;; Ok (x, (1, 0)).
(** a string made or returned by value, Trie.h:22-35, [std::string::substr] *)
Definition made (m : outcome bytes) : counted bytes := x <- m ;; Ok (x, (0, Z.of_nat (length x))).
(** an access that stores a string of the given length, Trie.h:29-35 *)
Definition stored {A} (s : bytes) (m : outcome A) : counted A := x <- m ;; Ok (x, (0, Z.of_nat (length s))).
(** one thing after the other; bookkeeping for Trie.cpp:64-290 *)
Definition andthen {A B} (m : counted A) (k : A -> counted B) : counted B :=
  '(a, (x, y)) <- m ;; '(b, (x', y')) <- k a ;; Ok (b, (x + x', y + y')).
Notation "x <~ m ;; k" := (andthen m (fun x => k)) (at level 61, m at next level, right associativity).
(** a result without work; bookkeeping for Trie.cpp:64-290 *)
Definition ret {A} (a : A) : counted A := Ok (a, (0, 0)).

Section Maps.
Context (smap omap : ascii -> outcome Z).

(** Trie.cpp:64-77, [retrieve] *)
Fixpoint retrieve_loopC (t : trie) (n : Z) (l : bytes) : counted bool :=
  match l with
  | [] => ret true
  | ch :: rest =>
      i <~ free (smap ch) ;;
      bn <~ one (iget (base t) n) ;;
      let next := bn + i in
      c <~ one (igetc (check t) next) ;;
      if negb (c =? n) then ret false
      else
        b <~ one (igetc (base t) next) ;;
        if b <? -1 then
          match rest with
          | [] => ret true
          | _ => b' <~ one (iget (base t) next) ;; s <~ made (tgetc (tail t) (- b' - 2)) ;;
                 r <~ made (Ok rest) ;;
                 ret (if list_eq_dec ascii_dec s r then true else false)
          end
        else retrieve_loopC t next rest
  end.

(** Trie.cpp:231-243, the inner loop of [checkAvailable] *)
Fixpoint all_freeC (c : list Z) (q : Z) (l : list Z) : counted bool :=
  match l with
  | [] => ret true
  | j :: l => v <~ one (igetc c (q + j)) ;; if v =? -1 then all_freeC c q l else ret false
  end.
(** Trie.cpp:231-256, the search loops of [checkAvailable] *)
Fixpoint avail_loopC (fuel : nat) (c : list Z) (q : Z) (l : list Z) : counted Z :=
  match fuel with
  | O => Fuel
  | S f => ok <~ all_freeC c q l ;; if ok : bool then ret q else avail_loopC f c (q + 1) l
  end.
(** Trie.cpp:231-256, the three versions of [checkAvailable] *)
Definition checkAvailableC (t : trie) (l : list Z) : counted Z :=
  avail_loopC (S (length (check t))) (check t) 0 l.

(** Trie.cpp:258-265, the loop of [outArcs] *)
Fixpoint arcs_loopC (k : nat) (t : trie) (n bn i : Z) : counted (list Z) :=
  match k with
  | O => ret []
  | S k => c <~ one (igetc (check t) (bn + i)) ;;
           r <~ arcs_loopC k t n bn (i + 1) ;;
           ret (if c =? n then i :: r else r)
  end.
(** Trie.cpp:258-265, [outArcs] *)
Definition outArcsC (t : trie) (n : Z) : counted (list Z) :=
  bn <~ one (iget (base t) n) ;; arcs_loopC 27 t n bn 1.

(** Trie.cpp:267-272, [setTail] *)
Definition setTailC (t : trie) (n next : Z) (rest : bytes) : counted trie :=
  let '(t, p) := nextTail t in
  t <~ stored rest (sett t p rest) ;; t <~ one (setb t next (- p - 2)) ;; one (setc t next n).

(** Trie.cpp:124-129: the chain of new nodes for the common prefix *)
Fixpoint chain_loopC (t : trie) (next : Z) (prefix : bytes) : counted (trie * Z) :=
  match prefix with
  | [] => ret (t, next)
  | ch :: prefix =>
      j <~ free (smap ch) ;;
      available <~ checkAvailableC t [j] ;;
      t <~ one (setb t next available) ;;
      t <~ one (setc t (available + j) next) ;;
      b <~ one (iget (base t) next) ;;
      chain_loopC t (b + j) prefix
  end.
(** Trie.cpp:119-152: [next] is a leaf with a tail *)
Definition split_leafC (t : trie) (next : Z) (rest : bytes) : counted trie :=
  b <~ one (iget (base t) next) ;;
  let temp := - b - 2 in
  tail_temp <~ made (aget (tail t) temp) ;;
  rest <~ made (Ok rest) ;;
  prefix <~ made (Ok (commonPrefix rest tail_temp)) ;;
  tn <~ chain_loopC t next prefix ;;
  let '(t, next) := tn in
  ct <~ free (char_at tail_temp (length prefix)) ;;
  char_val_tail <~ free (omap ct) ;;
  cn <~ free (char_at rest (length prefix)) ;;
  char_val_new <~ free (omap cn) ;;
  q <~ checkAvailableC t [char_val_tail; char_val_new] ;;
  t <~ one (setb t next q) ;;
  t <~ (if Ascii.eqb ct endChar then
          t <~ one (setb t (q + char_val_tail) (-1)) ;;
          ret (Trie (base t) (check t) (tail t) (pos t) (tailList t ++ [temp]) (size t))
        else
          t <~ one (setb t (q + char_val_tail) (- temp - 2)) ;;
          s <~ made (Ok (skipn (S (length prefix)) tail_temp)) ;;
          stored s (sett t temp s)) ;;
  t <~ one (setc t (q + char_val_tail) next) ;;
  t <~ (if Ascii.eqb cn endChar then one (setb t (q + char_val_new) (-1))
        else let '(t, p) := nextTail t in
             t <~ one (setb t (q + char_val_new) (- p - 2)) ;;
             s <~ made (Ok (skipn (S (length prefix)) rest)) ;;
             stored s (sett t p s)) ;;
  one (setc t (q + char_val_new) next).

(** Trie.cpp:186-188: reparent the grandchildren *)
Fixpoint reparent_loopC (t : trie) (node_old node_new : Z) (l : list Z) : counted trie :=
  match l with
  | [] => ret t
  | k :: l => b <~ one (iget (base t) node_old) ;; t <~ one (setc t (b + k) node_new) ;;
              reparent_loopC t node_old node_new l
  end.
(** Trie.cpp:176-192: move the children *)
Fixpoint move_loopC (t : trie) (temp_base new_base node_other : Z) (l : list Z) : counted (trie * Z) :=
  match l with
  | [] => ret (t, node_other)
  | j :: l =>
      let node_old := temp_base + j in
      let node_new := new_base + j in
      let node_other := if node_old =? node_other then node_new else node_other in
      b <~ one (iget (base t) node_old) ;;
      t <~ one (setb t node_new b) ;;
      c <~ one (iget (check t) node_old) ;;
      t <~ one (setc t node_new c) ;;
      b <~ one (iget (base t) node_old) ;;
      t <~ (if b >? -1 then list <~ outArcsC t node_old ;; reparent_loopC t node_old node_new list
            else ret t) ;;
      t <~ one (setb t node_old (-1)) ;;
      t <~ one (setc t node_old (-1)) ;;
      move_loopC t temp_base new_base node_other l
  end.
(** Trie.cpp:155-202: the slot of [next] is taken by a child of another node; [check.get(next)]
    is read once more (line 169) when that node is moved *)
Definition resolve_conflictC (t : trie) (n next i : Z) (rest : bytes) : counted trie :=
  list_n <~ outArcsC t n ;;
  m <~ one (iget (check t) next) ;;
  list_check <~ outArcsC t m ;;
  nmb <~ (if Nat.ltb (length list_n + 1) (length list_check) then
            nb <~ checkAvailableC t (list_n ++ [i]) ;; ret (n, list_n, nb)
          else m <~ one (iget (check t) next) ;; nb <~ checkAvailableC t list_check ;; ret (m, list_check, nb)) ;;
  let '(node_modify, modify_list, new_base) := nmb in
  temp_base <~ one (iget (base t) node_modify) ;;
  t <~ one (setb t node_modify new_base) ;;
  tn <~ move_loopC t temp_base new_base n modify_list ;;
  let '(t, node_other) := tn in
  b <~ one (iget (base t) node_other) ;;
  let temp_node := b + i in
  t <~ (if i =? 1 then one (setb t temp_node (-1))
        else let '(t, p) := nextTail t in
             t <~ one (setb t temp_node (- p - 2)) ;; s <~ made (Ok rest) ;; stored s (sett t p s)) ;;
  one (setc t temp_node node_other).

(** Trie.cpp:108-207, [insert_]; a node passed is read at lines 114, 115, 118 (twice) and 154 *)
Fixpoint insert_loopC (t : trie) (n : Z) (l : bytes) : counted trie :=
  match l with
  | [] => ret t
  | ch :: rest =>
      i <~ free (smap ch) ;;
      bn <~ one (iget (base t) n) ;;
      let next := bn + i in
      c <~ one (igetc (check t) next) ;;
      if c =? -1 then s <~ made (Ok rest) ;; setTailC t n next s
      else
        c <~ one (iget (check t) next) ;;
        if c =? n then
          b <~ one (iget (base t) next) ;;
          if b <? -1 then split_leafC t next rest
          else c <~ one (iget (check t) next) ;; insert_loopC t next rest
        else c <~ one (iget (check t) next) ;; resolve_conflictC t n next i rest
  end.

(** Trie.cpp:209-229, [remove_] *)
Fixpoint remove_loopC (t : trie) (n : Z) (l : bytes) : counted (trie * bool) :=
  match l with
  | [] => t <~ one (setc t n (-1)) ;; ret (t, true)
  | ch :: rest =>
      i <~ free (smap ch) ;;
      bn <~ one (iget (base t) n) ;;
      let next := bn + i in
      c <~ one (iget (check t) next) ;;
      if negb (c =? n) then ret (t, false)
      else
        b <~ one (iget (base t) next) ;;
        if b <? -1 then
          b <~ one (iget (base t) next) ;;
          s <~ made (tgetc (tail t) (- b - 2)) ;;
          r <~ made (Ok rest) ;;
          if list_eq_dec ascii_dec s r then
            t <~ one (setb t next (-1)) ;; t <~ one (setc t next (-1)) ;; ret (t, true)
          else ret (t, false)
        else remove_loopC t next rest
  end.

(** Trie.cpp:287, [contain] *)
Definition containC (t : trie) (s : bytes) : counted bool :=
  w <~ made (Ok (s ++ [endChar])) ;; retrieve_loopC t 0 w.
(** Trie.cpp:282-286, [insert] *)
Definition insertC (t : trie) (s : bytes) : counted trie :=
  c <~ containC t s ;;
  if c : bool then ret t
  else w <~ made (Ok (s ++ [endChar])) ;; t <~ insert_loopC t 0 w ;; ret (with_size t (size t + 1)).
(** Trie.cpp:288-290, [remove] *)
Definition removeC (t : trie) (s : bytes) : counted trie :=
  w <~ made (Ok (s ++ [endChar])) ;;
  tr <~ remove_loopC t 0 w ;;
  let '(t, r) := tr in
  ret (if r : bool then with_size t (size t - 1) else t).
End Maps.
