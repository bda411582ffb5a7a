(** Model of src/string_utils/Trie.cpp and src/include/string_utils/Trie.h.
    Indices are mathematical integers ([int] overflow, which needs arrays of 2^31
    cells, is not modelled); [std::string] is a list of bytes. *)
From Verif Require Import Base.
Local Open Scope Z_scope.

(** Trie.h:15-43, [AutoArray]; [vec.size() = size_] always.  [vec[pos]] outside the
    vector is UB. *)
Section AutoArray.
Context {A : Type} (init : Z) (dflt : A).
(** Trie.h:18-21 *)
Definition anew : list A := repeat dflt (Z.to_nat init).
(** Trie.h:22 *)
Definition get (a : list A) (pos : Z) : outcome A := aget a pos.
(** Trie.h:24-27 *)
Definition getWithCheck (a : list A) (pos : Z) : outcome A :=
  if pos <? Z.of_nat (length a) then aget a pos else Ok dflt.
(** Trie.h:29-35 *)
Definition set (a : list A) (pos : Z) (v : A) : outcome (list A) :=
  let a := if Z.of_nat (length a) <=? pos
           then a ++ repeat dflt (Z.to_nat (pos + 1 + init - Z.of_nat (length a))) else a in
  aset a pos v.
End AutoArray.

(** instances used at Trie.h:133-135 *)
Definition iget (a : list Z) (pos : Z) : outcome Z := get a pos.
(** getWithCheck, Trie.h:24-27, for base and check *)
Definition igetc (a : list Z) (pos : Z) : outcome Z := getWithCheck (-1) a pos.
(** set, Trie.h:29-35, for base and check *)
Definition iset (a : list Z) (pos v : Z) : outcome (list Z) := set 26 (-1) a pos v.
(** getWithCheck, Trie.h:24-27, for tail *)
Definition tgetc (a : list bytes) (pos : Z) : outcome bytes := getWithCheck [] a pos.
(** set, Trie.h:29-35, for tail *)
Definition tset (a : list bytes) (pos : Z) (v : bytes) : outcome (list bytes) := set 0 [] a pos v.

(** Trie.h:137, [endChar] *)
Definition endChar : ascii := ascii_of_nat 1.

(** Trie.cpp:10-14, the default [mapChar]; char is signed *)
Definition mapChar (ch : ascii) : outcome Z :=
  if Ascii.eqb ch endChar then Ok 1
  else if (charZ ch <? 97) || (122 <? charZ ch) then Err
  else Ok (charZ ch - 97 + 2).
(** Trie.cpp:16-19, the default [mapInt]; the conversion to char is modular *)
Definition mapInt (n : Z) : ascii :=
  if n =? 1 then endChar else ascii_of_N (Z.to_N ((n - 2 + 97) mod 256)).

(** Trie.h:133-141, the data members (without the function pointers) *)
Record trie := Trie {
  base : list Z; check : list Z; tail : list bytes; pos : Z; tailList : list Z; size : Z }.
(** assignment to base, Trie.h:133-141 *)
Definition with_base t x := Trie x (check t) (tail t) (pos t) (tailList t) (size t).
(** assignment to check, Trie.h:133-141 *)
Definition with_check t x := Trie (base t) x (tail t) (pos t) (tailList t) (size t).
(** assignment to tail, Trie.h:133-141 *)
Definition with_tail t x := Trie (base t) (check t) x (pos t) (tailList t) (size t).
(** assignment to size_, Trie.h:133-141 *)
Definition with_size t x := Trie (base t) (check t) (tail t) (pos t) (tailList t) x.
(** [base.set], [check.set], [tail.set]; Trie.h:29-35 *)
Definition setb t i v := x <- iset (base t) i v ;; Ok (with_base t x).
(** [check.set], Trie.h:29-35 *)
Definition setc t i v := x <- iset (check t) i v ;; Ok (with_check t x).
(** [tail.set], Trie.h:29-35 *)
Definition sett t i v := x <- tset (tail t) i v ;; Ok (with_tail t x).

(** Trie.cpp:55-62, the constructor (the static pointer is modelled separately) *)
Definition mkTrie : outcome trie :=
  b <- iset (anew 26 (-1)) 0 0 ;; Ok (Trie b (anew 26 (-1)) (anew 0 []) 0 [] 0).

(** Trie.cpp:37-43: length of the common part of two strings, the first not longer *)
Fixpoint common (s1 s2 : bytes) : bytes :=
  match s1, s2 with
  | a :: s1', b :: s2' => if Ascii.eqb a b then a :: common s1' s2' else []
  | _, _ => []
  end.
(** Trie.cpp:23-49, [commonPrefix]: empty for equal strings *)
Definition commonPrefix (s1 s2 : bytes) : bytes :=
  let '(a, b) := if Nat.ltb (length s2) (length s1) then (s2, s1) else (s1, s2) in
  let p := common a b in
  if Nat.eqb (length p) (length a) then (if Nat.eqb (length a) (length b) then [] else a) else p.

(** [s[i]] of a const string: index [size()] is NUL, beyond is UB; used in the loops of Trie.cpp:23-49, 108-207 *)
Definition char_at (s : bytes) (i : nat) : outcome ascii :=
  match nth_error (s ++ [NUL]) i with Some c => Ok c | None => UB end.

Section Maps.
(** [smap] is the static [StringAdapter::mapChar] (Trie.h:159, 172-175), [omap] the
    member [mapChar] (Trie.h:138) *)
Context (smap omap : ascii -> outcome Z).

(** Trie.cpp:64-77, [retrieve(word)]: the loop; [l] is the rest of the word.
    Leaving the loop at its end means [ind == word.size()]. *)
Fixpoint retrieve_loop (t : trie) (n : Z) (l : bytes) : outcome bool :=
  match l with
  | [] => Ok true
  | ch :: rest =>
      i <- smap ch ;;
      bn <- iget (base t) n ;;
      let next := bn + i in
      c <- igetc (check t) next ;;
      if negb (c =? n) then Ok false
      else
        b <- igetc (base t) next ;;
        if b <? -1 then
          match rest with
          | [] => Ok true
          | _ => b' <- iget (base t) next ;; s <- tgetc (tail t) (- b' - 2) ;;
                 Ok (if list_eq_dec ascii_dec s rest then true else false)
          end
        else retrieve_loop t next rest
  end.
(** An empty word (never passed by [contain]) would satisfy line 75. *)
Definition retrieve (t : trie) (word : bytes) : outcome bool := retrieve_loop t 0 word.

(** Trie.cpp:231-243, [checkAvailable(list)]: [q] from the given value on; [fuel]
    candidates are tried (shown sufficient with the length of [check] plus one). *)
Fixpoint all_free (c : list Z) (q : Z) (l : list Z) : outcome bool :=
  match l with
  | [] => Ok true
  | j :: l => v <- igetc c (q + j) ;; if v =? -1 then all_free c q l else Ok false
  end.
(** Trie.cpp:231-256, the search loops of [checkAvailable] *)
Fixpoint avail_loop (fuel : nat) (c : list Z) (q : Z) (l : list Z) : outcome Z :=
  match fuel with
  | O => Fuel
  | S f => ok <- all_free c q l ;; if ok : bool then Ok q else avail_loop f c (q + 1) l
  end.
(** Trie.cpp:231-256: the versions for one and two codes perform the same reads *)
Definition checkAvailable (t : trie) (l : list Z) : outcome Z :=
  avail_loop (S (length (check t))) (check t) 0 l.

(** Trie.cpp:258-265, [outArcs] *)
Fixpoint arcs_loop (k : nat) (t : trie) (n bn i : Z) : outcome (list Z) :=
  match k with
  | O => Ok []
  | S k => c <- igetc (check t) (bn + i) ;;
           r <- arcs_loop k t n bn (i + 1) ;;
           Ok (if c =? n then i :: r else r)
  end.
(** Trie.cpp:258-265, [outArcs] *)
Definition outArcs (t : trie) (n : Z) : outcome (list Z) :=
  bn <- iget (base t) n ;; arcs_loop 27 t n bn 1.

(** Trie.cpp:274-280, [nextTail] *)
Definition nextTail (t : trie) : trie * Z :=
  match tailList t with
  | [] => (Trie (base t) (check t) (tail t) (pos t + 1) [] (size t), pos t)
  | p :: q => (Trie (base t) (check t) (tail t) (pos t) q (size t), p)
  end.
(** Trie.cpp:267-272, [setTail] *)
Definition setTail (t : trie) (n next : Z) (rest : bytes) : outcome trie :=
  let '(t, p) := nextTail t in
  t <- sett t p rest ;; t <- setb t next (- p - 2) ;; setc t next n.

(** Trie.cpp:124-129: the chain of new nodes for the common prefix; returns the last node *)
Fixpoint chain_loop (t : trie) (next : Z) (prefix : bytes) : outcome (trie * Z) :=
  match prefix with
  | [] => Ok (t, next)
  | ch :: prefix =>
      j <- smap ch ;;
      available <- checkAvailable t [j] ;;
      t <- setb t next available ;;
      t <- setc t (available + j) next ;;
      b <- iget (base t) next ;;
      chain_loop t (b + j) prefix
  end.
(** Trie.cpp:119-152: [next] is a leaf with a tail; [rest] is [word.substr(ind)] *)
Definition split_leaf (t : trie) (next : Z) (rest : bytes) : outcome trie :=
  b <- iget (base t) next ;;
  let temp := - b - 2 in
  tail_temp <- aget (tail t) temp ;;
  let prefix := commonPrefix rest tail_temp in
  '(t, next) <- chain_loop t next prefix ;;
  ct <- char_at tail_temp (length prefix) ;;
  char_val_tail <- omap ct ;;
  cn <- char_at rest (length prefix) ;;
  char_val_new <- omap cn ;;
  q <- checkAvailable t [char_val_tail; char_val_new] ;;
  t <- setb t next q ;;
  t <- (if Ascii.eqb ct endChar then
          t <- setb t (q + char_val_tail) (-1) ;;
          Ok (Trie (base t) (check t) (tail t) (pos t) (tailList t ++ [temp]) (size t))
        else
          t <- setb t (q + char_val_tail) (- temp - 2) ;;
          sett t temp (skipn (S (length prefix)) tail_temp)) ;;
  t <- setc t (q + char_val_tail) next ;;
  t <- (if Ascii.eqb cn endChar then setb t (q + char_val_new) (-1)
        else let '(t, p) := nextTail t in
             t <- setb t (q + char_val_new) (- p - 2) ;;
             sett t p (skipn (S (length prefix)) rest)) ;;
  setc t (q + char_val_new) next.

(** Trie.cpp:186-188: reparent the grandchildren *)
Fixpoint reparent_loop (t : trie) (node_old node_new : Z) (l : list Z) : outcome trie :=
  match l with
  | [] => Ok t
  | k :: l => b <- iget (base t) node_old ;; t <- setc t (b + k) node_new ;;
              reparent_loop t node_old node_new l
  end.
(** Trie.cpp:176-192: move the children; returns also [node_other] *)
Fixpoint move_loop (t : trie) (temp_base new_base node_other : Z) (l : list Z) : outcome (trie * Z) :=
  match l with
  | [] => Ok (t, node_other)
  | j :: l =>
      let node_old := temp_base + j in
      let node_new := new_base + j in
      let node_other := if node_old =? node_other then node_new else node_other in
      b <- iget (base t) node_old ;;
      t <- setb t node_new b ;;
      c <- iget (check t) node_old ;;
      t <- setc t node_new c ;;
      b <- iget (base t) node_old ;;
      t <- (if b >? -1 then list <- outArcs t node_old ;; reparent_loop t node_old node_new list
            else Ok t) ;;
      t <- setb t node_old (-1) ;;
      t <- setc t node_old (-1) ;;
      move_loop t temp_base new_base node_other l
  end.
(** Trie.cpp:155-202: the slot of [next] is taken by a child of another node *)
Definition resolve_conflict (t : trie) (n next i : Z) (rest : bytes) : outcome trie :=
  list_n <- outArcs t n ;;
  m <- iget (check t) next ;;
  list_check <- outArcs t m ;;
  '(node_modify, modify_list, new_base) <-
    (if Nat.ltb (length list_n + 1) (length list_check) then
       nb <- checkAvailable t (list_n ++ [i]) ;; Ok (n, list_n, nb)
     else nb <- checkAvailable t list_check ;; Ok (m, list_check, nb)) ;;
  temp_base <- iget (base t) node_modify ;;
  t <- setb t node_modify new_base ;;
  '(t, node_other) <- move_loop t temp_base new_base n modify_list ;;
  b <- iget (base t) node_other ;;
  let temp_node := b + i in
  t <- (if i =? 1 then setb t temp_node (-1)
        else let '(t, p) := nextTail t in
             t <- setb t temp_node (- p - 2) ;; sett t p rest) ;;
  setc t temp_node node_other.

(** Trie.cpp:108-207, [insert_] *)
Fixpoint insert_loop (t : trie) (n : Z) (l : bytes) : outcome trie :=
  match l with
  | [] => Ok t
  | ch :: rest =>
      i <- smap ch ;;
      bn <- iget (base t) n ;;
      let next := bn + i in
      c <- igetc (check t) next ;;
      if c =? -1 then setTail t n next rest
      else
        c <- iget (check t) next ;;
        if c =? n then
          b <- iget (base t) next ;;
          if b <? -1 then split_leaf t next rest
          else insert_loop t next rest
        else resolve_conflict t n next i rest
  end.

(** Trie.cpp:209-229, [remove_] *)
Fixpoint remove_loop (t : trie) (n : Z) (l : bytes) : outcome (trie * bool) :=
  match l with
  | [] => t <- setc t n (-1) ;; Ok (t, true)
  | ch :: rest =>
      i <- smap ch ;;
      bn <- iget (base t) n ;;
      let next := bn + i in
      c <- iget (check t) next ;;
      if negb (c =? n) then Ok (t, false)
      else
        b <- iget (base t) next ;;
        if b <? -1 then
          s <- tgetc (tail t) (- b - 2) ;;
          if list_eq_dec ascii_dec s rest then
            t <- setb t next (-1) ;; t <- setc t next (-1) ;; Ok (t, true)
          else Ok (t, false)
        else remove_loop t next rest
  end.

(** Trie.cpp:282-290, the public operations *)
Definition contain (t : trie) (s : bytes) : outcome bool := retrieve t (s ++ [endChar]).
(** Trie.cpp:282-286, [insert] *)
Definition insert (t : trie) (s : bytes) : outcome trie :=
  c <- contain t s ;;
  if c : bool then Ok t
  else t <- insert_loop t 0 (s ++ [endChar]) ;; Ok (with_size t (size t + 1)).
(** Trie.cpp:288-290, [remove] *)
Definition remove (t : trie) (s : bytes) : outcome trie :=
  '(t, r) <- remove_loop t 0 (s ++ [endChar]) ;;
  Ok (if r : bool then with_size t (size t - 1) else t).
End Maps.

(** Trie.h:253-259, the iterator's own members *)
Record iter := Iter { it_n : Z; it_offset : Z; it_buffer : list Z; it_end : bool }.

(** Trie.cpp:79-106, [visit]; the buffer is kept in reverse (its back is the head).
    One unit of fuel per loop iteration and per recursive call. *)
Fixpoint visit (fuel : nat) (t : trie) (n offset : Z) (buffer : list Z) : outcome (bool * Z * Z * list Z) :=
  match fuel with
  | O => Fuel
  | S f =>
      if offset <? 28 then
        bn <- igetc (base t) n ;;
        let next := bn + offset in
        c <- igetc (check t) next ;;
        if negb (c =? n) then visit f t n (offset + 1) buffer
        else if offset =? 1 then Ok (true, n, offset + 1, -1 :: offset :: buffer)
        else
          b <- igetc (base t) next ;;
          if b <? -1 then Ok (true, n, offset + 1, b :: offset :: buffer)
          else visit f t next 1 (offset :: buffer)
      else
        match buffer with
        | [] | [_] => Ok (false, n, offset, buffer)
        | _ :: b :: buffer' => p <- igetc (check t) n ;; visit f t p (b + 1) (b :: buffer')
        end
  end.

(** Trie.h:228-237, [operator++] *)
Definition it_next (fuel : nat) (t : trie) (it : iter) : outcome iter :=
  if it_end it then Ok it
  else
    buffer <- match it_buffer it with
              | [] => Ok []
              | [_] => UB
              | _ :: _ :: b => Ok b
              end ;;
    '(r, n, o, b) <- visit fuel t (it_n it) (it_offset it) buffer ;;
    Ok (Iter n o b (negb r)).
(** Trie.h:204-206 and 265, [begin()] *)
Definition it_begin (fuel : nat) (t : trie) : outcome iter := it_next fuel t (Iter 0 1 [] false).

(** Trie.h:214-226, [operator*]; [mi] is the member [mapInt], the list is in order *)
Fixpoint deref_loop (mi : Z -> ascii) (t : trie) (l : list Z) : outcome bytes :=
  match l with
  | [] => Ok []
  | i :: l =>
      if i =? 1 then Ok []
      else if i <? 0 then
        ending <- aget (tail t) (- i - 2) ;;
        (* [ending.substr(0, ending.size() - 1)]: everything for an empty string *)
        Ok (match ending with [] => [] | _ => removelast ending end)
      else r <- deref_loop mi t l ;; Ok (mi i :: r)
  end.
(** Trie.h:214-226, operator* of the iterator *)
Definition it_deref (mi : Z -> ascii) (t : trie) (it : iter) : outcome bytes := deref_loop mi t (rev (it_buffer it)).

(** [for (auto s : trie)]: the first [k] strings, or fewer when the iteration ends; iterator operators, Trie.h:214-249 *)
Fixpoint iterate (k fuel : nat) (mi : Z -> ascii) (t : trie) (it : iter) : outcome (list bytes * bool) :=
  if it_end it then Ok ([], true)
  else match k with
       | O => Ok ([], false)
       | S k => s <- it_deref mi t it ;; it <- it_next fuel t it ;;
                '(l, e) <- iterate k fuel mi t it ;; Ok (s :: l, e)
       end.
