(** Model of src/graph/BST.cpp and src/include/graph/BST.h (a splay tree on
    caller-owned nodes).

    Pointers are [option nat]: null or an index into the heap of BSTNode
    objects.  Dereferencing null (or an index without object) is UB.  The client
    owns the nodes; nothing here frees them. *)
From Verif Require Import Base.
Local Open Scope nat_scope.

(** class BSTNode, BST.h:6-21 *)
Record bnode := B { ch0 : option nat; ch1 : option nat; bfa : option nat; rank : Z; bval : Z }.
(** all BSTNode objects (BST.h:6-21), at their addresses; [None] is unused *)
Definition heap := list bnode.
(** a BST object: its heap and member [root], BST.h:34 *)
Definition bst : Type := heap * option nat.

(** [p == q] on pointers; pointer comparisons of BST.cpp:5-43 *)
Definition peq (p q : option nat) : bool :=
  match p, q with
  | None, None => true
  | Some x, Some y => x =? y
  | _, _ => false
  end.
(** [*p], reads and writes of [p->ch[d]] and [p->fa] ([d = true] is index 1); [*p] as used in BST.cpp:5-114 *)
Definition deref (h : heap) (p : option nat) : outcome bnode :=
  match p with
  | None => UB
  | Some x => match nth_error h x with Some n => Ok n | None => UB end
  end.
(** a write through [p], BST.cpp:5-114 *)
Definition store (h : heap) (p : option nat) (n : bnode) : outcome heap :=
  match p with
  | None => UB
  | Some x => if x <? length h then Ok (upd h x n) else UB
  end.
(** [ch[d]], BST.h:6-21 *)
Definition chd (n : bnode) (d : bool) : option nat := if d then ch1 n else ch0 n.
(** [p->ch[d]] read, BST.cpp:5-114 *)
Definition rch (h : heap) (p : option nat) (d : bool) : outcome (option nat) :=
  n <- deref h p ;; Ok (chd n d).
(** [p->ch[d] = v], BST.cpp:5-102 *)
Definition wch (h : heap) (p : option nat) (d : bool) (v : option nat) : outcome heap :=
  n <- deref h p ;;
  store h p (if d then B (ch0 n) v (bfa n) (rank n) (bval n) else B v (ch1 n) (bfa n) (rank n) (bval n)).
(** [p->fa] read, BST.cpp:5-114 *)
Definition rfa (h : heap) (p : option nat) : outcome (option nat) :=
  n <- deref h p ;; Ok (bfa n).
(** [p->fa = v], BST.cpp:5-102 *)
Definition wfa (h : heap) (p : option nat) (v : option nat) : outcome heap :=
  n <- deref h p ;; store h p (B (ch0 n) (ch1 n) v (rank n) (bval n)).
(** [p->rank] read (BST.h:6-21), used by the searches of BST.cpp *)
Definition rrank (h : heap) (p : option nat) : outcome Z :=
  n <- deref h p ;; Ok (rank n).

(** BSTNode::BSTNode, BST.h:8 (allocation appends) *)
Definition new_node (h : heap) (k v : Z) : heap * nat := (h ++ [B None None None k v], length h).
(** BST::BST, BST.h:25 *)
Definition empty : bst := ([], None).

(** BST::rotate, BST.cpp:5-18 *)
Definition rotate (s : bst) (x : option nat) (c : bool) : outcome bst :=
  let (h, root) := s in
  y <- rfa h x ;;
  xc <- rch h x c ;; h <- wch h y (negb c) xc ;;
  xc <- rch h x c ;;
  h <- (if peq xc None then Ok h else xc <- rch h x c ;; wfa h xc y) ;;
  z <- rfa h y ;; h <- wfa h x z ;;
  z <- rfa h y ;;
  h <- (if peq z None then Ok h
        else
          z0 <- rch h z false ;;
          if peq z0 y then wch h z false x else wch h z true x) ;;
  h <- wfa h y x ;; h <- wch h x c y ;;
  Ok (h, if peq y root then x else root).

(** BST::splay, BST.cpp:20-43 *)
Fixpoint splay_loop (fuel : nat) (s : bst) (x : option nat) : outcome bst :=
  match fuel with
  | O => Fuel
  | S f =>
      y <- rfa (fst s) x ;;
      if peq y None then Ok s
      else
        z <- rfa (fst s) y ;;
        s <- (if peq z None then
                y0 <- rch (fst s) y false ;;
                if peq y0 x then rotate s x true else rotate s x false
              else
                z0 <- rch (fst s) z false ;;
                if peq z0 y then
                  y0 <- rch (fst s) y false ;;
                  if peq y0 x then s <- rotate s y true ;; rotate s x true
                  else s <- rotate s x false ;; rotate s x true
                else
                  y1 <- rch (fst s) y true ;;
                  if peq y1 x then s <- rotate s y false ;; rotate s x false
                  else s <- rotate s x true ;; rotate s x false) ;;
        splay_loop f s x
  end.
(** BST::splay, BST.cpp:20-43 *)
Definition splay (s : bst) (x : option nat) : outcome bst :=
  splay_loop (S (length (fst s))) s x.

(** the loops of BST::pre and BST::suf, BST.cpp:48 and 55: follow [ch[d]] *)
Fixpoint walk_down (fuel : nat) (h : heap) (d : bool) (cur : option nat) : outcome (option nat) :=
  match fuel with
  | O => Fuel
  | S f =>
      n <- rch h cur d ;;
      if peq n None then Ok cur else n <- rch h cur d ;; walk_down f h d n
  end.
(** BST::pre, BST.cpp:45-50 *)
Definition pre (h : heap) (x : option nat) : outcome (option nat) :=
  cur <- rch h x false ;;
  if peq cur None then Ok None else walk_down (S (length h)) h true cur.
(** BST::suf, BST.cpp:52-57 *)
Definition suf (h : heap) (x : option nat) : outcome (option nat) :=
  cur <- rch h x true ;;
  if peq cur None then Ok None else walk_down (S (length h)) h false cur.

(** the search loop of BST::insert, BST.cpp:67-75; returns [cur] *)
Fixpoint descend (fuel : nat) (h : heap) (x cur : option nat) : outcome (option nat) :=
  match fuel with
  | O => Fuel
  | S f =>
      kx <- rrank h x ;; kc <- rrank h cur ;;
      next <- (if (kx <? kc)%Z then rch h cur false else rch h cur true) ;;
      if peq next None then Ok cur else descend f h x next
  end.
(** BST::insert, BST.cpp:59-79 *)
Definition insert (s : bst) (x : option nat) : outcome bst :=
  let (h, root) := s in
  if peq root None then Ok (h, x)
  else
    cur <- descend (S (length h)) h x root ;;
    h <- wfa h x cur ;;
    kx <- rrank h x ;; kc <- rrank h cur ;;
    h <- wch h cur (kc <=? kx)%Z x ;;
    splay (h, root) x.

(** BST::erase, BST.cpp:81-102 *)
Definition erase (s : bst) (x : option nat) : outcome bst :=
  ' (h, root) <- splay s x ;;
  l <- rch h x false ;; r <- rch h x true ;;
  if peq l None && peq r None then Ok (h, None)
  else if peq l None && negb (peq r None) then
    h' <- wfa h r None ;; Ok (h', r)
  else if negb (peq l None) && peq r None then
    h' <- wfa h r None ;; Ok (h', r)
  else
    root <- pre h x ;;
    f <- rfa h root ;; f0 <- rch h f false ;;
    rl <- rch h root false ;;
    h <- wch h f (negb (peq f0 root)) rl ;;
    rl <- rch h root false ;;
    h <- (if peq rl None then Ok h else f <- rfa h root ;; wfa h rl f) ;;
    h <- wfa h root None ;;
    l <- rch h x false ;; h <- wch h root false l ;;
    r <- rch h x true ;; h <- wch h root true r ;;
    Ok (h, root).

(** BST::find, BST.cpp:104-114 *)
Fixpoint find_loop (fuel : nat) (h : heap) (k : Z) (cur : option nat) : outcome (option nat) :=
  match fuel with
  | O => Fuel
  | S f =>
      if peq cur None then Ok None
      else
        r <- rrank h cur ;;
        if (r =? k)%Z then Ok cur
        else if (r <? k)%Z then c <- rch h cur true ;; find_loop f h k c
        else c <- rch h cur false ;; find_loop f h k c
  end.
(** BST::find, BST.cpp:104-114 *)
Definition find (s : bst) (k : Z) : outcome (option nat) :=
  find_loop (S (length (fst s))) (fst s) k (snd s).

(** a client: create a node and insert it; BSTNode constructor, BST.h:8, then BST::insert, BST.cpp:59-79 *)
Definition insert_new (s : bst) (k v : Z) : outcome bst :=
  let (h, x) := new_node (fst s) k v in insert (h, snd s) (Some x).
(** client calls: BST::insert, BST::erase and BST::find, BST.cpp:59-114 *)
Inductive op := Ins (k v : Z) | Del (x : nat).
(** one client call: BST::insert, BST::erase and BST::find, BST.cpp:59-114 *)
Definition step (s : bst) (o : op) : outcome bst :=
  match o with Ins k v => insert_new s k v | Del x => erase s (Some x) end.
(** a sequence of client calls on one BST (BST.h:23-37) *)
Fixpoint run (s : bst) (os : list op) : outcome bst :=
  match os with [] => Ok s | o :: os => s <- step s o ;; run s os end.
