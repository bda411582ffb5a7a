(** Model of src/graph/Tree.cpp and src/include/graph/Tree.h.

    Pointers are indices into a heap of Node objects; dereferencing an index
    that names no object is UB, null is [None].  The member [height] is not
    initialised by the constructor: reading it before [setHeight] is UB.
    [id], [val] and [Tree::nodes] (never used) are left out.  Integers are
    unbounded (heights far below 2^30). *)
From Verif Require Import Base.
Local Open Scope nat_scope.

(** class Node, Tree.h:26-33 *)
Record node := Node { fa : option nat; son : list nat; height : option nat; ancestor : list nat }.
(** all Node objects (Tree.h:8-34) at their addresses *)
Definition heap := list node.

(** dereference; as in Tree.cpp:12-55 *)
Definition get (h : heap) (x : nat) : outcome node :=
  match nth_error h x with Some n => Ok n | None => UB end.
(** writes to members of a Node, Tree.h:18-21, Tree.cpp:26-36 *)
Definition put (h : heap) (x : nat) (n : node) : outcome heap :=
  if x <? length h then Ok (upd h x n) else UB.

(** Node::Node, Tree.cpp:5-8 (allocation appends to the heap) *)
Definition new_node (h : heap) : heap * nat := (h ++ [Node None [] None []], length h).
(** getHeight, Tree.h:20 *)
Definition getHeight (h : heap) (x : nat) : outcome nat :=
  n <- get h x ;; match height n with Some k => Ok k | None => UB end.
(** vector operator[], unchecked; Tree.cpp:15, 32, 34, 46-47 *)
Definition at_anc (n : node) (i : nat) : outcome nat :=
  match nth_error (ancestor n) i with Some a => Ok a | None => UB end.

(** Node::getAncestor, Tree.cpp:12-18; [fuel] bounds the loop on i.  Levels
    are natural numbers: for a negative level the loop body is never entered. *)
Fixpoint getAncestor_loop (fuel : nat) (h : heap) (level i cur : nat) : outcome nat :=
  match fuel with
  | O => Fuel
  | S f =>
      if 2 ^ i <=? level then
        cur <- (if Nat.testbit level i then n <- get h cur ;; at_anc n i else Ok cur) ;;
        getAncestor_loop f h level (S i) cur
      else Ok cur
  end.
(** Node::getAncestor, Tree.cpp:12-18 *)
Definition getAncestor (h : heap) (x level : nat) : outcome nat :=
  getAncestor_loop (S (S level)) h level 0 x.

(** Tree::setRoot, Tree.cpp:20-24 *)
Definition setRoot (h : heap) (r : nat) : outcome heap :=
  n <- get h r ;; put h r (Node None (son n) (Some 0) (ancestor n)).

(** the loop of Tree::addNode, Tree.cpp:31-35 *)
Fixpoint add_loop (fuel : nat) (h : heap) (x i : nat) : outcome heap :=
  match fuel with
  | O => Fuel
  | S f =>
      n <- get h x ;;
      next <- at_anc n i ;;
      m <- get h next ;;
      if length (ancestor m) <=? i then Ok h
      else
        a <- at_anc m i ;;
        h <- put h x (Node (fa n) (son n) (height n) (ancestor n ++ [a])) ;;
        add_loop f h x (S i)
  end.
(** Tree::addNode, Tree.cpp:26-36 *)
Definition addNode (h : heap) (x f : nat) : outcome heap :=
  n <- get h f ;;
  h <- put h f (Node (fa n) (son n ++ [x]) (height n) (ancestor n)) ;;
  n <- get h x ;;
  h <- put h x (Node (Some f) (son n) (height n) (ancestor n)) ;;
  k <- getHeight h f ;;
  n <- get h x ;;
  h <- put h x (Node (fa n) (son n) (Some (k + 1)) (ancestor n)) ;;
  n <- get h x ;;
  h <- put h x (Node (fa n) (son n) (height n) (ancestor n ++ [f])) ;;
  add_loop (S (length h)) h x 0.

(** the loop of Tree::LCA, Tree.cpp:45-49: i counts down from [i] - 1 *)
Fixpoint lca_loop (h : heap) (i x y : nat) : outcome (nat * nat) :=
  match i with
  | O => Ok (x, y)
  | S i =>
      nx <- get h x ;; ny <- get h y ;;
      a <- at_anc nx i ;; b <- at_anc ny i ;;
      if a =? b then lca_loop h i x y else lca_loop h i a b
  end.
(** Tree::LCA, Tree.cpp:38-51 *)
Definition LCA (h : heap) (x y : nat) : outcome nat :=
  hx <- getHeight h x ;; hy <- getHeight h y ;;
  ' (x, y) <- (if hx <? hy then b <- getAncestor h y (hy - hx) ;; Ok (x, b)
               else a <- getAncestor h x (hx - hy) ;; Ok (a, y)) ;;
  if x =? y then Ok x
  else
    n <- get h x ;;
    ' (x, y) <- lca_loop h (length (ancestor n)) x y ;;
    n <- get h x ;;
    match fa n with Some p => Ok p | None => UB end.
(** Tree::getDistance, Tree.cpp:53-55 (a null LCA would be dereferenced) *)
Definition getDistance (h : heap) (x y : nat) : outcome Z :=
  hx <- getHeight h x ;; hy <- getHeight h y ;;
  l <- LCA h x y ;; hl <- getHeight h l ;;
  Ok (Z.of_nat hx + Z.of_nat hy - 2 * Z.of_nat hl)%Z.

(** a client: a root, then one fresh node per parent in the list; Tree.cpp:5-8, 26-36 *)
Definition add_fresh (h : heap) (f : nat) : outcome heap :=
  let (h, x) := new_node h in addNode h x f.
(** successive addNode calls, Tree.cpp:26-36 *)
Fixpoint grow (h : heap) (ps : list nat) : outcome heap :=
  match ps with [] => Ok h | p :: ps => h <- add_fresh h p ;; grow h ps end.
(** setRoot, Tree.cpp:20-24, then addNode calls, Tree.cpp:26-36 *)
Definition build (ps : list nat) : outcome heap :=
  let (h, r) := new_node [] in h <- setRoot h r ;; grow h ps.
