(** The functions of TreeModel once more, counting how often a loop body is
    entered.  TreeCostProofs shows that forgetting the counters gives back
    TreeModel. *)
From Verif Require Import Base TreeModel.
Local Open Scope nat_scope.

(** the loop of Node::getAncestor, Tree.cpp:14-15, counting its iterations *)
Fixpoint getAncestor_loopC (fuel : nat) (h : heap) (level i cur : nat) : outcome (nat * nat) :=
  match fuel with
  | O => Fuel
  | S f =>
      if 2 ^ i <=? level then
        cur <- (if Nat.testbit level i then n <- get h cur ;; at_anc n i else Ok cur) ;;
        ' (y, k) <- getAncestor_loopC f h level (S i) cur ;; Ok (y, S k)
      else Ok (cur, 0)
  end.
(** Node::getAncestor, Tree.cpp:12-18, with the number of iterations *)
Definition getAncestorC (h : heap) (x level : nat) : outcome (nat * nat) :=
  getAncestor_loopC (S (S level)) h level 0 x.

(** the loop of Tree::addNode, Tree.cpp:31-35, counting its iterations (the
    one that breaks included) *)
Fixpoint add_loopC (fuel : nat) (h : heap) (x i : nat) : outcome (heap * nat) :=
  match fuel with
  | O => Fuel
  | S f =>
      n <- get h x ;;
      next <- at_anc n i ;;
      m <- get h next ;;
      if length (ancestor m) <=? i then Ok (h, 1)
      else
        a <- at_anc m i ;;
        h <- put h x (Node (fa n) (son n) (height n) (ancestor n ++ [a])) ;;
        ' (h, k) <- add_loopC f h x (S i) ;; Ok (h, S k)
  end.
(** Tree::addNode, Tree.cpp:26-36, with the number of iterations *)
Definition addNodeC (h : heap) (x f : nat) : outcome (heap * nat) :=
  n <- get h f ;;
  h <- put h f (Node (fa n) (son n ++ [x]) (height n) (ancestor n)) ;;
  n <- get h x ;;
  h <- put h x (Node (Some f) (son n) (height n) (ancestor n)) ;;
  k <- getHeight h f ;;
  n <- get h x ;;
  h <- put h x (Node (fa n) (son n) (Some (k + 1)) (ancestor n)) ;;
  n <- get h x ;;
  h <- put h x (Node (fa n) (son n) (height n) (ancestor n ++ [f])) ;;
  add_loopC (S (length h)) h x 0.

(** the loop of Tree::LCA, Tree.cpp:45-49, counting its iterations *)
Fixpoint lca_loopC (h : heap) (i x y : nat) : outcome (nat * nat * nat) :=
  match i with
  | O => Ok (x, y, 0)
  | S i =>
      nx <- get h x ;; ny <- get h y ;;
      a <- at_anc nx i ;; b <- at_anc ny i ;;
      ' (x, y, k) <- (if a =? b then lca_loopC h i x y else lca_loopC h i a b) ;; Ok (x, y, S k)
  end.
(** Tree::LCA, Tree.cpp:38-51, with the iterations of its own loop and of the
    one in getAncestor *)
Definition LCAC (h : heap) (x y : nat) : outcome (nat * nat) :=
  hx <- getHeight h x ;; hy <- getHeight h y ;;
  ' (x, y, k) <- (if hx <? hy then ' (b, k) <- getAncestorC h y (hy - hx) ;; Ok (x, b, k)
               else ' (a, k) <- getAncestorC h x (hx - hy) ;; Ok (a, y, k)) ;;
  if x =? y then Ok (x, k)
  else
    n <- get h x ;;
    ' (x, y, m) <- lca_loopC h (length (ancestor n)) x y ;;
    n <- get h x ;;
    match fa n with Some p => Ok (p, k + m) | None => UB end.
(** Tree::getDistance, Tree.cpp:53-55, with the iterations *)
Definition getDistanceC (h : heap) (x y : nat) : outcome (Z * nat) :=
  hx <- getHeight h x ;; hy <- getHeight h y ;;
  ' (l, k) <- LCAC h x y ;; hl <- getHeight h l ;;
  Ok ((Z.of_nat hx + Z.of_nat hy - 2 * Z.of_nat hl)%Z, k).

(** Tree.cpp:5-8, 26-36 *)
Definition add_freshC (h : heap) (f : nat) : outcome (heap * nat) :=
  let (h, x) := new_node h in addNodeC h x f.
(** successive addNode calls, Tree.cpp:26-36, with all iterations *)
Fixpoint growC (h : heap) (ps : list nat) : outcome (heap * nat) :=
  match ps with
  | [] => Ok (h, 0)
  | p :: ps => ' (h, k) <- add_freshC h p ;; ' (h, m) <- growC h ps ;; Ok (h, k + m)
  end.
(** setRoot, Tree.cpp:20-24, then addNode calls, with all iterations *)
Definition buildC (ps : list nat) : outcome (heap * nat) :=
  let (h, r) := new_node [] in h <- setRoot h r ;; growC h ps.
(** pointers stored in the vectors [ancestor], Tree.h:32 *)
Definition stored (h : heap) : nat := fold_right (fun n a => length (ancestor n) + a) 0 h.
