(** src/graph/BST.cpp once more, counting the work: the same functions as in
    BstModel, returning beside the result the number of rotations and of nodes
    looked at by the search loops.  BstCostProofs shows that forgetting the
    counters gives back BstModel. *)
From Verif Require Import Base BstModel.
Local Open Scope nat_scope.

(** BST::splay, BST.cpp:20-43, counting the calls of BST::rotate *)
Fixpoint splay_loopC (fuel : nat) (s : bst) (x : option nat) : outcome (bst * nat) :=
  match fuel with
  | O => Fuel
  | S f =>
      y <- rfa (fst s) x ;;
      if peq y None then Ok (s, 0)
      else
        z <- rfa (fst s) y ;;
        ' (s, k) <- (if peq z None then
                y0 <- rch (fst s) y false ;;
                if peq y0 x then s <- rotate s x true ;; Ok (s, 1)
                else s <- rotate s x false ;; Ok (s, 1)
              else
                z0 <- rch (fst s) z false ;;
                if peq z0 y then
                  y0 <- rch (fst s) y false ;;
                  if peq y0 x then s <- rotate s y true ;; s <- rotate s x true ;; Ok (s, 2)
                  else s <- rotate s x false ;; s <- rotate s x true ;; Ok (s, 2)
                else
                  y1 <- rch (fst s) y true ;;
                  if peq y1 x then s <- rotate s y false ;; s <- rotate s x false ;; Ok (s, 2)
                  else s <- rotate s x true ;; s <- rotate s x false ;; Ok (s, 2)) ;;
        ' (s, n) <- splay_loopC f s x ;; Ok (s, k + n)
  end.
(** BST::splay, BST.cpp:20-43, counting the calls of BST::rotate *)
Definition splayC (s : bst) (x : option nat) : outcome (bst * nat) :=
  splay_loopC (S (length (fst s))) s x.

(** the search loop of BST::insert, BST.cpp:67-75, counting its iterations *)
Fixpoint descendC (fuel : nat) (h : heap) (x cur : option nat) : outcome (option nat * nat) :=
  match fuel with
  | O => Fuel
  | S f =>
      kx <- rrank h x ;; kc <- rrank h cur ;;
      next <- (if (kx <? kc)%Z then rch h cur false else rch h cur true) ;;
      if peq next None then Ok (cur, 1)
      else ' (p, n) <- descendC f h x next ;; Ok (p, S n)
  end.
(** BST::insert, BST.cpp:59-79, with its iterations and rotations, one unit
    for the call itself *)
Definition insertC (s : bst) (x : option nat) : outcome (bst * nat) :=
  let (h, root) := s in
  if peq root None then Ok ((h, x), 1)
  else
    ' (cur, n) <- descendC (S (length h)) h x root ;;
    h <- wfa h x cur ;;
    kx <- rrank h x ;; kc <- rrank h cur ;;
    h <- wch h cur (kc <=? kx)%Z x ;;
    ' (s, k) <- splayC (h, root) x ;; Ok (s, 1 + n + k).

(** the loop of BST::pre, BST.cpp:48, counting its iterations *)
Fixpoint walk_downC (fuel : nat) (h : heap) (d : bool) (cur : option nat) : outcome (option nat * nat) :=
  match fuel with
  | O => Fuel
  | S f =>
      n <- rch h cur d ;;
      if peq n None then Ok (cur, 0)
      else n <- rch h cur d ;; ' (p, k) <- walk_downC f h d n ;; Ok (p, S k)
  end.
(** BST::pre, BST.cpp:45-50, with the iterations of its loop *)
Definition preC (h : heap) (x : option nat) : outcome (option nat * nat) :=
  cur <- rch h x false ;;
  if peq cur None then Ok (None, 0) else walk_downC (S (length h)) h true cur.

(** BST::erase, BST.cpp:81-102, with its rotations and the iterations of
    BST::pre, one unit for the call itself *)
Definition eraseC (s : bst) (x : option nat) : outcome (bst * nat) :=
  ' (s, k) <- splayC s x ;;
  let (h, root) := s : bst in
  l <- rch h x false ;; r <- rch h x true ;;
  if peq l None && peq r None then Ok ((h, None), 1 + k)
  else if peq l None && negb (peq r None) then
    h' <- wfa h r None ;; Ok ((h', r), 1 + k)
  else if negb (peq l None) && peq r None then
    h' <- wfa h r None ;; Ok ((h', r), 1 + k)
  else
    ' (root, n) <- preC h x ;;
    f <- rfa h root ;; f0 <- rch h f false ;;
    rl <- rch h root false ;;
    h <- wch h f (negb (peq f0 root)) rl ;;
    rl <- rch h root false ;;
    h <- (if peq rl None then Ok h else f <- rfa h root ;; wfa h rl f) ;;
    h <- wfa h root None ;;
    l <- rch h x false ;; h <- wch h root false l ;;
    r <- rch h x true ;; h <- wch h root true r ;;
    Ok ((h, root), 1 + k + n).

(** BST::find, BST.cpp:104-114, counting the nodes whose key is compared *)
Fixpoint find_loopC (fuel : nat) (h : heap) (k : Z) (cur : option nat) : outcome (option nat * nat) :=
  match fuel with
  | O => Fuel
  | S f =>
      if peq cur None then Ok (None, 0)
      else
        r <- rrank h cur ;;
        if (r =? k)%Z then Ok (cur, 1)
        else if (r <? k)%Z then c <- rch h cur true ;; ' (p, n) <- find_loopC f h k c ;; Ok (p, S n)
        else c <- rch h cur false ;; ' (p, n) <- find_loopC f h k c ;; Ok (p, S n)
  end.
(** BST::find, BST.cpp:104-114, counting the nodes whose key is compared *)
Definition findC (s : bst) (k : Z) : outcome (option nat * nat) :=
  find_loopC (S (length (fst s))) (fst s) k (snd s).

(** create a node and insert it: BSTNode constructor, BST.h:8, then
    BST::insert, BST.cpp:59-79, with the cost of the insertion *)
Definition insert_newC (s : bst) (k v : Z) : outcome (bst * nat) :=
  let (h, x) := new_node (fst s) k v in insertC (h, snd s) (Some x).
(** one client call with its cost: BST::insert or BST::erase, BST.cpp:59-102 *)
Definition stepC (s : bst) (o : op) : outcome (bst * nat) :=
  match o with Ins k v => insert_newC s k v | Del x => eraseC s (Some x) end.
(** a sequence of client calls on one BST (BST.h:23-37) with their total cost *)
Fixpoint runC (s : bst) (os : list op) : outcome (bst * nat) :=
  match os with
  | [] => Ok (s, 0)
  | o :: os => ' (s, a) <- stepC s o ;; ' (s, b) <- runC s os ;; Ok (s, a + b)
  end.
