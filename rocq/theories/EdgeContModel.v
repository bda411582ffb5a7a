(** Model of Edge objects (src/graph/Edge.cpp, include/graph/Edge.h) used as elements of
    the library's Set, MultiSet and List (include/containers).

    Unlike the element types of ContModel.v, an Edge cannot be copied faithfully: the copy
    constructor takes a fresh id, and == compares ids while < compares weights.  So each
    construction is made explicit here.  The static counter is an [int]; incrementing it
    beyond INT_MAX is undefined.  The state is a client's variables of type Edge, one Set,
    one MultiSet and one List.  ~Edge does nothing (Edge.cpp:20), so destruction is not
    shown.  Vertices are opaque addresses. *)
From Verif Require Import Base ContModel.
Local Open Scope Z_scope.

(** class Edge, Edge.h:8-35 *)
Record edge := E { e_from : nat; e_to : nat; e_val : Z; e_use : bool; e_id : Z }.
(** Edge::operator==, Edge.cpp:30 *)
Definition edge_eq (a b : edge) : bool := e_id a =? e_id b.
(** Edge::operator<, Edge.cpp:34 *)
Definition edge_lt (a b : edge) : bool := e_val a <? e_val b.
(** the client's variables, the containers, and Edge::nextEdgeID (Edge.cpp:5) *)
Record state := St { vars : list edge; set_ : list edge; mset : list edge; lst : list edge; next : Z }.
(** no objects yet; the counter starts at 0, Edge.cpp:5 *)
Definition start : state := St [] [] [] [] 0.
(** [id = Edge::nextEdgeID++], Edge.cpp:9, 17: the id and the counter afterwards *)
Definition fresh (n : Z) : outcome (Z * Z) := m <- chk32 (n + 1) ;; Ok (n, m).
(** Edge::Edge(const Edge&), Edge.cpp:12-18 *)
Definition copy_edge (n : Z) (a : edge) : outcome (edge * Z) :=
  ' (i, n) <- fresh n ;; Ok (E (e_from a) (e_to a) (e_val a) (e_use a) i, n).
(** a variable of the client, as the argument of the calls on Set.h, MultiSet.h and List.h
    below; a variable that does not exist is a client error, shown as UB *)
Definition var (s : state) (v : nat) : outcome edge :=
  match nth_error (vars s) v with Some a => Ok a | None => UB end.
(** assignment to a variable, Edge.h:16-20, Edge.cpp:22-28 *)
Definition set_var (s : state) (v : nat) (a : edge) : state :=
  St (upd (vars s) v a) (set_ s) (mset s) (lst s) (next s).

(** calls of a client: Edge.h:10-25; Set.h:187-205; MultiSet.h:193-220; List.h:319-377 *)
Inductive op :=
| ENew (from to : nat) (val : Z) | ECopy (v : nat) | EAssign (dst src : nat) | ESetVal (v : nat) (x : Z) | ESetUse (v : nat) (b : bool)
| SInsert (v : nat) | SErase (v : nat) | SContains (v : nat) | SClear | SSize
| MInsert (v : nat) | MErase (v : nat) | MContains (v : nat) | MCount (v : nat) | MClear | MSize
| LPush (v : nat) | LPushFront (v : nat) | LPop | LSort | LReverse | LSize
| Equal (v w : nat) | Less (v w : nat).

(** the answer of a call: bool of contains, Set.h:202-205; int of count and size, MultiSet.h:193-220 *)
Inductive answer := ANone | ABool (b : bool) | AInt (z : Z).

(** one call.
    - Edge::Edge, Edge.cpp:7-10; copy 12-18; operator= 22-28 (the id is not assigned);
      setVal, setValid, setInvalid, Edge.h:17-20
    - Set::insert, Set.h:187-190: std::set::insert(const value_type &) compares first
      and constructs the copy only when it is stored; Set::contains, Set.h:202-205, takes
      its argument by value: one copy
    - MultiSet::insert, erase, count, contains, MultiSet.h:193-220: by reference
    - List::push, push_front, pop, List.h:343-367: one copy each; the copy made by pop is
      the object returned (named return value), here a new variable of the client
    - List::sort, reverse, List.h:369-377: the nodes are relinked, no element is copied *)
Definition step (s : state) (o : op) : outcome (state * answer) :=
  match o with
  | ENew f t x =>
      ' (i, n) <- fresh (next s) ;;
      Ok (St (vars s ++ [E f t x true i]) (set_ s) (mset s) (lst s) n, ANone)
  | ECopy v =>
      a <- var s v ;; ' (b, n) <- copy_edge (next s) a ;;
      Ok (St (vars s ++ [b]) (set_ s) (mset s) (lst s) n, ANone)
  | EAssign d v =>
      a <- var s d ;; b <- var s v ;;
      Ok (set_var s d (E (e_from b) (e_to b) (e_val b) (e_use b) (e_id a)), ANone)
  | ESetVal v x => a <- var s v ;; Ok (set_var s v (E (e_from a) (e_to a) x (e_use a) (e_id a)), ANone)
  | ESetUse v x => a <- var s v ;; Ok (set_var s v (E (e_from a) (e_to a) (e_val a) x (e_id a)), ANone)
  | SInsert v =>
      a <- var s v ;;
      match t_find (fun e => e) edge_lt a (set_ s) with
      | Some _ => Ok (s, ANone)
      | None =>
          ' (b, n) <- copy_edge (next s) a ;;
          Ok (St (vars s) (t_insert (fun e => e) edge_lt b (set_ s)) (mset s) (lst s) n, ANone)
      end
  | SErase v => a <- var s v ;; Ok (St (vars s) (t_erase (fun e => e) edge_lt a (set_ s)) (mset s) (lst s) (next s), ANone)
  | SContains v =>
      a <- var s v ;; ' (b, n) <- copy_edge (next s) a ;;
      Ok (St (vars s) (set_ s) (mset s) (lst s) n,
          ABool (match t_find (fun e => e) edge_lt b (set_ s) with None => false | _ => true end))
  | SClear => Ok (St (vars s) [] (mset s) (lst s) (next s), ANone)
  | SSize => Ok (s, AInt (size_int (set_ s)))
  | MInsert v =>
      a <- var s v ;; ' (b, n) <- copy_edge (next s) a ;;
      Ok (St (vars s) (set_ s) (t_insert_multi (fun e => e) edge_lt b (mset s)) (lst s) n, ANone)
  | MErase v =>
      a <- var s v ;;
      match t_find (fun e => e) edge_lt a (mset s) with
      | None => Err
      | Some _ => Ok (St (vars s) (set_ s) (t_erase (fun e => e) edge_lt a (mset s)) (lst s) (next s), ANone)
      end
  | MContains v =>
      a <- var s v ;;
      Ok (s, ABool (match t_find (fun e => e) edge_lt a (mset s) with None => false | _ => true end))
  | MCount v => a <- var s v ;; Ok (s, AInt (size_int (t_range (fun e => e) edge_lt a (mset s))))
  | MClear => Ok (St (vars s) (set_ s) [] (lst s) (next s), ANone)
  | MSize => Ok (s, AInt (size_int (mset s)))
  | LPush v =>
      a <- var s v ;; ' (b, n) <- copy_edge (next s) a ;;
      Ok (St (vars s) (set_ s) (mset s) (seq_push (lst s) b) n, ANone)
  | LPushFront v =>
      a <- var s v ;; ' (b, n) <- copy_edge (next s) a ;;
      Ok (St (vars s) (set_ s) (mset s) (list_push_front (lst s) b) n, ANone)
  | LPop =>
      ' (a, l) <- seq_pop (lst s) ;; ' (b, n) <- copy_edge (next s) a ;;
      Ok (St (vars s ++ [b]) (set_ s) (mset s) l n, ANone)
  | LSort => Ok (St (vars s) (set_ s) (mset s) (list_sort edge_lt (lst s)) (next s), ANone)
  | LReverse => Ok (St (vars s) (set_ s) (mset s) (list_reverse (lst s)) (next s), ANone)
  | LSize => Ok (s, AInt (size_int (lst s)))
  | Equal v w => a <- var s v ;; b <- var s w ;; Ok (s, ABool (edge_eq a b))
  | Less v w => a <- var s v ;; b <- var s w ;; Ok (s, ABool (edge_lt a b))
  end.
(** a sequence of calls on Edge.h, Set.h, MultiSet.h and List.h: the final state *)
Fixpoint run_ops (s : state) (os : list op) : outcome state :=
  match os with [] => Ok s | o :: os => ' (s, _) <- step s o ;; run_ops s os end.

(** a container of edges copied element by element: the copy constructors of the std
    containers inside Set, MultiSet and List (implicitly declared copy constructors,
    Set.h:14, MultiSet.h:14, List.h:15) *)
Fixpoint copy_all (n : Z) (l : list edge) : outcome (list edge * Z) :=
  match l with
  | [] => Ok ([], n)
  | a :: l => ' (b, n) <- copy_edge n a ;; ' (l, n) <- copy_all n l ;; Ok (b :: l, n)
  end.
