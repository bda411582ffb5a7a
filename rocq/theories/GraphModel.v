(** Model of src/graph/Vertex.cpp, Edge.cpp and their headers.

    Vertices and edges are objects in two heaps; [vlive]/[elive] record whether
    an object has been destroyed.  Using a destroyed vertex or deleting a
    destroyed edge is UB.  The static id counters start at 0 (their values before
    the modelled history do not matter) and are unbounded.  Setters and
    [operator<] (plain field accesses) are left out. *)
From Verif Require Import Base.
Local Open Scope nat_scope.

(** class Vertex, Vertex.h:10-41 *)
Record vertex := V { vlive : bool; vval : Z; vuse : bool; vid : nat; inE : list nat; outE : list nat }.
(** class Edge, Edge.h:8-35 *)
Record edge := Ed { elive : bool; efrom : nat; eto : nat; eval : Z; euse : bool; eid : nat }.
(** all objects, Vertex::nextVertexID (Vertex.cpp:9) and Edge::nextEdgeID (Edge.cpp:5) *)
Record world := World { vs : list vertex; es : list edge; nextV : nat; nextE : nat }.
(** no objects; the counters start at 0, Vertex.cpp:9, Edge.cpp:5 *)
Definition start : world := World [] [] 0 0.

(** access to a vertex object / an edge object; a Vertex through a pointer, as in Vertex.cpp:11-72 *)
Definition getv (w : world) (v : nat) : outcome vertex :=
  match nth_error (vs w) v with
  | Some x => if vlive x then Ok x else UB
  | None => UB
  end.
(** an Edge through a pointer, as in Vertex.cpp:11-72 *)
Definition gete (w : world) (e : nat) : outcome edge :=
  match nth_error (es w) e with
  | Some x => if elive x then Ok x else UB
  | None => UB
  end.
(** writes to members of a Vertex, Vertex.cpp:11-72 *)
Definition setv (w : world) (v : nat) (x : vertex) : world :=
  World (upd (vs w) v x) (es w) (nextV w) (nextE w).
(** writes to members of an Edge, Vertex.cpp:11-60 *)
Definition sete (w : world) (e : nat) (x : edge) : world :=
  World (vs w) (upd (es w) e x) (nextV w) (nextE w).

(** Vertex::Vertex(int), Vertex.cpp:19-24 (and 11-17 with value 0) *)
Definition new_vertex (w : world) (val : Z) : world :=
  World (vs w ++ [V true val true (nextV w) [] []]) (es w) (S (nextV w)) (nextE w).
(** Vertex::Vertex(const Vertex&), Vertex.cpp:26-38 *)
Definition copy_vertex (w : world) (v : nat) : outcome world :=
  x <- getv w v ;;
  Ok (World (vs w ++ [V true (vval x) (vuse x) (nextV w) (inE x) (outE x)]) (es w) (S (nextV w)) (nextE w)).
(** Vertex::operator=, Vertex.cpp:48-60: the lists are cleared before the
    source's lists are copied *)
Definition assign_vertex (w : world) (dst src : nat) : outcome world :=
  x <- getv w dst ;; y <- getv w src ;;
  let w := setv w dst (V (vlive x) (vval y) (vuse y) (vid x) [] []) in
  x <- getv w dst ;; y <- getv w src ;;
  Ok (setv w dst (V (vlive x) (vval x) (vuse x) (vid x) (inE y) (outE y))).
(** Edge::Edge(Vertex*, Vertex*, int), Edge.cpp:7-10 *)
Definition new_edge (w : world) (u v : nat) (val : Z) : world :=
  World (vs w) (es w ++ [Ed true u v val true (nextE w)]) (nextV w) (S (nextE w)).
(** Edge::Edge(const Edge&), Edge.cpp:12-18 *)
Definition copy_edge (w : world) (e : nat) : outcome world :=
  x <- gete w e ;;
  Ok (World (vs w) (es w ++ [Ed true (efrom x) (eto x) (eval x) (euse x) (nextE w)]) (nextV w) (S (nextE w))).
(** Edge::operator=, Edge.cpp:22-28: the id is not assigned *)
Definition assign_edge (w : world) (dst src : nat) : outcome world :=
  x <- gete w dst ;; y <- gete w src ;;
  Ok (sete w dst (Ed (elive x) (efrom y) (eto y) (eval y) (euse y) (eid x))).
(** Vertex::addEdge, Vertex.cpp:68-72 *)
Definition add_edge (w : world) (u v : nat) (val : Z) : outcome world :=
  x <- getv w u ;;
  let e := length (es w) in
  let w := new_edge w u v val in
  let w := setv w u (V (vlive x) (vval x) (vuse x) (vid x) (inE x) (outE x ++ [e])) in
  y <- getv w v ;;
  Ok (setv w v (V (vlive y) (vval y) (vuse y) (vid y) (inE y ++ [e]) (outE y))).
(** the loop of Vertex::~Vertex, Vertex.cpp:41-43 (the pointers are not null) *)
Fixpoint delete_all (w : world) (l : list nat) : outcome world :=
  match l with
  | [] => Ok w
  | e :: l =>
      x <- gete w e ;;
      delete_all (sete w e (Ed false (efrom x) (eto x) (eval x) (euse x) (eid x))) l
  end.
(** Vertex::~Vertex, Vertex.cpp:40-46 *)
Definition destroy (w : world) (v : nat) : outcome world :=
  x <- getv w v ;;
  w <- delete_all w (outE x) ;;
  x <- getv w v ;;
  Ok (setv w v (V false (vval x) (vuse x) (vid x) [] [])).
(** getInDegree/getOutDegree, Vertex.h:30-31; operator==, Vertex.cpp:62 *)
Definition in_degree (w : world) (v : nat) : outcome nat := x <- getv w v ;; Ok (length (inE x)).
(** getOutDegree, Vertex.h:31 *)
Definition out_degree (w : world) (v : nat) : outcome nat := x <- getv w v ;; Ok (length (outE x)).
(** operator==, Vertex.cpp:62 *)
Definition vertex_eq (w : world) (u v : nat) : outcome bool :=
  x <- getv w u ;; y <- getv w v ;; Ok (vid x =? vid y).
(** Edge::operator==, Edge.cpp:30 *)
Definition edge_eq (w : world) (d e : nat) : outcome bool :=
  x <- gete w d ;; y <- gete w e ;; Ok (eid x =? eid y).

(** histories of a client; calls on Vertex.cpp and Edge.cpp *)
Inductive op :=
| NewV (val : Z) | AddE (u v : nat) (val : Z) | DelV (v : nat)
| CopyV (v : nat) | AssignV (dst src : nat) | CopyE (e : nat) | AssignE (dst src : nat).
(** one call on Vertex.cpp or Edge.cpp *)
Definition step (w : world) (o : op) : outcome world :=
  match o with
  | NewV x => Ok (new_vertex w x)
  | AddE u v x => add_edge w u v x
  | DelV v => destroy w v
  | CopyV v => copy_vertex w v
  | AssignV d s => assign_vertex w d s
  | CopyE e => copy_edge w e
  | AssignE d s => assign_edge w d s
  end.
(** a sequence of calls on Vertex.cpp and Edge.cpp *)
Fixpoint run (w : world) (os : list op) : outcome world :=
  match os with [] => Ok w | o :: os => w <- step w o ;; run w os end.
