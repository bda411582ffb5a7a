(** Vertices handled as values: std::swap, growth of a std::vector<Vertex>, the
    setters and [operator<] of src/include/graph/Vertex.h, on top of GraphModel.

    Vertex declares a copy constructor, a copy assignment and a destructor
    (Vertex.h:15-16, 25) and no move operations, so the standard library moves
    a Vertex by copying it.  Objects are numbered in the order of their
    construction, temporaries included. *)
From Verif Require Import Base GraphModel.
Local Open Scope nat_scope.

(** setVal, Vertex.h:19 *)
Definition set_val (w : world) (v : nat) (x : Z) : outcome world :=
  a <- getv w v ;; Ok (setv w v (V (vlive a) x (vuse a) (vid a) (inE a) (outE a))).
(** setValid (true) and setInvalid (false), Vertex.h:21-22 *)
Definition set_use (w : world) (v : nat) (b : bool) : outcome world :=
  a <- getv w v ;; Ok (setv w v (V (vlive a) (vval a) b (vid a) (inE a) (outE a))).
(** getVal, Vertex.h:18 *)
Definition get_val (w : world) (v : nat) : outcome Z := a <- getv w v ;; Ok (vval a).
(** isValid, Vertex.h:20 *)
Definition is_valid (w : world) (v : nat) : outcome bool := a <- getv w v ;; Ok (vuse a).
(** operator<, Vertex.cpp:66 *)
Definition vertex_lt (w : world) (u v : nat) : outcome bool :=
  a <- getv w u ;; b <- getv w v ;; Ok (vval a <? vval b)%Z.
(** std::swap(u, v): T tmp(u); u = v; v = tmp; ~tmp with the copy constructor,
    the assignment and the destructor of Vertex.cpp:26-60 *)
Definition swap (w : world) (u v : nat) : outcome world :=
  run w [CopyV u; AssignV u v; AssignV v (length (vs w)); DelV (length (vs w))].
(** reallocation of a std::vector<Vertex> whose elements are the objects [l]:
    each element is copied into the new storage (Vertex.cpp:26-38), then the old
    elements are destroyed (Vertex.cpp:40-46) *)
Definition grow (w : world) (l : list nat) : outcome world := run w (map CopyV l ++ map DelV l).

(** programs; calls on Vertex.cpp, Edge.cpp, Vertex.h:18-23 *)
Inductive xop := Op (o : op) | SetVal (v : nat) (x : Z) | SetUse (v : nat) (b : bool)
| Swap (u v : nat) | Grow (l : list nat).
(** one call, Vertex.cpp:11-72, Vertex.h:18-23 *)
Definition xstep (w : world) (o : xop) : outcome world :=
  match o with
  | Op o => step w o
  | SetVal v x => set_val w v x
  | SetUse v b => set_use w v b
  | Swap u v => swap w u v
  | Grow l => grow w l
  end.
(** a program, Vertex.cpp:11-72, Vertex.h:18-23 *)
Fixpoint xrun (w : world) (p : list xop) : outcome world :=
  match p with [] => Ok w | o :: p => w <- xstep w o ;; xrun w p end.
