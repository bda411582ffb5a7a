(** Who holds an edge, which vertices a program destroys or overwrites, and
    programs that move only vertices without leaving edges. *)
From Verif Require Import Base GraphModel GraphSpec VertMoveModel.
Local Open Scope nat_scope.

(** vertex v is alive and lists edge e in outEdges *)
Definition holds (w : world) (v e : nat) : Prop := exists x, getv w v = Ok x /\ In e (outE x).
(** edge e has been deleted *)
Definition freed (w : world) (e : nat) : Prop := exists x, nth_error (es w) e = Some x /\ elive x = false.

(** the program destroys vertex v (a growing vector destroys its old elements) *)
Definition destroys (v : nat) (p : list xop) : Prop :=
  In (Op (DelV v)) p \/ exists l, In (Grow l) p /\ In v l.
(** the program assigns to vertex v *)
Definition overwrites (v : nat) (p : list xop) : Prop :=
  exists u, In (Op (AssignV v u)) p \/ In (Swap v u) p \/ In (Swap u v) p.

(** the edges a program adds, in order *)
Fixpoint xarcs (p : list xop) : list (nat * nat) :=
  match p with
  | [] => []
  | Op (AddE u v _) :: p => (u, v) :: xarcs p
  | _ :: p => xarcs p
  end.
(** the vertex objects a program constructs *)
Fixpoint xverts (p : list xop) : nat :=
  match p with
  | [] => 0
  | Op (NewV _) :: p => S (xverts p)
  | Op (CopyV _) :: p => S (xverts p)
  | Swap _ _ :: p => S (xverts p)
  | Grow l :: p => length l + xverts p
  | _ :: p => xverts p
  end.
(** no edge leaves v so far *)
Definition bare (g : list (nat * nat)) (v : nat) : Prop := forall w, ~ In (v, w) g.
(** every call names existing vertices, and only vertices without leaving edges
    are copied, assigned, swapped or moved to new storage; [n] objects so far,
    those of [dead] destroyed, edges [g] added *)
Fixpoint careful (n : nat) (dead : list nat) (g : list (nat * nat)) (p : list xop) : Prop :=
  let ok v := v < n /\ ~ In v dead in
  match p with
  | [] => True
  | Op (NewV _) :: p => careful (S n) dead g p
  | Op (AddE u v _) :: p => ok u /\ ok v /\ careful n dead (g ++ [(u, v)]) p
  | Op (DelV v) :: p => ok v /\ careful n (v :: dead) g p
  | Op (CopyV v) :: p => ok v /\ bare g v /\ careful (S n) dead g p
  | Op (AssignV d s) :: p => ok d /\ bare g d /\ ok s /\ bare g s /\ careful n dead g p
  | Op _ :: _ => False
  | SetVal v _ :: p => ok v /\ careful n dead g p
  | SetUse v _ :: p => ok v /\ careful n dead g p
  | Swap u v :: p => ok u /\ bare g u /\ ok v /\ bare g v /\ careful (S n) (n :: dead) g p
  | Grow l :: p => NoDup l /\ Forall ok l /\ Forall (bare g) l /\ careful (n + length l) (rev l ++ dead) g p
  end.
