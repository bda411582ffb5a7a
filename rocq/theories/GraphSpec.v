(** Directed multigraphs: what a history of vertex and edge creations denotes. *)
From Verif Require Import Base GraphModel.
Local Open Scope nat_scope.

(** arcs in creation order, number of vertices *)
Fixpoint arcs (os : list op) : list (nat * nat) :=
  match os with
  | [] => []
  | AddE u v _ :: os => (u, v) :: arcs os
  | _ :: os => arcs os
  end.
Fixpoint nverts (os : list op) : nat :=
  match os with [] => 0 | NewV _ :: os => S (nverts os) | _ :: os => nverts os end.
(** only creation of vertices and edges and destruction of vertices, each
    operation naming vertices that exist and are not destroyed *)
Fixpoint legal (n : nat) (dead : list nat) (os : list op) : Prop :=
  match os with
  | [] => True
  | NewV _ :: os => legal (S n) dead os
  | AddE u v _ :: os => u < n /\ ~ In u dead /\ v < n /\ ~ In v dead /\ legal n dead os
  | DelV v :: os => v < n /\ ~ In v dead /\ legal n (v :: dead) os
  | _ :: _ => False
  end.
(** numbers of the arcs leaving / entering [v], in creation order *)
Definition leaving (g : list (nat * nat)) (v : nat) : list nat :=
  filter (fun i => match nth_error g i with Some (u, _) => u =? v | None => false end) (seq 0 (length g)).
Definition entering (g : list (nat * nat)) (v : nat) : list nat :=
  filter (fun i => match nth_error g i with Some (_, u) => u =? v | None => false end) (seq 0 (length g)).
Definition total (f : nat -> nat) (n : nat) : nat := list_sum (map f (seq 0 n)).
