(** Rooted trees given by a parent list: node 0 is the root and node i+1 hangs
    below the i-th entry. *)
From Verif Require Import Base.
Local Open Scope nat_scope.

(** every parent was added before *)
Definition valid (ps : list nat) : Prop := forall i p, nth_error ps i = Some p -> p <= i.
Definition is_node (ps : list nat) (x : nat) : Prop := x <= length ps.
Definition par (ps : list nat) (x : nat) : option nat :=
  match x with O => None | S i => nth_error ps i end.
(** k-th ancestor *)
Fixpoint up (ps : list nat) (k x : nat) : option nat :=
  match k with
  | O => Some x
  | S k => match par ps x with Some p => up ps k p | None => None end
  end.
Definition depth (ps : list nat) (x d : nat) : Prop := up ps d x = Some 0.
Definition children (ps : list nat) (x : nat) : list nat :=
  map S (filter (fun i => match nth_error ps i with Some p => p =? x | None => false end) (seq 0 (length ps))).
Definition above (ps : list nat) (z x : nat) : Prop := exists k, up ps k x = Some z.
(** z is the deepest common ancestor *)
Definition is_lca (ps : list nat) (x y z : nat) : Prop :=
  above ps z x /\ above ps z y /\ forall w, above ps w x -> above ps w y -> above ps w z.
(** walks along tree edges *)
Definition adj (ps : list nat) (x y : nat) : Prop := par ps x = Some y \/ par ps y = Some x.
Inductive walk (ps : list nat) : nat -> nat -> nat -> Prop :=
| walk0 x : walk ps 0 x x
| walkS n x y z : adj ps x y -> walk ps n y z -> walk ps (S n) x z.
(** in a climb of d levels starting at depth h, every table lookup made by
    binary descent from 2^(log2 h) stays inside the table *)
Definition climb_safe (h d : nat) : Prop :=
  0 < d -> forall i, i <= Nat.log2 h -> (d - 1) / 2 ^ (i + 1) * 2 ^ (i + 1) + 2 ^ i <= h.
