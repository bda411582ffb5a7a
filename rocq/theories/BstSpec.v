(** Specification of BST: an ordered sequence of nodes. *)
From Verif Require Import Base BstModel.
Local Open Scope nat_scope.

(** node [x] goes behind every node whose key is not larger *)
Fixpoint place (key : nat -> Z) (x : nat) (l : list nat) : list nat :=
  match l with
  | [] => [x]
  | y :: l => if (key y <=? key x)%Z then y :: place key x l else x :: y :: l
  end.
(** key of a node, nodes being numbered in creation order *)
Definition keys (kvs : list (Z * Z)) (x : nat) : Z := fst (nth x kvs (0%Z, 0%Z)).

(** binary trees of nodes *)
Inductive tree := Lf | Nd (l : tree) (x : nat) (r : tree).
Definition troot (t : tree) : option nat := match t with Lf => None | Nd _ x _ => Some x end.
Fixpoint inorder (t : tree) : list nat :=
  match t with Lf => [] | Nd l x r => inorder l ++ x :: inorder r end.
Fixpoint sorted (key : nat -> Z) (l : list nat) : Prop :=
  match l with
  | [] => True
  | x :: l => (forall y, In y l -> (key x <= key y)%Z) /\ sorted key l
  end.
(** last element / first element *)
Definition last_of (l : list nat) : option nat :=
  match rev l with [] => None | x :: _ => Some x end.
Definition first_of (l : list nat) : option nat :=
  match l with [] => None | x :: _ => Some x end.

(** the heap holds the tree [t]: child pointers and keys ... *)
Fixpoint linked_down (key : nat -> Z) (h : heap) (t : tree) : Prop :=
  match t with
  | Lf => True
  | Nd l x r =>
      (exists n, nth_error h x = Some n /\ ch0 n = troot l /\ ch1 n = troot r /\ rank n = key x) /\
      linked_down key h l /\ linked_down key h r
  end.
(** ... and parent pointers, [f] being the parent of the whole tree *)
Fixpoint linked_up (h : heap) (f : option nat) (t : tree) : Prop :=
  match t with
  | Lf => True
  | Nd l x r =>
      (exists n, nth_error h x = Some n /\ bfa n = f) /\ linked_up h (Some x) l /\ linked_up h (Some x) r
  end.

(** histories in which every erased node is the smallest one: number of nodes
    created and ordered sequence of the nodes present *)
Fixpoint history (key : nat -> Z) (n : nat) (l : list nat) (os : list op) : option (nat * list nat) :=
  match os with
  | [] => Some (n, l)
  | Ins _ _ :: os => history key (S n) (place key n l) os
  | Del x :: os =>
      match l with
      | y :: l => if x =? y then history key n l os else None
      | [] => None
      end
  end.
(** key and value of the nodes in creation order *)
Fixpoint created (os : list op) : list (Z * Z) :=
  match os with [] => [] | Ins k v :: os => (k, v) :: created os | Del _ :: os => created os end.
