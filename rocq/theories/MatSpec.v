(** Textbook notions for matrices: entries, sums, echelon form, null space. *)
From Coq Require Import Ring_theory Field_theory.
From Verif Require Import Base MatModel.
Local Open Scope Z_scope.

Section Spec.
Context {A : Type} (o : ops A).

(** a live n x c matrix *)
Definition shape (m : mat A) (n c : Z) : Prop :=
  live m = true /\ row m = n /\ col m = c /\ 0 <= n /\ 0 <= c /\
  length (cells m) = Z.to_nat n /\ Forall (fun r => length r = Z.to_nat c) (cells m).
(** entry (i,j) *)
Definition ent (m : mat A) (i j : Z) : A := nth (Z.to_nat j) (nth (Z.to_nat i) (cells m) []) (o0 o).
(** f 0 + ... + f (n-1) *)
Fixpoint sumn (n : nat) (f : Z -> A) : A :=
  match n with O => o0 o | S k => oadd o (sumn k f) (f (Z.of_nat k)) end.
(** the column vector x is a solution of m x = 0 *)
Definition solves (m : mat A) (x : Z -> A) : Prop :=
  forall i, 0 <= i < row m ->
    sumn (Z.to_nat (col m)) (fun j => omul o (ent m i j) (x j)) = o0 o.
(** row echelon form with leading ones: pivot columns [ps] strictly increase,
    row t < |ps| starts with zeros up to its pivot 1, later rows are zero *)
Definition echelon (m : mat A) (ps : list Z) : Prop :=
  (length ps <= Z.to_nat (row m))%nat /\
  (forall s t, (s < t < length ps)%nat -> nth s ps 0 < nth t ps 0) /\
  (forall t, (t < length ps)%nat ->
     0 <= nth t ps 0 < col m /\
     ent m (Z.of_nat t) (nth t ps 0) = o1 o /\
     forall j, 0 <= j < nth t ps 0 -> ent m (Z.of_nat t) j = o0 o) /\
  (forall i j, Z.of_nat (length ps) <= i < row m -> 0 <= j < col m -> ent m i j = o0 o).

(** exact arithmetic *)
Definition is_ring (opp : A -> A) : Prop :=
  ring_theory (o0 o) (o1 o) (oadd o) (omul o) (osub o) opp eq.
Definition is_field (opp inv : A -> A) : Prop :=
  field_theory (o0 o) (o1 o) (oadd o) (omul o) (osub o) opp (odiv o) inv eq.
Definition eq_test : Prop := forall x y, oeqb o x y = true <-> x = y.
End Spec.
