(** Notions for the statements about matrices of machine integers. *)
From Verif Require Import Base MatModel MatSpec IntTyModel IntTySpec.
Local Open Scope Z_scope.

(** the type in which the entries are computed: int for the narrow types *)
Definition wide (t : ty) : ty := if bits t <? 32 then Ty true W32 else t.
(** an exact intermediate result that causes no undefined behaviour *)
Definition fits (t : ty) (z : Z) : Prop := sgn (wide t) = true -> inty (wide t) z.
(** entry (i,j) of a live matrix *)
Definition entry (m : mat Z) (i j : Z) : Z := nth (Z.to_nat j) (nth (Z.to_nat i) (cells m) []) 0.
(** all entries are values of the type *)
Definition typed (t : ty) (m : mat Z) : Prop := Forall (Forall (inty t)) (cells m).
(** f 0 + ... + f (k-1) *)
Fixpoint upto (k : nat) (f : Z -> Z) : Z := match k with O => 0 | S k => upto k f + f (Z.of_nat k) end.
(** the entry of the exact product *)
Definition product (a b : mat Z) (k : nat) (i j : Z) : Z := upto k (fun l => entry a i l * entry b l j).
(** the entry types for which no intermediate result of entries of the type can overflow or
    for which overflow wraps around: all except int, long and unsigned short *)
Definition carefree (t : ty) : Prop := wrapping t /\ t <> u16.
