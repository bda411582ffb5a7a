(** First occurrence of a pattern in a text. *)
From Verif Require Import Base.

(** [p] occurs in [b] at index [i]: [b = u ++ p ++ v] with [length u = i]. *)
Definition occurs_at (b p : bytes) (i : nat) : Prop :=
  exists u v, b = u ++ p ++ v /\ length u = i.

(** [r] is the index of the first occurrence at or after [start], or -1. *)
Definition first_occurrence (b p : bytes) (start : nat) (r : Z) : Prop :=
  (exists i, r = Z.of_nat i /\ start <= i /\ occurs_at b p i /\
     forall j, start <= j < i -> ~ occurs_at b p j) \/
  (r = (-1)%Z /\ forall i, start <= i -> ~ occurs_at b p i).
