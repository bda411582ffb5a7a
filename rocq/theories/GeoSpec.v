(** Plane geometry and lexicographic order over real numbers. *)
From Coq Require Import Reals.
From Verif Require Import Base.
Local Open Scope R_scope.

(** lexicographic order of coordinate lists *)
Inductive lex_lt : list R -> list R -> Prop :=
  | lex_here a b p q : a < b -> lex_lt (a :: p) (b :: q)
  | lex_later a p q : lex_lt p q -> lex_lt (a :: p) (a :: q).

(** the point of the line through [o] with direction [v] at parameter [t] *)
Definition at_param (o v : R * R) (t : R) : R * R := (fst o + t * fst v, snd o + t * snd v).
Definition distance (p q : R * R) : R := sqrt ((fst p - fst q) * (fst p - fst q) + (snd p - snd q) * (snd p - snd q)).
Definition on_line (o v p : R * R) : Prop := exists t, p = at_param o v t.
(** [d] is the least distance from [p] to a point with a parameter in [T] *)
Definition least_distance (T : R -> Prop) (o v p : R * R) (d : R) : Prop :=
  (exists t, T t /\ distance p (at_param o v t) = d) /\ forall t, T t -> d <= distance p (at_param o v t).
Definition parallel (v w : R * R) : Prop := fst v * snd w = snd v * fst w.
(** component of [p - o] along [v], times |v| *)
Definition along (o v p : R * R) : R := fst v * (fst p - fst o) + snd v * (snd p - snd o).
