(** Geometry on binary64 coordinates: the real numbers they denote and how close a
    result is to a real number. *)
From Coq Require Import Reals Floats.SpecFloat.
From Flocq Require Import Core.
From Verif Require Import Base Float FloatProofs DistNumSpec.
Local Open Scope R_scope.

(** a double holding an integer of magnitude at most [b] *)
Definition whole (b : Z) (x : double) : Prop := number x /\ exists z, real x = IZR z /\ (Z.abs z <= b)%Z.
Definition whole_point (b : Z) (p : double * double) : Prop := whole b (fst p) /\ whole b (snd p).
(** a point of the plane and a vector of any dimension as real numbers *)
Definition rpair (p : double * double) : R * R := (real (fst p), real (snd p)).
Fixpoint rdot (p q : list R) : R := match p, q with a :: p, b :: q => a * b + rdot p q | _, _ => 0 end.
Definition norm (p : list R) : R := sqrt (rdot p p).
(** [x] is within [k] units of 2^-53 of [y], relative to the magnitude [m] *)
Definition close (k : R) (m x y : R) : Prop := Rabs (x - y) <= k * bpow radix2 (-53) * m.
(** zero, or of a magnitude between 2^-k and 2^k *)
Definition moderate (k : Z) (x : double) : Prop := number x /\ (real x = 0 \/ bpow radix2 (- k) <= Rabs (real x) <= bpow radix2 k).
