(** The polar method in exact arithmetic, and what a pair of independent
    standard normal numbers looks like in polar coordinates. *)
From Coq Require Import Reals.
From Flocq Require Import Core.
From Verif Require Import Base Float FloatProofs RandModel DistNumSpec NormModel DistRealSpec.
Local Open Scope R_scope.

(** exact arithmetic *)
Definition rnorm : norm_ops R :=
  NormOps 0 1 (-1) (-2) Rplus Rminus Rmult Rdiv Req_bool (fun x y => Rlt_bool y x) ln sqrt.
(** (x, y) lies in the quadrant with the given signs, within the angle alpha of
    the second axis and at distance at least rho from the origin *)
Definition in_sector (sx sy alpha rho : R) (p : R * R) : bool :=
  let (x, y) := p in
  (Rlt_bool 0 (sx * x) && Rlt_bool 0 (sy * y) && Rle_bool (Rabs x * cos alpha) (Rabs y * sin alpha) &&
   Rle_bool (rho * rho) (x * x + y * y))%bool.
Definition sign (s : R) : Prop := s = 1 \/ s = -1.
(** assumption on libm: the logarithm of a double in [2^-106, 1] is a double in [-74, 0] *)
Definition fair_log (log : double -> double) : Prop :=
  forall s, number s -> bpow radix2 (-106) <= FloatProofs.real s <= 1 -> number (log s) /\ -74 <= FloatProofs.real (log s) <= 0.
(** what the object holds between calls: nothing, or a standard sample of size at most 13 *)
Definition good (st : bool * double) : Prop := fst st = true -> number (snd st) /\ Rabs (FloatProofs.real (snd st)) <= 13.
