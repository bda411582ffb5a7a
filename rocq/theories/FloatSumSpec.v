(** What sums of floating-point numbers should be: real numbers, without the model's operations. *)
From Coq Require Import Reals Floats.SpecFloat.
From Flocq Require Import Core IEEE754.BinarySingleNaN.
From Verif Require Import Base FloatSumModel.
Local Open Scope Z_scope.

(** the real number of a finite value *)
Definition fval (x : spec_float) : R := SF2R radix2 x.
(** IEEE 754: digits of the significand, and the power of 2 that bounds the type *)
Definition digits (t : ftype) : Z := match t with FFloat => 24 | FDouble => 53 | FLong => 64 end.
Definition range (t : ftype) : Z := match t with FFloat => 128 | FDouble => 1024 | FLong => 16384 end.
(** [x] is a finite value of type [t] *)
Definition number (t : ftype) (x : spec_float) : Prop :=
  valid_binary (digits t) (range t) x = true /\ is_finite_SF x = true.
(** exact sums *)
Definition Rsum (l : list R) : R := fold_right Rplus 0%R l.
Definition Zsum (l : list Z) : Z := fold_right Z.add 0 l.
(** the largest relative error of one rounding to nearest *)
Definition unit_of (t : ftype) : R := / IZR (2 ^ digits t).
