(** Specification of the parameter checks and of the real-valued samplers. *)
From Coq Require Import Reals.
From Verif Require Import Base Float FloatProofs RandModel DistModel.

(** parameters that are doubles (not NaN, not infinite) and ints *)
Definition number (x : double) : Prop := dvalid x = true /\ dfinite x = true.
Definition proper (p : params) : Prop :=
  match p with
  | PBernoulli p => number p
  | PUniformInt min max => in_int32 min = true /\ in_int32 max = true
  | PUniform min max => number min /\ number max
  | PNormal mean stddev => number mean /\ number stddev
  | PGamma k theta => number k /\ number theta
  | PExponential x | PChiSquared x | PStudentT x | PGeometric x | PPoisson x => number x
  | PNegBin r p => in_int32 r = true /\ number p
  | PBinomial n p => in_int32 n = true /\ number p
  end.
(** the parameter ranges of the documentation *)
Definition documented (p : params) : Prop :=
  match p with
  | PBernoulli p => (0 <= real p <= 1)%R
  | PUniformInt min max => (min < max)%Z
  | PUniform min max => (real min <= real max)%R
  | PNormal mean stddev => (0 < real stddev)%R
  | PGamma k theta => (0 < real k)%R /\ (0 < real theta)%R
  | PExponential x | PChiSquared x | PStudentT x | PPoisson x => (0 < real x)%R
  | PNegBin r p => (0 < r)%Z /\ (0 < real p <= 1)%R
  | PGeometric p => (0 < real p <= 1)%R
  | PBinomial n p => (0 <= n)%Z /\ (0 <= real p <= 1)%R
  end.
(** the ranges that the constructors accept: +0 is a rate, and the least positive double is
    not a number of degrees of freedom *)
Definition accepted (p : params) : Prop :=
  match p with
  | PExponential lambda => (0 < real lambda)%R \/ lambda = dzero
  | PChiSquared r => (0 < real r)%R /\ r <> dmake 1 (-1074)
  | p => documented p
  end.
(** the first [n] outputs of an engine and the state after them *)
Fixpoint outputs {G} (E : engine G) (n : nat) (g : G) : list Z :=
  match n with O => [] | S n => fst (gen E g) :: outputs E n (snd (gen E g)) end.
Fixpoint after {G} (E : engine G) (n : nat) (g : G) : G :=
  match n with O => g | S n => after E n (snd (gen E g)) end.
