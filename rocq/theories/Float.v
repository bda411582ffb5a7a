(** The type [double] of the code: IEEE-754 binary64 with rounding to nearest even,
    as specified by the standard library (Coq.Floats.SpecFloat: computable, NaNs
    without payload).  Every arithmetic operation rounds once (no extended
    precision, no contraction to fma). *)
From Coq Require Import Floats.SpecFloat.
From Verif Require Import Base.
Local Open Scope Z_scope.

(** the C++ type double of statistics.cpp, Point.h and src/random: IEEE-754 binary64 *)
Definition double := spec_float.
(** the binary operators +, -, *, / on doubles; e.g. statistics.cpp:11 *)
Definition dadd : double -> double -> double := SFadd 53 1024.
(** binary [-] on doubles, e.g. statistics.cpp:10 *)
Definition dsub : double -> double -> double := SFsub 53 1024.
(** [*] on doubles, e.g. statistics.cpp:11 *)
Definition dmul : double -> double -> double := SFmul 53 1024.
(** [/] on doubles, e.g. statistics.cpp:13 *)
Definition ddiv : double -> double -> double := SFdiv 53 1024.
(** unary [-] on doubles, e.g. GammaDistribution.cpp:31 *)
Definition dneg : double -> double := SFopp.
(** std::abs, std::sqrt (correctly rounded by IEEE-754) *)
Definition dabs : double -> double := SFabs.
(** std::sqrt, e.g. statistics.cpp:26 *)
Definition dsqrt : double -> double := SFsqrt 53 1024.
(** comparisons: false if an argument is NaN; e.g. Random.cpp:28 *)
Definition dltb : double -> double -> bool := SFltb.
(** [<=] on doubles, e.g. NormalDistribution.cpp:8 *)
Definition dleb : double -> double -> bool := SFleb.
(** [==] on doubles, e.g. NormalDistribution.cpp:32 *)
Definition deqb : double -> double -> bool := SFeqb.
(** m * 2^e rounded; conversion of an integer (static_cast<double>) is [dmake z 0]; e.g. statistics.cpp:13 *)
Definition dmake (m e : Z) : double := binary_normalize 53 1024 m e false.
(** conversion of an integer to double, e.g. Random.cpp:29 *)
Definition dof (z : Z) : double := dmake z 0.
(** the literal 0.0, e.g. statistics.cpp:7 *)
Definition dzero : double := S754_zero false.
(** the literal 1.0, e.g. Random.cpp:37 *)
Definition done : double := dof 1.
(** infinity, a result of IEEE-754 operations (std::numeric_limits) *)
Definition dinf : double := S754_infinity false.
(** NaN, a result of IEEE-754 operations (std::numeric_limits) *)
Definition dnan : double := S754_nan.
(** the canonical form demanded by the format: every value of the C++ type; std: IEEE-754 binary64 *)
Definition dvalid (x : double) : bool := valid_binary 53 1024 x.
(** neither infinite nor NaN (std::isfinite) *)
Definition dfinite (x : double) : bool := match x with S754_zero _ | S754_finite _ _ _ => true | _ => false end.
