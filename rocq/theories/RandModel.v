(** Model of src/random/ and src/include/random/.  The engine std::mt19937_64 is a
    parameter (any state machine with 64-bit outputs; Rand64.v contains the real one). *)
From Coq Require Import QArith Floats.SpecFloat.
From Verif Require Import Base Float NumModel.
Local Open Scope Z_scope.

(** std: an engine: seeding with a 64-bit number, and drawing *)
Record engine (G : Type) := Engine { seeded : Z -> G; gen : G -> Z * G }.
Arguments Engine {G}. Arguments seeded {G}. Arguments gen {G}.

(** Random.cpp:12-15, [nextInt(min, max)], as a function of the engine output [x]:
    [(int)(x % std::uint64_t(max - min)) + min] *)
Definition nextInt_range (x min max : Z) : outcome Z :=
  if max <=? min then Err
  else
    d <- chk32 (max - min) ;;
    chk32 (wrap32 (x mod wrapu64 d) + min).
(** Random.cpp:17-20, [nextInt()]: [(int)(x % (std::uint64_t(intMax) + 1 - intMin)) + intMin];
    the conversion to int is modular (implementation-defined, gcc/clang/MSVC) *)
Definition nextInt_all (x : Z) : outcome Z :=
  chk32 (wrap32 (x mod wrapu64 (int32_max + 1 - int32_min)) + int32_min).
(** the same with a wrapping addition; Random.cpp:17-20 *)
Definition nextInt_all_wrap (x : Z) : Z :=
  wrap32 (wrap32 (x mod wrapu64 (int32_max + 1 - int32_min)) + int32_min).
(** Random.cpp:22-25, [nextInt(max)] *)
Definition nextInt_max (x max : Z) : outcome Z := if max <=? 0 then Err else nextInt_range x 0 max.
(** Random.cpp:39, [nextBool()] *)
Definition nextBool (x : Z) : outcome bool := v <- nextInt_max x 2 ;; Ok (negb (v =? 0)).
(** Random.cpp:27-30, [nextDouble(min, max)]; [int64Max] (Random.h:88) is the largest
    uint64 and is converted to double *)
Definition unit_draw (x : Z) : double := ddiv (dof x) (dof 18446744073709551615).
(** Random.cpp:27-30, [nextDouble(min, max)] *)
Definition nextDouble_range (x : Z) (min max : double) : outcome double :=
  if dltb max min then Err
  else Ok (dadd (dmul (unit_draw x) (dsub max min)) min).
(** Random.cpp:32-35 and 37 *)
Definition nextDouble_max (x : Z) (max : double) : outcome double :=
  if dltb max dzero then Err else nextDouble_range x dzero max.
(** Random.cpp:37, [nextDouble()] *)
Definition nextDouble (x : Z) : outcome double := nextDouble_range x dzero done.

(** the calls of class Random; each draws once, setSeed (Random.cpp:41) and the
    constructor (Random.cpp:10) seed the engine with [std::uint64_t(seed)] *)
Section Engine.
Context {G : Type} (E : engine G).
(** Random.cpp:10, the constructor *)
Definition random_new (seed : Z) : G := seeded E (wrapu64 seed).
(** calls of Random.cpp:12-41 *)
Inductive rop := RInt (min max : Z) | RIntMax (max : Z) | RIntAll | RBool
  | RDouble (min max : double) | RDoubleMax (max : double) | RDouble1 | RSeed (seed : Z).
(** return values of Random.cpp:12-41 *)
Inductive rres := OInt (z : Z) | OBool (b : bool) | ODouble (d : double) | ONone.
(** one call of Random.cpp:12-41 *)
Definition rand_step (g : G) (o : rop) : outcome (G * rres) :=
  match o with
  | RInt min max => if max <=? min then Err else let (x, g) := gen E g in v <- nextInt_range x min max ;; Ok (g, OInt v)
  | RIntMax max => if max <=? 0 then Err else let (x, g) := gen E g in v <- nextInt_max x max ;; Ok (g, OInt v)
  | RIntAll => let (x, g) := gen E g in v <- nextInt_all x ;; Ok (g, OInt v)
  | RBool => let (x, g) := gen E g in v <- nextBool x ;; Ok (g, OBool v)
  | RDouble min max => if dltb max min then Err else let (x, g) := gen E g in v <- nextDouble_range x min max ;; Ok (g, ODouble v)
  | RDoubleMax max => if dltb max dzero then Err else let (x, g) := gen E g in v <- nextDouble_max x max ;; Ok (g, ODouble v)
  | RDouble1 => let (x, g) := gen E g in v <- nextDouble x ;; Ok (g, ODouble v)
  | RSeed seed => Ok (random_new seed, ONone)
  end.
(** a history of calls; calls of Random.cpp:12-41 *)
Fixpoint rand_run (g : G) (os : list rop) : outcome (G * list rres) :=
  match os with
  | [] => Ok (g, [])
  | o :: os => ' (g, r) <- rand_step g o ;; ' (g, rs) <- rand_run g os ;; Ok (g, r :: rs)
  end.

(** NormalDistribution.cpp:15-39; [sqrt] is exact IEEE, [log] is a parameter (libm).
    The state is (hasSpare, spareResult), NormalDistribution.h:67-68. *)
Context (log : double -> double).
(** the rejection loop, lines 22-32 *)
Fixpoint polar (fuel : nat) (g : G) : outcome (double * double * double * G) :=
  match fuel with
  | O => Fuel
  | S fuel =>
      let (x, g) := gen E g in
      u <- nextDouble_range x (dof (-1)) done ;;
      let (y, g) := gen E g in
      v <- nextDouble_range y (dof (-1)) done ;;
      let sum := dadd (dmul u u) (dmul v v) in
      if deqb sum dzero || dltb done sum then polar fuel g else Ok (u, v, sum, g)
  end.
(** NormalDistribution.cpp:15-39 *)
Definition normal_next (fuel : nat) (mean stddev : double) (st : bool * double) (g : G)
    : outcome (double * (bool * double) * G) :=
  if fst st then Ok (dadd (dmul (snd st) stddev) mean, (false, snd st), g)
  else
    ' (u, v, sum, g) <- polar fuel g ;;
    let result := dsqrt (ddiv (dmul (dof (-2)) (log sum)) sum) in
    Ok (dadd (dmul (dmul u result) stddev) mean, (true, dmul v result), g).
(** GammaDistribution.cpp:19-31 for an integer shape [k] (delta == 0.0), in
    particular ExponentialDistribution (k = 1): [(int)k_] draws *)
Fixpoint gamma_sum (k : nat) (sum_k : double) (g : G) : outcome (double * G) :=
  match k with
  | O => Ok (sum_k, g)
  | S k =>
      let (x, g) := gen E g in
      u <- nextDouble x ;;
      let rnd := dsub done u in
      gamma_sum k (dadd sum_k (log rnd)) g
  end.
(** GammaDistribution.cpp:19-31 with an integer k_ *)
Definition gamma_next (k : nat) (theta : double) (g : G) : outcome (double * G) :=
  ' (sum_k, g) <- gamma_sum k dzero g ;; Ok (dmul theta (dneg sum_k), g).
End Engine.

(** the samplers below are the same code over any arithmetic: doubles, or exact rationals; operations used in src/random/*.cpp *)
Record arith (N : Type) := Arith {
  add : N -> N -> N; mul : N -> N -> N; sub : N -> N -> N; div : N -> N -> N;
  ltb : N -> N -> bool; geb : N -> N -> bool; of_int : Z -> N; pow : N -> Z -> N }.
Arguments Arith {N}. Arguments add {N}. Arguments mul {N}. Arguments sub {N}. Arguments div {N}.
Arguments ltb {N}. Arguments geb {N}. Arguments of_int {N}. Arguments pow {N}.
(** [<] in exact arithmetic (the comparisons of src/random/*.cpp) *)
Definition Qltb (a b : Q) : bool := negb (Qle_bool b a).
(** exact rational arithmetic in place of double in src/random/*.cpp *)
Definition exact : arith Q := Arith Qplus Qmult Qminus Qdiv Qltb (fun a b => Qle_bool b a) inject_Z Qpower.
(** [pow] is libm's std::pow *)
Definition binary64 (pow : double -> Z -> double) : arith double :=
  Arith dadd dmul dsub ddiv dltb (fun a b => dleb b a) dof pow.

Section Samplers.
Context {N : Type} (A : arith N).
(** BernoulliDistribution.cpp:5-17 *)
Definition bernoulli_init (p : N) : outcome N :=
  if ltb A p (of_int A 0) || ltb A (of_int A 1) p then Err else Ok p.
(** BernoulliDistribution.cpp:11-17 *)
Definition bernoulli_next (p rnd : N) : bool := ltb A rnd p.

(** NegativeBinomialDistribution.cpp:8-15: the parameters and pPowr *)
Definition negbin_init (r : Z) (p : N) : outcome (Z * N * N) :=
  if (r <=? 0) || geb A (of_int A 0) p || ltb A (of_int A 1) p then Err
  else pPowr <- genericBinaryPow1 (mul A) (of_int A 1) p r ;; Ok (r, p, pPowr).
(** NegativeBinomialDistribution.cpp:17-30; int arithmetic is range-checked *)
Fixpoint negbin_loop (fuel : nat) (r : Z) (p_complement rnd : N) (result : Z) (probability threshold : N) : outcome Z :=
  match fuel with
  | O => Fuel
  | S fuel =>
      if geb A rnd threshold then
        result <- chk32 (result + 1) ;;
        k <- chk32 (r + result) ;;
        let probability := mul A probability (div A (mul A p_complement (of_int A (k - 1))) (of_int A result)) in
        negbin_loop fuel r p_complement rnd result probability (add A threshold probability)
      else Ok result
  end.
(** NegativeBinomialDistribution.cpp:17-30 *)
Definition negbin_next (fuel : nat) (d : Z * N * N) (rnd : N) : outcome Z :=
  let '(r, p, pPowr) := d in
  negbin_loop fuel r (sub A (of_int A 1) p) rnd 0 pPowr pPowr.
(** GeometricDistribution.h:32-42 *)
Definition geometric_init (p : N) := negbin_init 1 p.

(** PoissonDistribution.cpp:7-26; [expLambda] = std::exp(-lambda) (libm) is a parameter *)
Definition poisson_init (lambda expLambda : N) : outcome (N * N) :=
  if geb A (of_int A 0) lambda then Err else Ok (lambda, expLambda).
(** PoissonDistribution.cpp:20-24 *)
Fixpoint poisson_loop (fuel : nat) (lambda rnd : N) (result : Z) (probability threshold : N) : outcome Z :=
  match fuel with
  | O => Fuel
  | S fuel =>
      if geb A rnd threshold then
        result <- chk32 (result + 1) ;;
        let probability := mul A probability (div A lambda (of_int A result)) in
        poisson_loop fuel lambda rnd result probability (add A threshold probability)
      else Ok result
  end.
(** PoissonDistribution.cpp:15-26 *)
Definition poisson_next (fuel : nat) (d : N * N) (rnd : N) : outcome Z :=
  let (lambda, expLambda) := d in poisson_loop fuel lambda rnd 0 expLambda expLambda.

(** BinomialDistribution.cpp:8-25: the lookup table (entries 0 .. n, the last one 1);
    [binomial(n_, i)] is the int function of math_functions.h *)
Fixpoint binom_table (fuel : nat) (n : Z) (p p_complement : N) (i : Z) (threshold : N) : outcome (list N) :=
  match fuel with
  | O => Ok [of_int A 1]
  | S fuel =>
      b <- binomial I32 n i ;;
      let threshold := add A threshold (mul A (mul A (of_int A b) (pow A p i)) (pow A p_complement (n - i))) in
      omap (cons threshold) (binom_table fuel n p p_complement (i + 1) threshold)
  end.
(** BinomialDistribution.cpp:8-25 *)
Definition binomial_init (n : Z) (p : N) : outcome (Z * list N) :=
  if (n <? 0) || ltb A p (of_int A 0) || ltb A (of_int A 1) p then Err
  else
    _ <- chk32 (n + 1) ;;
    t <- binom_table (Z.to_nat n) n p (sub A (of_int A 1) p) 0 (of_int A 0) ;; Ok (n, t).
(** BinomialDistribution.cpp:27-33 *)
Fixpoint binom_search (fuel : nat) (t : list N) (rnd : N) (i : Z) : outcome Z :=
  match fuel with
  | O => Ok i
  | S fuel => v <- aget t i ;; if ltb A rnd v then Ok i else binom_search fuel t rnd (i + 1)
  end.
(** BinomialDistribution.cpp:27-33 *)
Definition binomial_next (d : Z * list N) (rnd : N) : outcome Z := binom_search (Z.to_nat (fst d)) (snd d) rnd 0.
End Samplers.
