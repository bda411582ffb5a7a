(** Model of the distribution classes as objects: src/include/random/Distribution.h and
    the classes derived from it, and of src/random/random_functions.cpp.  The engine and
    the functions log, exp and pow of libm are parameters. *)
From Coq Require Import Floats.SpecFloat.
From Verif Require Import Base Float NumModel RandModel.
Local Open Scope Z_scope.

(** std::floor on a finite double, as an integer (GammaDistribution.cpp:25) *)
Definition floorZ (x : double) : Z :=
  match x with
  | S754_finite s m e =>
      let z := if s then Z.neg m else Z.pos m in
      if 0 <=? e then z * 2 ^ e else z / 2 ^ (- e)
  | _ => 0
  end.
(** std::floor; infinities, NaN and zeros are returned unchanged *)
Definition dfloor (x : double) : double :=
  match x with S754_finite _ _ _ => dof (floorZ x) | _ => x end.
(** the conversion [(int)k_] (GammaDistribution.cpp:21): truncation, undefined if the result
    is not an int *)
Definition to_int (x : double) : outcome Z :=
  match x with
  | S754_zero _ => Ok 0
  | S754_finite s _ _ => chk32 (if s then - floorZ (SFopp x) else floorZ x)
  | _ => UB
  end.
(** M_E, 2.71828182845904523536 as a double (GammaDistribution.cpp:41) *)
Definition M_E : double := dmake 6121026514868073 (-51).

(** one round of the Ahrens-Dieter loop, over any arithmetic: doubles, or exact reals; the operations of GammaDistribution.cpp:19-51 *)
Record field_ops (N : Type) := FieldOps {
  fzero : N; fone : N; fe : N; fadd : N -> N -> N; fsub : N -> N -> N; fmul : N -> N -> N; fdiv : N -> N -> N; fneg : N -> N;
  fle : N -> N -> bool; fgt : N -> N -> bool; flog : N -> N; fexp : N -> N; fpow : N -> N -> N }.
Arguments FieldOps {N}. Arguments fzero {N}. Arguments fone {N}. Arguments fe {N}. Arguments fadd {N}. Arguments fsub {N}. Arguments fmul {N}. Arguments fdiv {N}. Arguments fneg {N}.
Arguments fle {N}. Arguments fgt {N}. Arguments flog {N}. Arguments fexp {N}. Arguments fpow {N}.
(** GammaDistribution.cpp:41-48, with u, v and w drawn; [None]: the round is repeated *)
Definition gamma_try {N} (O : field_ops N) (delta u v w : N) : option N :=
  let '(ksi, ita) :=
    if fle O u (fdiv O (fe O) (fadd O (fe O) delta)) then
      let ksi := fpow O v (fdiv O (fone O) delta) in (ksi, fmul O w (fpow O ksi (fsub O delta (fone O))))
    else
      let ksi := fsub O (fone O) (flog O v) in (ksi, fmul O w (fexp O (fneg O ksi))) in
  if fgt O ita (fmul O (fpow O ksi (fsub O delta (fone O))) (fexp O (fneg O ksi))) then None else Some ksi.
(** GammaDistribution.cpp:20-31 with an integer k_, as a function of the k_ draws *)
Definition gamma_of_draws {N} (O : field_ops N) (theta : N) (us : list N) : N :=
  fmul O theta (fneg O (fold_left (fun sum_k u => fadd O sum_k (flog O (fsub O (fone O) u))) us (fzero O))).
(** the two arithmetics; the double operations of GammaDistribution.cpp:19-51; log, exp and pow are libm's *)
Definition double_ops (log exp : double -> double) (pow : double -> double -> double) : field_ops double :=
  FieldOps dzero done M_E dadd dsub dmul ddiv dneg dleb (fun x y => dltb y x) log exp pow.

Section Dist.
Context {G : Type} (E : engine G) (log exp : double -> double) (pow : double -> double -> double).
(** pow with an int exponent (BinomialDistribution.cpp) is std::pow(double, double) *)
Definition B64 : arith double := binary64 (fun x i => pow x (dof i)).
(** [randomGenerator->nextDouble()] and [nextDouble(min, max)]; Random.cpp:27-30, 37 *)
Definition draw (g : G) : outcome (double * G) :=
  let (x, g) := gen E g in u <- nextDouble x ;; Ok (u, g).

(** GammaDistribution.cpp:11-17 *)
Definition gamma_init (k theta : double) : outcome (double * double) :=
  if dleb k dzero || dleb theta dzero then Err else Ok (k, theta).
(** the Ahrens-Dieter loop, GammaDistribution.cpp:37-48 *)
Fixpoint gamma_reject (fuel : nat) (delta : double) (g : G) : outcome (double * G) :=
  match fuel with
  | O => Fuel
  | S fuel =>
      ' (u, g) <- draw g ;; let u := dsub done u in
      ' (v, g) <- draw g ;; let v := dsub done v in
      ' (w, g) <- draw g ;; let w := dsub done w in
      match gamma_try (double_ops log exp pow) delta u v w with
      | None => gamma_reject fuel delta g
      | Some ksi => Ok (ksi, g)
      end
  end.
(** GammaDistribution.cpp:19-51 *)
Definition gamma_draw (fuel : nat) (k theta : double) (g : G) : outcome (double * G) :=
  n <- to_int k ;;
  ' (sum_k, g) <- gamma_sum E log (Z.to_nat n) dzero g ;;
  let delta := dsub k (dfloor k) in
  if deqb delta dzero then Ok (dmul theta (dneg sum_k), g)
  else ' (ksi, g) <- gamma_reject fuel delta g ;; Ok (dmul theta (dsub ksi sum_k), g).

(** the getters that compute: ExponentialDistribution.h:48 (from theta_) and
    ChiSquaredDistribution.h:44 (from k_) *)
Definition exponential_lambda (theta : double) : double := ddiv done theta.
(** getter of ChiSquaredDistribution.h:44 *)
Definition chi_squared_r (k : double) : double := dmul k (dof 2).

(** StudentTDistribution.cpp:10-21.  The two operands of the product draw from the same
    generator and C++ leaves their order open: [normal_first] is the compiler's choice.
    The local objects use the generator of this object and do not delete it. *)
Definition student_init (r : double) : outcome double := if dleb r dzero then Err else Ok r.
(** StudentTDistribution.cpp:17-21 *)
Definition student_draw (normal_first : bool) (fuel : nat) (r : double) (g : G) : outcome (double * G) :=
  ' (k, theta) <- gamma_init (ddiv r (dof 2)) (dof 2) ;;
  if normal_first then
    ' (z, _, g) <- normal_next E log fuel dzero done (false, dzero) g ;;
    ' (c, g) <- gamma_draw fuel k theta g ;;
    Ok (dmul z (dsqrt (ddiv r c)), g)
  else
    ' (c, g) <- gamma_draw fuel k theta g ;;
    ' (z, _, g) <- normal_next E log fuel dzero done (false, dzero) g ;;
    Ok (dmul z (dsqrt (ddiv r c)), g).

(** the data members of the derived classes; member lists as cited per line *)
Inductive sampler :=
| SBernoulli (p : double)                          (* BernoulliDistribution.h:52 *)
| SUniformInt (min max : Z)                        (* UniformIntDistribution.h:84-85 *)
| SUniform (min max : double)                      (* UniformDistribution.h:90-91 *)
| SNormal (mean stddev : double) (spare : bool * double) (* NormalDistribution.h:65-68 *)
| SGamma (k theta : double)                        (* GammaDistribution.h:61-62 *)
| SStudentT (r : double)                           (* StudentTDistribution.h:53 *)
| SNegBin (d : Z * double * double)                (* NegativeBinomialDistribution.h:68-71 *)
| SPoisson (d : double * double)                   (* PoissonDistribution.h:54-55 *)
| SBinomial (d : Z * list double).                 (* BinomialDistribution.h:63-65 *)
(** the constructors without the generator argument, in the order of the headers; the
    overloads with fewer arguments use 0 for [min]; the headers are src/include/random/*Distribution.h *)
Inductive params :=
| PBernoulli (p : double) | PUniformInt (min max : Z) | PUniform (min max : double)
| PNormal (mean stddev : double) | PGamma (k theta : double) | PExponential (lambda : double)
| PChiSquared (r : double) | PStudentT (r : double) | PNegBin (r : Z) (p : double)
| PGeometric (p : double) | PPoisson (lambda : double) | PBinomial (n : Z) (p : double).
(** the init functions: UniformIntDistribution.cpp:7-13, UniformDistribution.cpp:7-13,
    NormalDistribution.cpp:7-13, ExponentialDistribution.h:31-32, ChiSquaredDistribution.h:28,
    GeometricDistribution.h:32-33, and those of RandModel *)
Definition init (p : params) : outcome sampler :=
  match p with
  | PBernoulli p => omap SBernoulli (bernoulli_init B64 p)
  | PUniformInt min max => if max <=? min then Err else Ok (SUniformInt min max)
  | PUniform min max => if dltb max min then Err else Ok (SUniform min max)
  | PNormal mean stddev => if dleb stddev dzero then Err else Ok (SNormal mean stddev (false, dzero))
  | PGamma k theta => ' (k, theta) <- gamma_init k theta ;; Ok (SGamma k theta)
  | PExponential lambda => ' (k, theta) <- gamma_init done (ddiv done lambda) ;; Ok (SGamma k theta)
  | PChiSquared r => ' (k, theta) <- gamma_init (ddiv r (dof 2)) (dof 2) ;; Ok (SGamma k theta)
  | PStudentT r => omap SStudentT (student_init r)
  | PNegBin r p => omap SNegBin (negbin_init B64 r p)
  | PGeometric p => omap SNegBin (geometric_init B64 p)
  | PPoisson lambda => omap SPoisson (poisson_init B64 lambda (exp (dneg lambda)))
  | PBinomial n p => omap SBinomial (binomial_init B64 n p)
  end.
(** [next()] of each class, on the generator state; next() of the classes in src/random/*.cpp *)
Definition sample (normal_first : bool) (fuel : nat) (s : sampler) (g : G) : outcome (rres * sampler * G) :=
  match s with
  | SBernoulli p => ' (u, g) <- draw g ;; Ok (OBool (bernoulli_next B64 p u), s, g)
  | SUniformInt min max => ' (g, r) <- rand_step E g (RInt min max) ;; Ok (r, s, g)
  | SUniform min max => ' (g, r) <- rand_step E g (RDouble min max) ;; Ok (r, s, g)
  | SNormal mean stddev spare =>
      ' (d, spare, g) <- normal_next E log fuel mean stddev spare g ;; Ok (ODouble d, SNormal mean stddev spare, g)
  | SGamma k theta => ' (d, g) <- gamma_draw fuel k theta g ;; Ok (ODouble d, s, g)
  | SStudentT r => ' (d, g) <- student_draw normal_first fuel r g ;; Ok (ODouble d, s, g)
  | SNegBin d => ' (u, g) <- draw g ;; z <- negbin_next B64 fuel d u ;; Ok (OInt z, s, g)
  | SPoisson d => ' (u, g) <- draw g ;; z <- poisson_next B64 fuel d u ;; Ok (OInt z, s, g)
  | SBinomial d => ' (u, g) <- draw g ;; z <- binomial_next B64 d u ;; Ok (OInt z, s, g)
  end.

(** Distribution objects and generators in memory.  [gens]: every Random object ever
    constructed, at its address, [None] after its destruction (addresses are not
    reused); [users]: the Random objects of the user (None when their lifetime has ended);
    [dists]: the distribution objects (Distribution.h:72, 75). *)
Record dist := Dist { rgen : nat; newed : bool; smp : sampler }.
(** all objects: generators, user variables and distributions (Distribution.h:21-76) *)
Record world := World { gens : list (option G); users : list (option nat); dists : list (option dist) }.
(** access to a live object by pointer (Distribution.h:72); undefined otherwise *)
Definition get {A} (l : list (option A)) (i : nat) : outcome A :=
  match nth_error l i with Some (Some x) => Ok x | _ => UB end.
(** replacement of one object in memory (the pointers of Distribution.h:72, 75 stay valid) *)
Fixpoint put {A} (l : list A) (i : nat) (x : A) : list A :=
  match l, i with
  | [], _ => []
  | _ :: l, O => x :: l
  | y :: l, S i => y :: put l i x
  end.
(** no objects yet (Distribution.h:21-76) *)
Definition empty : world := World [] [] [].
(** [new Random()] at time [t] ([(int)std::time(nullptr)], Random.h:21), [Random r(seed)] *)
Definition new_gen (w : world) (seed : Z) : world * nat :=
  (World (gens w ++ [Some (random_new E seed)]) (users w) (dists w), length (gens w)).
(** destruction of a Random; deleting one that is already gone is undefined; [delete randomGenerator], Distribution.h:36, 66 *)
Definition del_gen (w : world) (a : nat) : outcome world :=
  _ <- get (gens w) a ;; Ok (World (put (gens w) a None) (users w) (dists w)).
(** a distribution object is constructed, Distribution.h:53, 61-63 *)
Definition add_dist (w : world) (d : dist) : world := World (gens w) (users w) (dists w ++ [Some d]).
(** a distribution object changes or ends, Distribution.h:35-39, 65-67 *)
Definition set_dist (w : world) (i : nat) (d : option dist) : world := World (gens w) (users w) (put (dists w) i d).

(** client statements on Random.h and Distribution.h *)
Inductive op :=
| NewRandom (seed : Z)              (* Random r(seed) of the user *)
| EndRandom (j : nat)               (* end of its lifetime *)
| UseRandom (j : nat) (o : rop)     (* a call on it *)
| NewDist (t : Z) (p : params)      (* constructor with an own generator, at time t *)
| NewDistOn (j : nat) (p : params)  (* constructor with a generator of the user *)
| SetGenerator (i : nat) (j : nat)  (* setRandomGenerator *)
| Next (i : nat)
| EndDist (i : nat).                (* destructor *)
(** Distribution.h:35-39, 53, 61-67 *)
Definition step (normal_first : bool) (fuel : nat) (w : world) (o : op) : outcome (world * option rres) :=
  match o with
  | NewRandom seed =>
      let (w, a) := new_gen w seed in Ok (World (gens w) (users w ++ [Some a]) (dists w), None)
  | EndRandom j =>
      a <- get (users w) j ;; w <- del_gen w a ;;
      Ok (World (gens w) (put (users w) j None) (dists w), None)
  | UseRandom j o =>
      a <- get (users w) j ;; g <- get (gens w) a ;;
      ' (g, r) <- rand_step E g o ;; Ok (World (put (gens w) a (Some g)) (users w) (dists w), Some r)
  | NewDist t p =>
      (* Distribution.h:53; the generator is constructed before init runs *)
      let (w, a) := new_gen w t in
      s <- init p ;; Ok (add_dist w (Dist a true s), None)
  | NewDistOn j p =>
      (* Distribution.h:61-63 *)
      a <- get (users w) j ;; s <- init p ;; Ok (add_dist w (Dist a false s), None)
  | SetGenerator i j =>
      (* Distribution.h:35-39 *)
      d <- get (dists w) i ;; a <- get (users w) j ;;
      w <- (if newed d then del_gen w (rgen d) else Ok w) ;;
      Ok (set_dist w i (Some (Dist a false (smp d))), None)
  | Next i =>
      d <- get (dists w) i ;; g <- get (gens w) (rgen d) ;;
      ' (r, s, g) <- sample normal_first fuel (smp d) g ;;
      Ok (World (put (gens w) (rgen d) (Some g)) (users w) (put (dists w) i (Some (Dist (rgen d) (newed d) s))), Some r)
  | EndDist i =>
      (* Distribution.h:65-67 *)
      d <- get (dists w) i ;;
      w <- (if newed d then del_gen w (rgen d) else Ok w) ;;
      Ok (set_dist w i None, None)
  end.
(** a sequence of client statements on Random.h and Distribution.h *)
Fixpoint run (normal_first : bool) (fuel : nat) (w : world) (os : list op) : outcome (world * list (option rres)) :=
  match os with
  | [] => Ok (w, [])
  | o :: os =>
      ' (w, r) <- step normal_first fuel w o ;; ' (w, rs) <- run normal_first fuel w os ;; Ok (w, r :: rs)
  end.

(** random_functions.cpp:9-42: the static generator, created by the first call; [t] is the
    time of the call.  randomDouble(max) and randomDouble() call randomDouble(0, max). *)
Inductive fcall := FInt | FIntMax (max : Z) | FIntRange (min max : Z)
  | FDoubleRange (min max : double) | FDoubleMax (max : double) | FDouble | FBool.
(** one call of random_functions.cpp:20-42 *)
Definition function_call (st : option G) (t : Z) (c : fcall) : outcome (option G * rres) :=
  let g := match st with Some g => g | None => random_new E t end in
  ' (g, r) <- rand_step E g
    match c with
    | FInt => RIntAll
    | FIntMax max => RIntMax max
    | FIntRange min max => RInt min max
    | FDoubleRange min max => RDouble min max
    | FDoubleMax max => RDouble dzero max
    | FDouble => RDouble dzero done
    | FBool => RBool
    end ;;
  Ok (Some g, r).
(** successive calls of random_functions.cpp:20-42 *)
Fixpoint function_calls (st : option G) (cs : list (Z * fcall)) : outcome (option G * list rres) :=
  match cs with
  | [] => Ok (st, [])
  | (t, c) :: cs =>
      ' (st, r) <- function_call st t c ;; ' (st, rs) <- function_calls st cs ;; Ok (st, r :: rs)
  end.
End Dist.
