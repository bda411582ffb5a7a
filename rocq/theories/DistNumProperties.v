(** Property theorems C86 and C87 (parameter checks; Gamma, chi-squared and t samples). *)
From Coq Require Import Reals Lra Floats.SpecFloat.
From Flocq Require Import Core.
From Verif Require Import Base Float FloatProofs NumModel RandModel RandSpec RandDoubleProofs RandSamplerProofs DistModel DistNumSpec DistNumProofs DistGammaProofs DistDrawProofs DistAccProofs.
Local Open Scope Z_scope.

(** an engine and functions for the examples *)
Definition lcg : engine Z :=
  Engine (fun s => s) (fun s => let x := (s * 6364136223846793005 + 1442695040888963407) mod 2 ^ 64 in (x, x)).
Definition some_libm (x : double) : double := dneg x.
(** log x = x - 1 *)
Definition minus_one (x : double) : double := match x with S754_zero _ => S754_infinity true | _ => dsub x done end.
(** the first output is 7 *)
Definition constant : engine Z := Engine (fun s => s) (fun s => if s =? 0 then (7, 5) else gen lcg s).

(** C86: which parameters the constructors reject *)
Theorem C86_checks :
  forall exp pow p, proper p -> (init exp pow p = Err <-> ~ accepted p).
Proof. exact init_check. Qed.
Print Assumptions C86_checks.
(** these are the documented ranges, but for two values *)
Theorem C86_documented :
  forall exp pow p, proper p -> p <> PExponential dzero -> p <> PChiSquared (dmake 1 (-1074)) ->
    (init exp pow p = Err <-> ~ documented p).
Proof.
  intros exp pow p P X1 X2. rewrite (init_check exp pow p P). destruct p; try reflexivity; cbn [accepted documented] in *.
  - split; intros H K; apply H; [now left|]. destruct K as [K| ->]; [exact K|now elim X1].
  - split; intros H K; apply H; [split; [exact K|]; intros ->; now elim X2|apply K].
Qed.
Print Assumptions C86_documented.
(** rate 0 is accepted, and every result is then infinite or NaN *)
Theorem C86_zero_rate_refuted :
  forall (G : Type) (E : engine G) log exp pow normal_first fuel g,
    init exp pow (PExponential dzero) = Ok (SGamma done dinf) /\
    exists d g', sample E log exp pow normal_first fuel (SGamma done dinf) g = Ok (ODouble d, SGamma done dinf, g') /\ dfinite d = false.
Proof.
  intros G E log exp pow nf fuel g. split; [reflexivity|].
  assert (N : number done) by (split; reflexivity). assert (R : real done = IZR (Z.of_nat 1)) by (rewrite real_one; reflexivity).
  destruct (gamma_of_integer E log exp pow fuel done dinf 1 g N R ltac:(cbn; lia)) as (us & F & H). cbn [sample]. rewrite H. cbn [bind]. eexists _, _. split; [reflexivity|].
  unfold gamma_of_draws, double_ops. cbn [fmul fneg fadd flog fsub fone fzero]. destruct (fold_left _ us dzero) as [[]|[]| |[] m e]; reflexivity.
Qed.
Print Assumptions C86_zero_rate_refuted.
(** the least positive number of degrees of freedom: ChiSquaredDistribution rejects it,
    StudentTDistribution accepts it and every call of next() stops the program *)
Theorem C86_least_freedom_refuted :
  forall (G : Type) (E : engine G) log exp pow normal_first fuel g,
    let r := dmake 1 (-1074) in
    (0 < real r)%R /\ init exp pow (PChiSquared r) = Err /\
    init exp pow (PStudentT r) = Ok (SStudentT r) /\ sample E log exp pow normal_first fuel (SStudentT r) g = Err.
Proof.
  intros G E log exp pow nf fuel g r. split; [|split; [reflexivity|split; reflexivity]].
  change r with (S754_finite false 1 (-1074)). apply real_sign.
Qed.
Print Assumptions C86_least_freedom_refuted.
(** no constructor rejects NaN *)
Theorem C86_nan_refuted :
  forall exp pow x n, number x -> (0 < real x)%R -> 0 < n <= int32_max ->
    Forall (fun p => init exp pow p <> Err)
      [PBernoulli dnan; PUniform dnan x; PUniform x dnan; PNormal x dnan; PGamma dnan x; PGamma x dnan; PExponential dnan; PChiSquared dnan;
       PStudentT dnan; PNegBin n dnan; PGeometric dnan; PPoisson dnan; PBinomial n dnan].
Proof. exact nan_accepted. Qed.
Print Assumptions C86_nan_refuted.
(** the getters: r() is the parameter, lambda() need not be *)
Theorem C86_chi_getter :
  forall r, number r -> (bpow radix2 (-1021) <= real r)%R -> chi_squared_r (ddiv r (dof 2)) = r.
Proof. exact chi_getter. Qed.
Print Assumptions C86_chi_getter.
Theorem C86_lambda_getter :
  forall lambda, number lambda -> (bpow radix2 (-1000) <= real lambda <= bpow radix2 1000)%R ->
    number (exponential_lambda (ddiv done lambda)) /\
    (Rabs (real (exponential_lambda (ddiv done lambda)) - real lambda) <= bpow radix2 (-51) * real lambda)%R.
Proof. exact lambda_accuracy. Qed.
Print Assumptions C86_lambda_getter.
Theorem C86_lambda_getter_refuted :
  exists lambda, number lambda /\ real lambda = 49%R /\ exponential_lambda (ddiv done lambda) <> lambda.
Proof.
  exists (dof 49). destruct (StatProofs.dof_exact 49 ltac:(lia)) as (A & B & C). split; [now split|]. split; [exact C|]. vm_compute. discriminate.
Qed.
Print Assumptions C86_lambda_getter_refuted.
Example C86_example :
  init some_libm (fun x _ => x) (PGamma (dof 2) (dof 3)) = Ok (SGamma (dof 2) (dof 3)) /\ proper (PGamma (dof 2) (dof 3)) /\
  init some_libm (fun x _ => x) (PGamma (dof 2) (dof (-3))) = Err /\ proper (PGamma (dof 2) (dof (-3))) /\
  init some_libm (fun x _ => x) (PChiSquared (dof 3)) = Ok (SGamma (dmake 3 (-1)) (dof 2)) /\ chi_squared_r (dmake 3 (-1)) = dof 3 /\
  init some_libm (fun x _ => x) (PUniformInt 3 3) = Err /\ proper (PUniformInt 3 3).
Proof. repeat split; vm_compute; reflexivity. Qed.

(** C87: GammaDistribution::next() for every shape and engine state: what it returns, how
    many engine outputs it uses, and the shapes for which it is undefined *)
Theorem C87_outcome :
  forall (G : Type) (E : engine G) log exp pow fuel k theta g, number k -> (0 < real k)%R ->
    let n := Z.to_nat (Zfloor (real k)) in
    match gamma_draw E log exp pow fuel k theta g with
    | Ok (_, g') => (real k < IZR (2 ^ 31))%R /\ exists m, g' = after E (n + 3 * m) g /\ (m = 0%nat <-> real k = IZR (Z.of_nat n))
    | UB => (IZR (2 ^ 31) <= real k)%R
    | Fuel => (real k < IZR (2 ^ 31))%R /\ real k <> IZR (Z.of_nat n)
    | Err => False
    end.
Proof. intros G E log exp pow fuel k theta g. exact (gamma_outcome E log exp pow fuel k theta g). Qed.
Print Assumptions C87_outcome.
(** an infinite or NaN shape is accepted by the constructor, and next() is undefined *)
Theorem C87_infinite_shape_refuted :
  forall (G : Type) (E : engine G) log exp pow normal_first fuel theta g k, number theta -> (0 < real theta)%R -> k = dinf \/ k = dnan ->
    init exp pow (PGamma k theta) = Ok (SGamma k theta) /\ sample E log exp pow normal_first fuel (SGamma k theta) g = UB.
Proof.
  intros G E log exp pow nf fuel theta g k N P H. cbn [init]. unfold gamma_init. rewrite (leb_zero theta N), Rle_bool_false by exact P.
  destruct H as [-> | ->]; split; reflexivity.
Qed.
Print Assumptions C87_infinite_shape_refuted.
(** integer shape: exactly n draws, and +infinity exactly if one of them is among the 1024
    largest outputs *)
Theorem C87_integer_shape :
  forall (G : Type) (E : engine G) log exp pow fuel k theta n g,
    (forall s, log (S754_zero s) = S754_infinity true) ->
    (forall x, number x -> (0 < real x <= 1)%R -> number (log x) /\ (-1000 <= real (log x) <= 0)%R) ->
    number k -> real k = IZR (Z.of_nat n) -> 0 < Z.of_nat n < 2 ^ 31 -> number theta -> (0 < real theta <= IZR (2 ^ 900))%R ->
    Forall output (outputs E n g) ->
    exists r, gamma_draw E log exp pow fuel k theta g = Ok (r, after E n g) /\
      (Exists (fun x => 2 ^ 64 - 1024 <= x) (outputs E n g) /\ r = dinf \/
       Forall (fun x => x < 2 ^ 64 - 1024) (outputs E n g) /\ number r /\ (0 <= real r)%R).
Proof.
  intros G E log exp pow fuel k theta n g L0 L1. apply (gamma_integer E log exp pow L0).
  intros x V F B. destruct (L1 x (conj V F) B) as [[A C] D]. auto.
Qed.
Print Assumptions C87_integer_shape.
(** any shape: a result is +infinity or a number that is not negative, never NaN *)
Theorem C87_never_negative :
  forall (G : Type) (E : engine G) log exp pow fuel k theta g r g',
    (forall s, log (S754_zero s) = S754_infinity true) ->
    (forall x, number x -> (0 < real x <= 1)%R -> number (log x) /\ (-1000 <= real (log x) <= 0)%R) ->
    (forall v y, number v -> (0 <= real v <= 1)%R -> dvalid y = true -> y = dinf \/ dfinite y = true /\ (1 <= real y)%R ->
       number (pow v y) /\ (0 <= real (pow v y) <= 1)%R) ->
    number k -> (0 < real k)%R -> number theta -> (0 < real theta <= IZR (2 ^ 900))%R -> (forall g, output (fst (gen E g))) ->
    gamma_draw E log exp pow fuel k theta g = Ok (r, g') -> r = dinf \/ number r /\ (0 <= real r)%R.
Proof.
  intros G E log exp pow fuel k theta g r g' L0 L1 P1. apply (gamma_any E log exp pow L0); [|exact P1].
  intros x V F B. destruct (L1 x (conj V F) B) as [[A C] D]. auto.
Qed.
Print Assumptions C87_never_negative.
(** StudentTDistribution(2) returns NaN if the chi-squared draw comes first and the engine's
    first output is at most 1024: the square root is of 2 / -0 *)
Theorem C87_student_nan_refuted :
  forall (G : Type) (E : engine G) log exp pow fuel g d g',
    log done = dzero -> output (fst (gen E g)) -> fst (gen E g) <= 1024 ->
    student_draw E log exp pow false fuel (dof 2) g = Ok (d, g') -> d = dnan.
Proof. intros G E log exp pow fuel g d g'. exact (student_nan E log exp pow fuel g d g'). Qed.
Print Assumptions C87_student_nan_refuted.
(** otherwise a sample is z * sqrt (r / c) for one normal draw z and one chi-squared draw c, in
    the order the compiler chose, up to rounding *)
Theorem C87_student_value :
  forall (G : Type) (E : engine G) log exp pow fuel r g z sp c g1 g2 (first : bool),
    number r -> (bpow radix2 (-1021) <= real r)%R ->
    (if first then normal_next E log fuel dzero done (false, dzero) g = Ok (z, sp, g1) /\ gamma_draw E log exp pow fuel (ddiv r (dof 2)) (dof 2) g1 = Ok (c, g2)
     else gamma_draw E log exp pow fuel (ddiv r (dof 2)) (dof 2) g = Ok (c, g1) /\ normal_next E log fuel dzero done (false, dzero) g1 = Ok (z, sp, g2)) ->
    number z -> number c -> (0 < real c)%R -> (bpow radix2 (-500) <= real r / real c <= bpow radix2 500)%R -> (Rabs (real z) <= bpow radix2 500)%R ->
    exists d, student_draw E log exp pow first fuel r g = Ok (d, g2) /\ number d /\
      (Rabs (real d - real z * sqrt (real r / real c)) <= bpow radix2 (-51) * (Rabs (real z) * sqrt (real r / real c)) + bpow radix2 (-1075))%R.
Proof.
  intros G E log exp pow fuel r g z sp c g1 g2 first Nr L H Nz Nc Pc Q B. exists (dmul z (dsqrt (ddiv r c))).
  destruct (student_compose E log exp pow fuel r g z sp c g1 g2 Nr L) as [S1 S2].
  split; [destruct first; [apply S1|apply S2]; apply H|]. apply student_value; try assumption. pose proof (bpow_gt_0 radix2 (-1021)). lra.
Qed.
Print Assumptions C87_student_value.
(** with a fixed seed the samples of StudentTDistribution still depend on the compiler *)
Theorem C87_student_order_refuted :
  exists (E : engine Z) log exp pow g a b g1 g2,
    student_draw E log exp pow true 20 (dof 2) g = Ok (a, g1) /\ student_draw E log exp pow false 20 (dof 2) g = Ok (b, g2) /\
    dfinite a = true /\ dfinite b = true /\ a <> b.
Proof.
  exists lcg, minus_one, some_libm, (fun x _ => x), 3. eexists _, _, _, _. split; [vm_compute; reflexivity|]. split; [vm_compute; reflexivity|].
  split; [reflexivity|]. split; [reflexivity|]. discriminate.
Qed.
Print Assumptions C87_student_order_refuted.
(** the assumptions about libm and the engine hold of these *)
(** a normal and a chi-squared draw of moderate size with freedom 2 *)
Example C87_student_example :
  exists z sp c g1 g2, normal_next lcg minus_one 20 dzero done (false, dzero) 3 = Ok (z, sp, g1) /\
    gamma_draw lcg minus_one some_libm (fun x _ => x) 20 (ddiv (dof 2) (dof 2)) (dof 2) g1 = Ok (c, g2) /\
    dltb (dmake 1 (-20)) c = true /\ dltb c (dof 100) = true /\ dltb (dof (-100)) z = true /\ dltb z (dof 100) = true /\ deqb z dzero = false.
Proof. do 5 eexists. split; [vm_compute; reflexivity|]. split; [vm_compute; reflexivity|]. repeat split. Qed.
Example C87_libm_example :
  (forall s, minus_one (S754_zero s) = S754_infinity true) /\
  (forall x, number x -> (0 < real x <= 1)%R -> number (minus_one x) /\ (-1000 <= real (minus_one x) <= 0)%R) /\
  (forall v y : double, number v -> (0 <= real v <= 1)%R -> dvalid y = true -> y = dinf \/ dfinite y = true /\ (1 <= real y)%R ->
     number ((fun x _ => x) v y) /\ (0 <= real ((fun x (_ : double) => x) v y) <= 1)%R) /\
  (forall g, output (fst (gen lcg g))).
Proof.
  split; [reflexivity|]. split; [|split; [auto|intros g; apply Z.mod_pos_bound; reflexivity]].
  intros x N B. assert (M : minus_one x = dsub x done) by (destruct x; try reflexivity; change (real (S754_zero s)) with 0%R in B; lra). rewrite M.
  destruct N as [V F], valid_one as [V1 F1]. destruct (StatProofs.dsub_ok x done 1 V V1 F F1 ltac:(lia)) as (A & C & D).
  { rewrite real_one. change (bpow radix2 1) with 2%R. apply Rabs_le. lra. }
  split; [now split|]. rewrite D, real_one. destruct (rnd_neg_int (real x - 1) 1000 ltac:(lia)) as [L U]; [change (IZR (- (1000))) with (-1000)%R; lra|lra|]. split; [exact L|exact U].
Qed.
Example C87_example :
  number (dof 3) /\ real (dof 3) = IZR (Z.of_nat 3) /\ Forall output (outputs lcg 3 5) /\
  (exists r g, gamma_draw lcg minus_one some_libm (fun x _ => x) 20 (dof 3) (dof 2) 5 = Ok (r, g) /\ dfinite r = true /\ dltb dzero r = true) /\
  (exists r g, gamma_draw lcg minus_one (fun x => done) (fun x _ => x) 20 (dmake 5 (-1)) (dof 2) 5 = Ok (r, g) /\ dfinite r = true /\ dltb dzero r = true) /\
  (exists d g, student_draw constant minus_one some_libm (fun x _ => x) false 20 (dof 2) 0 = Ok (d, g)).
Proof.
  destruct (StatProofs.dof_exact 3 ltac:(lia)) as (A & B & C). split; [now split|]. split; [exact C|].
  split; [repeat constructor; vm_compute; congruence|]. split; [eexists _, _; split; [vm_compute; reflexivity|split; reflexivity]|]. split; [eexists _, _; split; [vm_compute; reflexivity|split; reflexivity]|].
  eexists _, _. vm_compute. reflexivity.
Qed.
