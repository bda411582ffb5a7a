(** Property theorems C58-C62 and C71 (random). *)
From Coq Require Import QArith Lqa Reals Lra Floats.SpecFloat.
From Flocq Require Import Core.
From Verif Require Import Base Float FloatProofs NumModel RandModel RandSpec RandProofs RandCdfProofs RandDoubleProofs RandSamplerProofs Rand64.
Local Open Scope Z_scope.

(** C58 *)
Theorem C58_nextInt :
  forall x min max, output x -> in_int32 min = true -> in_int32 max = true ->
    (max <= min -> nextInt_range x min max = Err) /\
    (int32_max < max - min -> nextInt_range x min max = UB) /\
    (min < max -> max - min <= int32_max ->
       exists v, nextInt_range x min max = Ok v /\ min <= v < max /\ exists j, x = (v - min) + j * (max - min)).
Proof.
  intros x min max X A B. rewrite nextInt_spec by assumption. split; [|split].
  - intros H. now destruct (Z.leb_spec max min); [|lia].
  - intros H. unfold int32_max in *. destruct (Z.leb_spec max min); [lia|]. now destruct (Z.leb_spec (max - min) 2147483647); [lia|].
  - intros H L. destruct (Z.leb_spec max min); [lia|]. destruct (Z.leb_spec (max - min) int32_max); [|lia].
    eexists. split; [reflexivity|]. pose proof (Z.mod_pos_bound x (max - min) ltac:(lia)). split; [lia|].
    exists (x / (max - min)). pose proof (Z.div_mod x (max - min) ltac:(lia)). lia.
Qed.
Print Assumptions C58_nextInt.
(** every value is reached, by a residue class of the engine outputs *)
Theorem C58_nextInt_every_value :
  forall min max v, in_int32 min = true -> in_int32 max = true -> min <= v < max -> max - min <= int32_max ->
    (exists x, output x /\ nextInt_range x min max = Ok v) /\
    (forall x, output x -> (nextInt_range x min max = Ok v <-> exists j, x = (v - min) + j * (max - min))).
Proof.
  intros min max v A B V L.
  assert (E : forall x, output x -> nextInt_range x min max = Ok v <-> exists j, x = (v - min) + j * (max - min)).
  { intros x X. rewrite nextInt_spec by assumption. destruct (Z.leb_spec max min); [lia|]. destruct (Z.leb_spec (max - min) int32_max); [|lia]. split.
    - intros Hx. exists (x / (max - min)). pose proof (Z.div_mod x (max - min) ltac:(lia)). injection Hx as Hx. lia.
    - intros [j ->]. rewrite Z.mod_add, Z.mod_small by lia. f_equal. lia. }
  split; [|exact E]. exists (v - min). assert (X : output (v - min)) by (unfold output, int32_max in *; lia).
  split; [assumption|]. apply (E _ X). exists 0. lia.
Qed.
Print Assumptions C58_nextInt_every_value.
Theorem C58_nextBool : forall x, output x -> nextBool x = Ok (Z.odd x).
Proof.
  intros x X. unfold nextBool, nextInt_max. cbn [Z.leb Z.compare]. rewrite nextInt_spec by (assumption || reflexivity). cbn [Z.leb Z.compare Z.sub Z.add Z.opp bind].
  rewrite Zmod_odd. now destruct (Z.odd x).
Qed.
Print Assumptions C58_nextBool.
Example C58_example :
  nextInt_range 18446744073709551615 (-3) 4 = Ok (-2) /\ nextInt_range 5 7 7 = Err /\ nextInt_range 5 (-1) 2147483647 = UB
  /\ nextInt_range 7 0 2147483647 = Ok 7.
Proof. repeat split; vm_compute; reflexivity. Qed.

(** C59 *)
Theorem C59_nextInt_overflow :
  forall x, output x ->
    (nextInt_all x = UB <-> 2 ^ 31 <= x mod 2 ^ 32) /\
    (x mod 2 ^ 32 < 2 ^ 31 -> exists v, nextInt_all x = Ok v /\ - 2 ^ 31 <= v < 0 /\ v = x mod 2 ^ 32 - 2 ^ 31).
Proof.
  intros x X. destruct (nextInt_all_spec x X) as [-> _]. pose proof (Z.mod_pos_bound x (2 ^ 32) ltac:(lia)).
  destruct (Z.ltb_spec (x mod 2 ^ 32) (2 ^ 31)); split; try (split; intros; [discriminate|lia]); intros; try lia; [|tauto].
  eexists. split; [reflexivity|]. lia.
Qed.
Print Assumptions C59_nextInt_overflow.
(** with wrapping arithmetic every int is the result for exactly one residue modulo 2^32 *)
Theorem C59_nextInt_wrapping_uniform :
  forall v, - 2 ^ 31 <= v < 2 ^ 31 -> forall x, output x -> (nextInt_all_wrap x = v <-> x mod 2 ^ 32 = v + 2 ^ 31).
Proof. intros v V x X. destruct (nextInt_all_spec x X) as [_ ->]. lia. Qed.
Print Assumptions C59_nextInt_wrapping_uniform.
Example C59_example :
  nextInt_all 7 = Ok (-2147483641) /\ nextInt_all 2147483648 = UB /\ nextInt_all_wrap 4294967295 = 2147483647
  /\ nextInt_all_wrap 2147483648 = 0.
Proof. repeat split; vm_compute; reflexivity. Qed.

(** C60: [rnd] is rounding to the nearest double, [real] the number of a double *)
Theorem C60_nextDouble :
  forall x, output x ->
    exists r, nextDouble x = Ok r /\ dfinite r = true /\ real r = (rnd (IZR x) / IZR (2 ^ 64))%R /\ (0 <= real r <= 1)%R /\
      (real r = 1%R <-> 2 ^ 64 - 1024 <= x) /\ (real r = 0%R <-> x = 0).
Proof.
  intros x X. destruct (nextDouble_spec x X) as (r & H & V & F & E & B). exists r. rewrite two64_IZR in E.
  destruct (unit_spec x X) as (_ & _ & E' & _). rewrite two64_IZR in E'.
  split; [assumption|]. split; [assumption|]. split; [assumption|]. split; [assumption|]. rewrite E, <- E'. split; [exact (unit_one x X)|exact (unit_zero x X)].
Qed.
Print Assumptions C60_nextDouble.
(** the documented half-open interval [0, 1) *)
Theorem C60_half_open_refuted : exists x, output x /\ nextDouble x = Ok done /\ real done = 1%R.
Proof. exists 18446744073709551615. split; [unfold output; lia|]. split; [vm_compute; reflexivity|exact real_one]. Qed.
Print Assumptions C60_half_open_refuted.
Theorem C60_nextDouble_range :
  forall x min max, output x -> dvalid min = true -> dvalid max = true -> dfinite min = true -> dfinite max = true ->
    (Rabs (real min) <= IZR (2 ^ 1022))%R -> (Rabs (real max) <= IZR (2 ^ 1022))%R ->
    ((real max < real min)%R -> nextDouble_range x min max = Err) /\
    ((real min <= real max)%R ->
       exists r, nextDouble_range x min max = Ok r /\ dfinite r = true /\
         (real min <= real r <= rnd (rnd (real max - real min) + real min))%R /\
         (x = 0 -> real r = real min) /\
         (2 ^ 64 - 1024 <= x -> real r = rnd (rnd (real max - real min) + real min)) /\
         (rnd (real max - real min) = (real max - real min)%R -> (real r <= real max)%R)).
Proof.
  intros x min max X V1 V2 F1 F2 T1 T2. rewrite <- big_IZR in T1, T2 by lia. split.
  - intros H. unfold nextDouble_range. rewrite dltb_spec, Rlt_bool_true by assumption. reflexivity.
  - intros H. destruct (range_spec min max V1 V2 F1 F2 T1 T2 H x X) as (r & E & V & F & _ & B). exists r.
    split; [assumption|]. split; [assumption|]. split; [assumption|]. split; [|split].
    + intros ->. exact (range_low min max V1 V2 F1 F2 T1 T2 H 0 r X E eq_refl).
    + intros L. exact (range_high min max V1 V2 F1 F2 T1 T2 H x r X E L).
    + intros Ex. rewrite Ex in B. replace (real max - real min + real min)%R with (real max) in B by lra. rewrite (rnd_real max V2) in B. lra.
Qed.
Print Assumptions C60_nextDouble_range.
(** the interval [0, max] is respected, and max itself is returned by the 1024 largest outputs *)
Theorem C60_nextDouble_max :
  forall x max, output x -> dvalid max = true -> dfinite max = true -> (0 <= real max <= IZR (2 ^ 1022))%R ->
    exists r, nextDouble_max x max = Ok r /\ dfinite r = true /\ (0 <= real r <= real max)%R /\
      (2 ^ 64 - 1024 <= x -> real r = real max).
Proof.
  intros x max X V F B. destruct (C60_nextDouble_range x dzero max X eq_refl V eq_refl F) as [_ H].
  - rewrite real_zero, Rabs_R0. apply IZR_le. lia.
  - rewrite Rabs_pos_eq; lra.
  - rewrite real_zero in H. destruct H as (r & E & Fr & B1 & _ & B3 & _); [lra|]. exists r. unfold nextDouble_max.
    rewrite dltb_spec by (assumption || reflexivity). rewrite real_zero, Rlt_bool_false by lra.
    rewrite Rminus_0_r, Rplus_0_r, !(rnd_real max) in * by assumption. tauto.
Qed.
Print Assumptions C60_nextDouble_max.
(** a result above [max]: min = -3, max = 0.75 * 2^-51, largest output *)
Theorem C60_below_max_refuted :
  exists x min max r, output x /\ dvalid min = true /\ dvalid max = true /\ nextDouble_range x min max = Ok r /\ dltb max r = true.
Proof.
  exists 18446744073709551615, (dof (-3)), (dmake 3 (-53)), (dmake 1 (-51)). split; [unfold output; lia|]. repeat split; vm_compute; reflexivity.
Qed.
Print Assumptions C60_below_max_refuted.
(** bounds whose difference overflows: NaN for output 0, infinity otherwise *)
Theorem C60_wide_interval_refuted :
  exists min max, dfinite min = true /\ dfinite max = true /\ dltb min max = true /\
    nextDouble_range 0 min max = Ok dnan /\ nextDouble_range 1 min max = Ok dinf.
Proof. exists (dmake (-1) 1023), (dmake 1 1023). repeat split; vm_compute; reflexivity. Qed.
Print Assumptions C60_wide_interval_refuted.
Example C60_example :
  nextDouble 9223372036854775808 = Ok (dmake 1 (-1)) /\ nextDouble 18446744073709550591 = Ok (dmake 9007199254740991 (-53))
  /\ nextDouble 18446744073709550592 = Ok done /\ nextDouble_range 4611686018427387904 (dof 10) (dof 20) = Ok (dmake 25 (-1)).
Proof. repeat split; vm_compute; reflexivity. Qed.

(** C61, for every engine *)
Theorem C61_seeded_replay :
  forall (G : Type) (E : engine G) g1 g2 os1 os2 os seed g1' g2' rs1 rs2,
    rand_run E g1 (os1 ++ RSeed seed :: os) = Ok (g1', rs1) ->
    rand_run E g2 (os2 ++ RSeed seed :: os) = Ok (g2', rs2) ->
    g1' = g2' /\ skipn (length os1) rs1 = skipn (length os2) rs2.
Proof.
  intros G E g1 g2 os1 os2 os seed g1' g2' rs1 rs2 H1 H2.
  assert (L : forall os g g' rs, rand_run E g os = Ok (g', rs) -> length rs = length os).
  { induction os0 as [|o os0 IH]; intros g g' rs H; cbn [rand_run] in H; [injection H as _ <-; reflexivity|].
    destruct (rand_step E g o) as [[g0 r]| | |]; try discriminate. cbn [bind] in H.
    destruct (rand_run E g0 os0) as [[g3 r3]| | |] eqn:R; try discriminate. injection H as <- <-. cbn [length]. f_equal. eapply IH, R. }
  assert (K : forall g o g' rs, rand_run E g (o ++ RSeed seed :: os) = Ok (g', rs) ->
     exists r2, rand_run E (random_new E seed) os = Ok (g', r2) /\ skipn (length o) rs = ONone :: r2).
  { intros g o g' rs H. rewrite rand_run_app in H. destruct (rand_run E g o) as [[g3 r3]| | |] eqn:R; try discriminate. cbn [bind rand_run rand_step] in H.
    destruct (rand_run E (random_new E seed) os) as [[g4 r4]| | |]; try discriminate. cbn [bind] in H. injection H as <- <-. exists r4. split; [reflexivity|].
    apply L in R. rewrite <- R. rewrite skipn_app, skipn_all, Nat.sub_diag. reflexivity. }
  destruct (K _ _ _ _ H1) as (r1 & A1 & B1). destruct (K _ _ _ _ H2) as (r2 & A2 & B2). rewrite A1 in A2. injection A2 as <- <-.
  split; [reflexivity|]. congruence.
Qed.
Print Assumptions C61_seeded_replay.
(** a fresh generator with the same seed behaves as a reseeded one *)
Theorem C61_fresh_generator :
  forall (G : Type) (E : engine G) g seed os,
    rand_run E g (RSeed seed :: os) = (' (g', rs) <- rand_run E (random_new E seed) os ;; Ok (g', ONone :: rs)).
Proof. reflexivity. Qed.
Print Assumptions C61_fresh_generator.
(** a NormalDistribution keeps a result across reseeding: its second value does not depend on
    the seed set in between and leaves the generator untouched *)
Theorem C61_normal_spare :
  forall (G : Type) (E : engine G) log fuel mean stddev g r st g',
    normal_next E log fuel mean stddev (false, dzero) g = Ok (r, st, g') ->
    forall fuel2, exists r2 st2, forall seed,
      normal_next E log fuel2 mean stddev st (random_new E seed) = Ok (r2, st2, random_new E seed).
Proof.
  intros G E log fuel mean stddev g r st g' H fuel2. unfold normal_next in H. cbn [fst] in H.
  destruct (polar E fuel g) as [[[[u v] sum] g2]| | |]; try discriminate. cbn [bind] in H. injection H as _ <- _.
  unfold normal_next. cbn [fst snd]. do 2 eexists. intros seed. reflexivity.
Qed.
Print Assumptions C61_normal_spare.
Definition log_witness (s : double) : double := dsub s done.
Theorem C61_normal_replay_refuted :
  exists log r0 st0 g0 r1 st1 g1 r2 st2 g2,
    normal_next mt19937_64 log 10 dzero done (false, dzero) (random_new mt19937_64 1) = Ok (r0, st0, g0) /\
    normal_next mt19937_64 log 10 dzero done st0 (random_new mt19937_64 7) = Ok (r1, st1, g1) /\
    normal_next mt19937_64 log 10 dzero done (false, dzero) (random_new mt19937_64 7) = Ok (r2, st2, g2) /\
    deqb r1 r2 = false.
Proof.
  exists log_witness.
  destruct (normal_next mt19937_64 log_witness 10 dzero done (false, dzero) (random_new mt19937_64 1)) as [[[r0 st0] g0]| | |] eqn:E0; [|exfalso; revert E0; vm_compute; discriminate..].
  destruct (normal_next mt19937_64 log_witness 10 dzero done (false, dzero) (random_new mt19937_64 7)) as [[[r2 st2] g2]| | |] eqn:E2; [|exfalso; revert E2; vm_compute; discriminate..].
  destruct (C61_normal_spare _ _ _ _ _ _ _ _ _ _ E0 10%nat) as (r1 & st1 & E1). specialize (E1 7).
  exists r0, st0, g0, r1, st1, (random_new mt19937_64 7), r2, st2, g2. split; [reflexivity|]. split; [exact E1|]. split; [reflexivity|].
  assert (S0 : omap (fun p => snd (fst p)) (normal_next mt19937_64 log_witness 10 dzero done (false, dzero) (random_new mt19937_64 1)) = Ok st0) by now rewrite E0.
  assert (S2 : omap (fun p => fst (fst p)) (normal_next mt19937_64 log_witness 10 dzero done (false, dzero) (random_new mt19937_64 7)) = Ok r2) by now rewrite E2.
  assert (S1 : omap (fun p => fst (fst p)) (normal_next mt19937_64 log_witness 10 dzero done st0 (random_new mt19937_64 7)) = Ok r1) by now rewrite E1.
  clear E0 E1 E2. vm_compute in S0. injection S0 as <-. vm_compute in S1. injection S1 as <-. vm_compute in S2. injection S2 as <-. vm_compute. reflexivity.
Qed.
Print Assumptions C61_normal_replay_refuted.
Example C61_example :
  omap snd (rand_run mt19937_64 (random_new mt19937_64 3) [RInt 0 100; RSeed 42; RInt 0 100; RDouble1]) =
  omap (fun p => OInt 67 :: ONone :: snd p) (rand_run mt19937_64 (random_new mt19937_64 42) [RInt 0 100; RDouble1]).
Proof. vm_compute. reflexivity. Qed.

(** C62: the draw [u] is the value of nextDouble() *)
Theorem C62_negative_binomial :
  forall r p u, 1 <= r <= int32_max -> (0 < p)%Q -> (p <= 1)%Q ->
    exists d, negbin_init exact r p = Ok d /\
      (forall k, (exists fuel, negbin_next exact fuel d u = Ok (Z.of_nat k)) <->
         Z.of_nat k <= int32_max - r /\ inverse_cdf (negbin_pmf (Z.to_nat r) p) u k) /\
      (forall z fuel, negbin_next exact fuel d u = Ok z -> 0 <= z) /\
      ((exists fuel, negbin_next exact fuel d u = UB) <->
         forall k, Z.of_nat k <= int32_max - r -> (cdf (negbin_pmf (Z.to_nat r) p) k <= u)%Q).
Proof.
  intros r p u R P0 P1. destruct (negbin_init_spec r p R P0 P1) as (e & E & H). exists (r, p, e). split; [exact E|].
  assert (S : forall fuel, negbin_next exact fuel (r, p, e) u = search (negbin_pmf (Z.to_nat r) p) u (int32_max - r) fuel 0).
  { intros fuel. unfold negbin_next. cbn [sub of_int exact]. apply (negbin_search r p u fuel R 0%nat); [now rewrite negbin_0|cbn [cdf]; now rewrite negbin_0|now right]. }
  destruct (search_exact (negbin_pmf (Z.to_nat r) p) u (int32_max - r) ltac:(lia)) as [S1 S2]. split; [|split].
  - intros k. destruct (S1 (Z.of_nat k)) as [A B]. split.
    + intros [fuel F]. rewrite S in F. destruct A as (k' & K & L & I); [eauto|]. apply Nat2Z.inj in K. subst k'. tauto.
    + intros [L I]. destruct B as [fuel F]; [exists k; tauto|]. exists fuel. now rewrite S.
  - intros z fuel F. rewrite S in F. destruct (proj1 (S1 z)) as (k & -> & _); [eauto|]. lia.
  - rewrite <- S2. split; intros [fuel F]; exists fuel; [now rewrite <- S|now rewrite S].
Qed.
Print Assumptions C62_negative_binomial.
(** the inverse exists for every draw below 1, and for no draw of 1 (p < 1) *)
Theorem C62_negative_binomial_draws :
  forall r p, (1 <= r)%nat -> (0 < p)%Q -> (p <= 1)%Q ->
    (forall u, (u < 1)%Q -> exists k, inverse_cdf (negbin_pmf r p) u k) /\
    ((p < 1)%Q -> forall u k, (1 <= u)%Q -> ~ inverse_cdf (negbin_pmf r p) u k).
Proof.
  intros r p R P0 P1. split; [intros u U; now apply negbin_inverse|]. intros P u k U [H _].
  pose proof (negbin_cdf_lt1 r p k R P0 P). Lqa.lra.
Qed.
Print Assumptions C62_negative_binomial_draws.
Theorem C62_geometric_cdf :
  forall p k, (cdf (negbin_pmf 1 p) k == 1 - qpow (1 - p) (S k))%Q.
Proof. intros p k. rewrite (cdf_ext _ _ k (negbin_one p)). apply geometric_cdf. Qed.
Print Assumptions C62_geometric_cdf.
(** a small success probability makes half of all draws overflow the int counter *)
Theorem C62_geometric_small_p_overflow :
  forall p u, (0 < p)%Q -> (p <= 1 # 4294967296)%Q -> (1 # 2 <= u)%Q ->
    exists d fuel, geometric_init exact p = Ok d /\ negbin_next exact fuel d u = UB.
Proof.
  intros p u P0 P1 U. destruct (C62_negative_binomial 1 p u) as (d & D & _ & _ & H); [unfold int32_max; lia|assumption|Lqa.lra|].
  destruct H as [_ H]. destruct H as [fuel F]; [|eauto]. intros k K. change (Z.to_nat 1) with 1%nat. rewrite C62_geometric_cdf.
  pose proof (qpow_bernoulli (1 - p) (S k) ltac:(Lqa.lra) ltac:(Lqa.lra)) as B.
  assert (N : (inject_Z (Z.of_nat (S k)) <= inject_Z 2147483647)%Q) by (rewrite <- Zle_Qle; unfold int32_max in K; lia).
  assert (N0 : (0 <= inject_Z (Z.of_nat (S k)))%Q) by (unfold Qle; cbn; lia).
  assert (inject_Z (Z.of_nat (S k)) * (1 - (1 - p)) <= 1 # 2)%Q; [|Lqa.lra].
  setoid_replace (1 - (1 - p))%Q with p by ring.
  apply Qle_trans with (inject_Z 2147483647 * (1 # 4294967296))%Q; [|vm_compute; discriminate].
  apply Qmult_le_compat_nonneg; split; try assumption; Lqa.lra.
Qed.
Print Assumptions C62_geometric_small_p_overflow.
(** Poisson, with an arbitrary rational in the role of exp(-lambda) *)
Theorem C62_poisson :
  forall lambda e u, (0 < lambda)%Q ->
    exists d, poisson_init exact lambda e = Ok d /\
      (forall k, (exists fuel, poisson_next exact fuel d u = Ok (Z.of_nat k)) <->
         Z.of_nat k <= int32_max /\ inverse_cdf (poisson_pmf lambda e) u k) /\
      (forall z fuel, poisson_next exact fuel d u = Ok z -> 0 <= z) /\
      ((exists fuel, poisson_next exact fuel d u = UB) <->
         forall k, Z.of_nat k <= int32_max -> (cdf (poisson_pmf lambda e) k <= u)%Q).
Proof.
  intros l e u L. exists (l, e). split.
  { unfold poisson_init. cbn [geb of_int exact]. destruct (Qle_bool l (inject_Z 0)) eqn:C; [|reflexivity].
    apply Qle_bool_iff in C. change (inject_Z 0) with 0%Q in C. Lqa.lra. }
  assert (E0 : (e == poisson_pmf l e 0)%Q) by (unfold poisson_pmf; cbn [qpow fac]; change (inject_Z 1) with 1%Q; field).
  assert (S : forall fuel, poisson_next exact fuel (l, e) u = search (poisson_pmf l e) u int32_max fuel 0).
  { intros fuel. unfold poisson_next. apply (poisson_search l e u fuel 0%nat); [exact E0|exact E0|unfold int32_max; lia]. }
  destruct (search_exact (poisson_pmf l e) u int32_max ltac:(unfold int32_max; lia)) as [S1 S2]. split; [|split].
  - intros k. destruct (S1 (Z.of_nat k)) as [A B]. split.
    + intros [fuel F]. rewrite S in F. destruct A as (k' & K & L' & I); [eauto|]. apply Nat2Z.inj in K. subst k'. tauto.
    + intros [L' I]. destruct B as [fuel F]; [exists k; tauto|]. exists fuel. now rewrite S.
  - intros z fuel F. rewrite S in F. destruct (proj1 (S1 z)) as (k & -> & _); [eauto|]. lia.
  - rewrite <- S2. split; intros [fuel F]; exists fuel; [now rewrite <- S|now rewrite S].
Qed.
Print Assumptions C62_poisson.
Theorem C62_binomial :
  forall n p u, in_int32 n = true -> (0 <= p)%Q -> (p <= 1)%Q ->
    (n < 0 -> binomial_init exact n p = Err) /\
    (34 <= n -> binomial_init exact n p = UB) /\
    (0 <= n <= 33 -> exists d k, binomial_init exact n p = Ok d /\ binomial_next exact d u = Ok (Z.of_nat k) /\
        ((u < 1)%Q -> inverse_cdf (binomial_pmf (Z.to_nat n) p) u k) /\ ((1 <= u)%Q -> Z.of_nat k = n)).
Proof.
  intros n p u N P0 P1. unfold in_int32 in N. unfold binomial_init. cbn [ltb of_int sub exact].
  assert (X : Qltb p (inject_Z 0) || Qltb (inject_Z 1) p = false).
  { apply orb_false_iff. split; [destruct (Qltb p (inject_Z 0)) eqn:C|destruct (Qltb (inject_Z 1) p) eqn:C]; try reflexivity;
      apply Qltb_spec in C; [change (inject_Z 0) with 0%Q in C|change (inject_Z 1) with 1%Q in C]; Lqa.lra. }
  rewrite <- orb_assoc, X, orb_false_r. split; [|split].
  - intros H. now replace (n <? 0) with true by lia.
  - intros H. replace (n <? 0) with false by lia. destruct (Z.eq_dec n int32_max) as [-> | NM].
    + rewrite chk_ub by lia. reflexivity.
    + rewrite chk_ok by (unfold int32_min, int32_max in *; lia). cbn [bind].
      rewrite (table_ub n p _ ltac:(lia) (Z.to_nat n) 0 _ 17); [reflexivity|lia|lia|lia|]. now apply binom_overflows.
  - intros H. replace (n <? 0) with false by lia. rewrite chk_ok by (unfold int32_max; lia). cbn [bind].
    destruct (nth_table (Z.to_nat n) p ltac:(lia) (Z.to_nat n) 0 (inject_Z 0) ltac:(lia) ltac:(reflexivity)) as (t & T & Lt & Nt).
    rewrite Z2Nat.id in T by lia. change (Z.of_nat 0) with 0 in T. change (inject_Z 1) with 1%Q in *. rewrite T. cbn [bind].
    destruct (search_table (Z.to_nat n) p u t Lt Nt (Z.to_nat n) 0 ltac:(lia) ltac:(intros; lia)) as (k & K & Kn & K1 & K2).
    exists (n, t), k. split; [reflexivity|]. split; [exact K|]. split.
    + intros U. split; [|assumption]. destruct (Nat.eq_dec k (Z.to_nat n)) as [-> |]; [rewrite binomial_total; assumption|apply K2; lia].
    + intros U. destruct (Nat.eq_dec k (Z.to_nat n)) as [-> |]; [lia|]. exfalso.
      assert (Kn' : (k < Z.to_nat n)%nat) by lia. specialize (K2 Kn').
      assert (M : (cdf (binomial_pmf (Z.to_nat n) p) k <= cdf (binomial_pmf (Z.to_nat n) p) (Z.to_nat n))%Q).
      { apply cdf_mono; [|lia]. intros i. unfold binomial_pmf.
        assert (F : forall m, (0 <= inject_Z (fac m))%Q) by (intros m; pose proof (fac_pos m); unfold Qle; cbn; lia).
        apply Qmult_le_0_compat; [apply Qmult_le_0_compat|]; try (apply qpow_nonneg; Lqa.lra).
        apply Qmult_le_0_compat; [apply F|]. apply Qinv_le_0_compat. apply Qmult_le_0_compat; apply F. }
      rewrite binomial_total in M. Lqa.lra.
Qed.
Print Assumptions C62_binomial.
Theorem C62_bernoulli :
  forall p u, (0 <= p)%Q -> (p <= 1)%Q -> bernoulli_init exact p = Ok p /\ (bernoulli_next exact p u = true <-> (u < p)%Q).
Proof.
  intros p u P0 P1. split; [|apply Qltb_spec]. unfold bernoulli_init. cbn [ltb of_int exact].
  destruct (Qltb p (inject_Z 0)) eqn:A; [apply Qltb_spec in A; change (inject_Z 0) with 0%Q in A; Lqa.lra|].
  destruct (Qltb (inject_Z 1) p) eqn:B; [apply Qltb_spec in B; change (inject_Z 1) with 1%Q in B; Lqa.lra|]. reflexivity.
Qed.
Print Assumptions C62_bernoulli.
(** the same code in binary64: draws for which next() does not return (the counter overflows) *)
(** exp(-lambda) rounded to zero (lambda > 745): no draw returns *)
Theorem C62_poisson_underflow :
  forall pow lambda s x u, dvalid lambda = true -> dfinite lambda = true -> output x -> nextDouble x = Ok u ->
    (forall fuel z, poisson_next (binary64 pow) fuel (lambda, S754_zero s) u <> Ok z) /\
    poisson_next (binary64 pow) (Z.to_nat (2 ^ 31)) (lambda, S754_zero s) u = UB.
Proof.
  intros pow lambda s x u V F X H. destruct (nextDouble_spec x X) as (u' & H' & Vu & Fu & _ & Bu). assert (u' = u) as -> by congruence.
  assert (T : dleb (S754_zero s) u = true).
  { rewrite dleb_spec by (assumption || reflexivity). change (real (S754_zero s)) with 0%R. apply Rle_bool_true. lra. }
  unfold poisson_next. split.
  - intros fuel z. destruct (poisson_stuck pow u lambda V F fuel 0 s (S754_zero s) ltac:(unfold int32_max; lia) T) as [[-> | ->] _]; discriminate.
  - destruct (poisson_stuck pow u lambda V F (Z.to_nat (2 ^ 31)) 0 s (S754_zero s) ltac:(unfold int32_max; lia) T) as [_ E]. apply E. unfold int32_max. lia.
Qed.
Print Assumptions C62_poisson_underflow.
(** p^r rounded to zero (r = 2000, p = 1/2): no draw returns *)
Theorem C62_negative_binomial_returns_refuted :
  forall pow, exists r p d, 1 <= r /\ negbin_init (binary64 pow) r p = Ok d /\
    forall x u, output x -> nextDouble x = Ok u -> forall fuel z, negbin_next (binary64 pow) fuel d u <> Ok z.
Proof.
  intros pow. exists 2000, (dmake 1 (-1)), (2000, dmake 1 (-1), S754_zero false). split; [lia|]. split; [vm_compute; reflexivity|].
  intros x u X H fuel z. destruct (nextDouble_spec x X) as (u' & H' & Vu & Fu & _ & Bu). assert (u' = u) as -> by congruence.
  assert (T : dleb (S754_zero false) u = true).
  { rewrite dleb_spec by (assumption || reflexivity). change (real (S754_zero false)) with 0%R. apply Rle_bool_true. lra. }
  unfold negbin_next. replace (sub (binary64 pow) (of_int (binary64 pow) 1) (dmake 1 (-1))) with (dmake 1 (-1)) by (vm_compute; reflexivity).
  assert (HB : (Rabs (real (dmake 1 (-1))) <= 1)%R) by (rewrite real_half, Rabs_pos_eq; lra).
  destruct (negbin_stuck pow u 2000 (dmake 1 (-1)) ltac:(vm_compute; reflexivity) ltac:(vm_compute; reflexivity) HB ltac:(unfold int32_max; lia)
    fuel 0 false (S754_zero false) ltac:(unfold int32_max; lia) T) as [[-> | ->] _]; discriminate.
Qed.
Print Assumptions C62_negative_binomial_returns_refuted.
(** GeometricDistribution(0.5): the 1024 engine outputs that give a draw of 1.0 never return *)
Theorem C62_geometric_draw_one_refuted :
  forall pow, exists d, geometric_init (binary64 pow) (dmake 1 (-1)) = Ok d /\
    forall x u, 2 ^ 64 - 1024 <= x < 2 ^ 64 -> nextDouble x = Ok u -> forall fuel z, negbin_next (binary64 pow) fuel d u <> Ok z.
Proof.
  intros pow. exists (1, dmake 1 (-1), dmake 1 (-1)). split; [vm_compute; reflexivity|]. intros x u X H fuel z.
  assert (u = done) as -> by (apply (proj2 (draw_one x u ltac:(unfold output; lia) H)); lia).
  unfold negbin_next. replace (sub (binary64 pow) (of_int (binary64 pow) 1) (dmake 1 (-1))) with (dmake 1 (-1)) by (vm_compute; reflexivity).
  destruct (stuck_at_one_half pow fuel) as [-> | ->]; discriminate.
Qed.
Print Assumptions C62_geometric_draw_one_refuted.
(** BernoulliDistribution(1.0) returns false for exactly those outputs *)
Theorem C62_bernoulli_certain :
  forall pow x u, output x -> nextDouble x = Ok u ->
    bernoulli_next (binary64 pow) done u = (x <? 2 ^ 64 - 1024) /\ bernoulli_next (binary64 pow) dzero u = false.
Proof.
  intros pow x u X H. destruct (nextDouble_spec x X) as (u' & H' & Vu & Fu & _ & Bu). assert (u' = u) as -> by congruence. destruct valid_one as [V1 F1].
  pose proof (draw_one x u X H) as D. unfold bernoulli_next. cbn [ltb binary64]. rewrite !dltb_spec by (assumption || reflexivity). rewrite real_one, real_zero. split.
  - destruct (Z.ltb_spec x (2 ^ 64 - 1024)) as [L|L].
    + apply Rlt_bool_true. destruct (Req_dec (real u) 1) as [E|E]; [|lra]. exfalso.
      assert (u = done); [|apply D in H0; lia]. apply real_inj; try assumption; [intro; lra|]. now rewrite real_one.
    + apply Rlt_bool_false. apply D in L. subst u. rewrite real_one. lra.
  - apply Rlt_bool_false. lra.
Qed.
Print Assumptions C62_bernoulli_certain.
Example C62_example :
  omap (fun d => negbin_next exact 50 d (7 # 10)) (negbin_init exact 3 (1 # 2)) = Ok (Ok 4) /\
  omap (fun d => binomial_next exact d (7 # 10)) (binomial_init exact 10 (1 # 3)) = Ok (Ok 4) /\
  poisson_next exact 50 (2 # 1, 1 # 8)%Q (7 # 10) = Ok 3 /\
  omap (fun d => binomial_next (binary64 (fun b e => match genericBinaryPow1 dmul done b e with Ok v => v | _ => dnan end)) d done)
    (binomial_init (binary64 (fun b e => match genericBinaryPow1 dmul done b e with Ok v => v | _ => dnan end)) 3 (dmake 1 (-1))) = Ok (Ok 3).
Proof. repeat split; vm_compute; reflexivity. Qed.

(** C71: ExponentialDistribution(lambda).next() = GammaDistribution(1, theta); [log] is any function
    with the IEEE value at zero that is finite, at most 0 and at least -1000 on (0, 1] *)
Theorem C71_exponential_infinite :
  forall (G : Type) (E : engine G) log theta g,
    (forall s, log (S754_zero s) = S754_infinity true) ->
    (forall x, dvalid x = true -> dfinite x = true -> (0 < real x <= 1)%R ->
       dvalid (log x) = true /\ dfinite (log x) = true /\ (-1000 <= real (log x) <= 0)%R) ->
    dvalid theta = true -> dfinite theta = true -> (0 < real theta <= IZR (2 ^ 1000))%R ->
    output (fst (gen E g)) ->
    exists r, gamma_next E log 1 theta g = Ok (r, snd (gen E g)) /\
      (2 ^ 64 - 1024 <= fst (gen E g) -> r = S754_infinity false) /\
      (fst (gen E g) < 2 ^ 64 - 1024 -> dfinite r = true /\ (0 <= real r)%R).
Proof.
  intros G E log theta g L0 L1 Vt Ft Bt X. unfold gamma_next, gamma_sum. destruct (gen E g) as [x g']. cbn [fst snd] in *.
  destruct (nextDouble_spec x X) as (u & H & Vu & Fu & Eu & Bu). rewrite H. cbn [bind]. eexists. split; [reflexivity|].
  pose proof (draw_one x u X H) as D. split.
  - intros T. apply D in T. subst u. replace (dsub done done) with (S754_zero false) by (vm_compute; reflexivity). rewrite L0.
    change (dadd dzero (S754_infinity true)) with (S754_infinity true). change (dneg (S754_infinity true)) with (S754_infinity false).
    destruct theta as [s|s| |s m e]; try discriminate; [change (real (S754_zero s)) with 0%R in Bt; lra|]. destruct s; [|reflexivity].
    exfalso. assert (real (S754_finite true m e) < 0)%R by (apply F2R_lt_0; reflexivity). lra.
  - intros T. destruct (one_minus u) as (V1 & F1 & B1); [assumption|assumption|assumption|intros O; apply D in O; lia|].
    destruct (L1 _ V1 F1 B1) as (V2 & F2 & B2). apply gamma_tail; assumption.
Qed.
Print Assumptions C71_exponential_infinite.
Example C71_example :
  gamma_next (Engine (fun s => s) (fun g => (g, g + 1))) (fun x => match x with S754_zero _ => S754_infinity true | _ => dsub x done end) 1 (dof 2) (2 ^ 64 - 1)
    = Ok (S754_infinity false, 2 ^ 64) /\
  gamma_next (Engine (fun s => s) (fun g => (g, g + 1))) (fun x => match x with S754_zero _ => S754_infinity true | _ => dsub x done end) 1 (dof 2) (2 ^ 63)
    = Ok (dof 1, 2 ^ 63 + 1).
Proof. split; vm_compute; reflexivity. Qed.
