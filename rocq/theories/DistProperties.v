(** Property theorems C84 and C85 (distribution objects and their generators). *)
From Verif Require Import Base Float NumModel RandModel DistModel DistSpec DistProofs DistHistProofs DistMainProofs.
Local Open Scope Z_scope.

(** C84: every history of constructions, calls, re-bindings and destructions behaves as if
    distributions were values: same outcome and same results; the generators in memory are
    those that exist in the specification, so each is released once and none is leaked *)
Theorem C84_ownership :
  forall (G : Type) (E : engine G) log exp pow normal_first fuel os,
    match run E log exp pow normal_first fuel empty os,
          vrun (random_new E) (fun o g => rand_step E g o) (init exp pow) (sample E log exp pow normal_first fuel) (State [] []) (map ev os) with
    | Ok (w, rs), Ok (v, rs') => rs = rs' /\ length (filter is_some (gens w)) = live v
    | Err, Err | UB, UB | Fuel, Fuel => True
    | _, _ => False
    end.
Proof.
  intros G E log exp pow nf fuel os. pose proof (main_sim E log exp pow nf fuel os) as H.
  destruct (run E log exp pow nf fuel empty os) as [[w rs]| | |], (vrun _ _ _ _ _ _) as [[v rs']| | |]; try contradiction; try exact I.
  destruct H as (-> & own & R). split; [reflexivity|exact (r_count w v own R)].
Qed.
Print Assumptions C84_ownership.
Theorem C84_no_leak :
  forall (G : Type) (E : engine G) log exp pow normal_first fuel os w rs,
    run E log exp pow normal_first fuel empty os = Ok (w, rs) ->
    Forall (fun u : option nat => u = None) (users w) -> Forall (fun d : option dist => d = None) (dists w) ->
    Forall (fun g : option G => g = None) (gens w).
Proof.
  intros G E log exp pow nf fuel os w rs H U D. destruct (main_ok E log exp pow nf fuel os w rs H) as (v & own & _ & R). exact (none_left w v own R U D).
Qed.
Print Assumptions C84_no_leak.
(** a distribution with a generator of its own gives what it would give alone, whatever
    else the program does *)
Theorem C84_independent :
  forall (G : Type) (E : engine G) log exp pow normal_first fuel os w rs i t p,
    run E log exp pow normal_first fuel empty os = Ok (w, rs) ->
    nth_error (origins (map ev os)) i = Some (Fresh t p) -> Forall (not_rebound i) (map ev os) ->
    let r := results_of i (map ev os) rs in
    exists s s' g', init exp pow p = Ok s /\
      alone (sample E log exp pow normal_first fuel) (length r) s (random_new E t) = Ok (r, s', g').
Proof.
  intros G E log exp pow nf fuel os w rs i t p H O K. destruct (main_ok E log exp pow nf fuel os w rs H) as (v & own & V & R).
  apply (fresh_results _ _ _ _ _ _ _ _ i t p V K); cbn [vdists length]; [apply Nat.le_0_l|]. now rewrite Nat.sub_0_r.
Qed.
Print Assumptions C84_independent.
(** a uniform distribution on a generator of the user stands for calls of that generator *)
Theorem C84_shared_uniform_int :
  forall (G : Type) (E : engine G) log exp pow normal_first fuel os1 os2 j min max,
    min < max ->
    let i := length (origins (map ev os1)) in
    Forall (keeps i) (map ev os2) ->
    omap snd (run E log exp pow normal_first fuel empty (os1 ++ NewDistOn j (PUniformInt min max) :: os2)) =
    omap snd (run E log exp pow normal_first fuel empty (os1 ++ NewDistOn j (PUniformInt min max) :: map (direct i j (RInt min max)) os2)).
Proof.
  intros G E log exp pow nf fuel os1 os2 j min max L i K. apply (sharing E log exp pow nf fuel os1 os2 j _ (SUniformInt min max)); [|reflexivity|exact K].
  cbn. destruct (Z.leb_spec max min); [lia|reflexivity].
Qed.
Print Assumptions C84_shared_uniform_int.
Theorem C84_shared_uniform :
  forall (G : Type) (E : engine G) log exp pow normal_first fuel os1 os2 j min max,
    dltb max min = false ->
    let i := length (origins (map ev os1)) in
    Forall (keeps i) (map ev os2) ->
    omap snd (run E log exp pow normal_first fuel empty (os1 ++ NewDistOn j (PUniform min max) :: os2)) =
    omap snd (run E log exp pow normal_first fuel empty (os1 ++ NewDistOn j (PUniform min max) :: map (direct i j (RDouble min max)) os2)).
Proof.
  intros G E log exp pow nf fuel os1 os2 j min max L i K. apply (sharing E log exp pow nf fuel os1 os2 j _ (SUniform min max)); [|reflexivity|exact K].
  cbn. now rewrite L.
Qed.
Print Assumptions C84_shared_uniform.
(** a distribution does not keep the user's generator alive; destroying it afterwards is fine *)
Theorem C84_outlives_generator_refuted :
  forall (G : Type) (E : engine G) log exp pow normal_first fuel t p s,
    init exp pow p = Ok s ->
    run E log exp pow normal_first fuel empty [NewRandom t; NewDistOn 0 p; EndRandom 0; Next 0] = UB /\
    exists w, run E log exp pow normal_first fuel empty [NewRandom t; NewDistOn 0 p; EndRandom 0; EndDist 0] = Ok (w, [None; None; None; None]) /\ gens w = [None].
Proof. intros G E log exp pow nf fuel t p s H. cbn. rewrite H. cbn. split; [reflexivity|]. eexists. split; reflexivity. Qed.
Print Assumptions C84_outlives_generator_refuted.
(** a 64-bit linear congruential engine for the examples *)
Definition lcg : engine Z :=
  Engine (fun s => s) (fun s => let x := (s * 6364136223846793005 + 1442695040888963407) mod 2 ^ 64 in (x, x)).
Definition some_libm (x : double) : double := dneg x.
Example C84_example :
  omap snd (run lcg some_libm some_libm (fun x _ => x) true 20 empty
    [NewRandom 7; NewDist 3 (PUniformInt 0 100); NewDistOn 0 (PUniformInt 0 100); Next 0; UseRandom 0 (RInt 0 100); Next 1; Next 0;
     SetGenerator 0 0; EndDist 1; Next 0; EndDist 0; UseRandom 0 RBool; EndRandom 0])
  = Ok [None; None; None; Some (OInt 6); Some (OInt 10); Some (OInt 5); Some (OInt 9); None; None; Some (OInt 12); None; Some (OBool true); None]
  /\ omap (fun x => gens (fst x)) (run lcg some_libm some_libm (fun x _ => x) true 20 empty
    [NewRandom 7; NewDist 3 (PUniformInt 0 100); SetGenerator 0 0; EndDist 0; EndRandom 0]) = Ok [None; None]
  /\ init some_libm (fun x _ => x) (PUniformInt 0 100) = Ok (SUniformInt 0 100).
Proof. repeat split; vm_compute; reflexivity. Qed.

(** C85: distributions constructed with equal parameters within the same second give equal
    results, however their calls are interleaved *)
Theorem C85_same_second :
  forall (G : Type) (E : engine G) log exp pow normal_first fuel os w rs i k t p m a b,
    run E log exp pow normal_first fuel empty os = Ok (w, rs) ->
    nth_error (origins (map ev os)) i = Some (Fresh t p) -> nth_error (origins (map ev os)) k = Some (Fresh t p) ->
    Forall (not_rebound i) (map ev os) -> Forall (not_rebound k) (map ev os) ->
    nth_error (results_of i (map ev os) rs) m = Some a -> nth_error (results_of k (map ev os) rs) m = Some b -> a = b.
Proof.
  intros G E log exp pow nf fuel os w rs i k t p m a b H Oi Ok' Ki Kk A B.
  destruct (C84_independent G E log exp pow nf fuel os w rs i t p H Oi Ki) as (s & s1 & g1 & I1 & R1).
  destruct (C84_independent G E log exp pow nf fuel os w rs k t p H Ok' Kk) as (s' & s2 & g2 & I2 & R2). rewrite I1 in I2. injection I2 as <-.
  set (l1 := results_of i (map ev os) rs) in *. set (l2 := results_of k (map ev os) rs) in *.
  assert (La : (m < length l1)%nat) by (apply nth_error_Some; congruence). assert (Lb : (m < length l2)%nat) by (apply nth_error_Some; congruence).
  assert (NF : forall (x y : list rres) n, firstn n y = x -> (m < length x)%nat -> nth_error y m = nth_error x m).
  { intros x y n <- L. revert n y L. clear. induction m as [|m IH]; intros [|n] [|z y] L; cbn in *; try lia; try reflexivity. apply IH. lia. }
  destruct (Nat.le_ge_cases (length l1) (length l2)) as [L|L].
  - replace (length l2) with (length l1 + (length l2 - length l1))%nat in R2 by lia. pose proof (alone_prefix _ _ _ _ _ _ _ _ _ _ _ R1 R2) as P. pose proof (NF _ _ _ P La). congruence.
  - replace (length l1) with (length l2 + (length l1 - length l2))%nat in R1 by lia. pose proof (alone_prefix _ _ _ _ _ _ _ _ _ _ _ R2 R1) as P. pose proof (NF _ _ _ P Lb). congruence.
Qed.
Print Assumptions C85_same_second.
(** so two distributions of one program are not independent *)
Theorem C85_two_distributions_differ_refuted :
  forall (G : Type) (E : engine G) log exp pow normal_first fuel t p w a b,
    run E log exp pow normal_first fuel empty [NewDist t p; NewDist t p; Next 0; Next 1] = Ok (w, [None; None; Some a; Some b]) -> a = b.
Proof.
  intros G E log exp pow nf fuel t p w a b H.
  apply (C85_same_second G E log exp pow nf fuel _ w _ 0%nat 1%nat t p 0%nat a b H); try reflexivity; repeat constructor.
Qed.
Print Assumptions C85_two_distributions_differ_refuted.
(** setRandomGenerator: from a newly seeded generator the results are those of a distribution
    in its present state on that seed; for every class but NormalDistribution that state is
    the one the constructor made *)
Theorem C85_rebind :
  forall (G : Type) (E : engine G) log exp pow normal_first fuel os w rs i d t n,
    run E log exp pow normal_first fuel empty os = Ok (w, rs) -> nth_error (dists w) i = Some (Some d) ->
    omap snd (run E log exp pow normal_first fuel w (NewRandom t :: SetGenerator i (length (users w)) :: repeat (Next i) n)) =
    omap (fun x => None :: None :: map Some (fst (fst x))) (alone (sample E log exp pow normal_first fuel) n (smp d) (random_new E t)) /\
    forall o, nth_error (origins (map ev os)) i = Some o -> exists s, init exp pow (params_of o) = Ok s /\
      match s with SNormal mean stddev _ => exists spare, smp d = SNormal mean stddev spare | _ => smp d = s end.
Proof.
  intros G E log exp pow nf fuel os w rs i d t n H N. split; [exact (rebind_results E log exp pow nf fuel os w rs i d t n H N)|].
  intros o O. exact (main_descends E log exp pow nf fuel os w rs H i o d O N).
Qed.
Print Assumptions C85_rebind.
(** NormalDistribution: after an odd number of calls the next result does not come from the
    new generator, for any seed, and the new generator is not used *)
Theorem C85_rebind_normal_refuted :
  forall (G : Type) (E : engine G) log exp pow normal_first fuel os w rs i d t mean stddev x,
    run E log exp pow normal_first fuel empty os = Ok (w, rs) -> nth_error (dists w) i = Some (Some d) -> smp d = SNormal mean stddev (true, x) ->
    omap snd (run E log exp pow normal_first fuel w [NewRandom t; SetGenerator i (length (users w)); Next i]) =
    Ok [None; None; Some (ODouble (dadd (dmul x stddev) mean))].
Proof.
  intros G E log exp pow nf fuel os w rs i d t mean stddev x H N S.
  pose proof (rebind_results E log exp pow nf fuel os w rs i d t 1 H N) as R. rewrite S in R. exact R.
Qed.
Print Assumptions C85_rebind_normal_refuted.
(** the functions randomInt, randomDouble, randomBool: one generator, seeded at the first call *)
Theorem C85_functions :
  forall (G : Type) (E : engine G) t c cs,
    function_calls E None ((t, c) :: cs) =
    (' (g, rs) <- rand_run E (random_new E t) (map (fun x => method (snd x)) ((t, c) :: cs)) ;; Ok (Some g, rs)).
Proof.
  intros G E t c cs. cbn [function_calls map rand_run snd]. rewrite function_step. destruct (rand_step E (random_new E t) (method c)) as [[g1 r]| | |]; try reflexivity. cbn [bind].
  rewrite functions_run. destruct (rand_run E g1 _) as [[g2 rs]| | |]; reflexivity.
Qed.
Print Assumptions C85_functions.
Example C85_example :
  omap snd (run lcg some_libm some_libm (fun x _ => x) true 20 empty
    [NewDist 3 (PUniformInt 0 100); NewDist 3 (PUniformInt 0 100); Next 0; Next 0; Next 1; Next 1])
  = Ok [None; None; Some (OInt 6); Some (OInt 9); Some (OInt 6); Some (OInt 9)]
  /\ omap snd (function_calls lcg None [(3, FIntMax 100); (9, FIntRange 0 100); (10, FBool)]) = Ok [OInt 6; OInt 9; OBool false]
  /\ (exists w rs d mean stddev x, run lcg some_libm some_libm (fun x _ => x) true 20 empty [NewDist 3 (PNormal dzero done); Next 0] = Ok (w, rs) /\
        nth_error (dists w) 0 = Some (Some d) /\ smp d = SNormal mean stddev (true, x)).
Proof. split; [vm_compute; reflexivity|]. split; [vm_compute; reflexivity|]. eexists _, _, _, _, _, _. split; [vm_compute; reflexivity|]. split; reflexivity. Qed.
