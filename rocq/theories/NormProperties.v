(** Property theorems C110 (NormalDistribution samples). *)
From Coq Require Import Reals Lra Floats.SpecFloat.
From Flocq Require Import Core.
From Verif Require Import Base Float FloatProofs RandModel RandSpec RandDoubleProofs DistNumSpec DistRealSpec NormModel NormSpec NormProofs NormFloatProofs.
Local Open Scope R_scope.

(** C110: in exact arithmetic with independent uniform draws, after at most n
    rounds the loop has returned a pair in a given sector, at distance at least
    rho from the origin, with probability alpha / 2 pi * e^(-rho^2 / 2) times
    the probability that it has returned at all: the polar form of the law of
    two independent standard normal numbers. *)
Theorem C110_law :
  forall n alpha rho sx sy, 0 < alpha <= PI / 2 -> 0 <= rho -> sign sx -> sign sy ->
    is_mean (2 * n) (fun us => chi (match norm_loop rnorm us with Some (z, _) => in_sector sx sy alpha rho z | None => false end))
      (alpha / (2 * PI) * exp (- (rho * rho) / 2) * (1 - (1 - PI / 4) ^ n)).
Proof. exact law_rounds. Qed.
Print Assumptions C110_law.
(** a round is accepted with probability pi / 4 *)
Theorem C110_rounds :
  forall n, is_mean (2 * n) (fun us => chi (match norm_loop rnorm us with Some _ => true | None => false end)) (1 - (1 - PI / 4) ^ n).
Proof. exact accepted_rounds. Qed.
Print Assumptions C110_rounds.
(** the binary64 code is this loop on the next engine outputs, and hands out the
    second number of the pair at the next call, without drawing *)
Theorem C110_same_code :
  forall (G : Type) (E : engine G) log mean stddev fuel z g,
    normal_next E log fuel mean stddev (true, z) g = Ok (dadd (dmul z stddev) mean, (false, z), g) /\
    normal_next E log fuel mean stddev (false, z) g =
      match norm_loop (dnorm log) (map unit_draw (outputs E (2 * fuel) g)) with
      | Some (z1, z2, k) => Ok (dadd (dmul z1 stddev) mean, (true, z2), after E k g)
      | None => Fuel
      end.
Proof. intros. split; [reflexivity|apply next_loop]. Qed.
Print Assumptions C110_same_code.
(** in binary64 every sample is finite and within 14 standard deviations of the mean *)
Theorem C110_bounded :
  forall (G : Type) (E : engine G) log mean stddev, fair_log log -> (forall g, output (fst (gen E g))) ->
    number stddev -> number mean -> 0 <= real stddev <= bpow radix2 1000 -> Rabs (real mean) <= bpow radix2 1000 ->
    forall fuel st g z st' g', good st -> normal_next E log fuel mean stddev st g = Ok (z, st', g') ->
      good st' /\ number z /\
      Rabs (real z - real mean) <= 14 * real stddev + bpow radix2 (-53) * Rabs (real mean) + bpow radix2 (-1073).
Proof. intros. eapply next_bound; eassumption. Qed.
Print Assumptions C110_bounded.

(** an engine and a logarithm for the examples *)
Definition lcg : engine Z :=
  Engine (fun s => s) (fun s => let x := ((s * 6364136223846793005 + 1442695040888963407) mod 2 ^ 64)%Z in (x, x)).
Definition minus_one (x : double) : double := dsub x done.
Example C110_assumptions_example : fair_log minus_one /\ (forall g, output (fst (gen lcg g))) /\ good (false, dzero) /\ sign 1 /\ sign (-1) /\
  0 < PI / 3 <= PI / 2.
Proof.
  split; [|split; [|split; [|split; [|split]]]].
  - intros s [V F] [L H]. unfold minus_one. pose proof (bpow_gt_0 radix2 (-106)). destruct valid_one as [V1 F1].
    destruct (StatProofs.dsub_ok s done 1 V V1 F F1 ltac:(lia)) as (A & B & C).
    { rewrite real_one. change (bpow radix2 1) with 2. apply Rabs_le. lra. }
    split; [now split|]. rewrite C, real_one. split.
    + apply Rle_trans with (rnd (-74)); [rewrite (StatProofs.rnd_int (-74)) by lia; lra|apply rnd_le; lra].
    + rewrite <- rnd_0. apply rnd_le. lra.
  - intros g. apply Z.mod_pos_bound. reflexivity.
  - intros H. discriminate.
  - now left.
  - now right.
  - pose proof PI_RGT_0. lra.
Qed.
(** a call that draws, with one rejected round, and the call after it *)
Example C110_example :
  match normal_next lcg minus_one 20 (dof 10) (dof 3) (false, dzero) 12%Z with
  | Ok (z, st, g) =>
      fst st = true /\ dltb (dof 1) z = true /\ dltb z (dof 19) = true /\ deqb z (dof 10) = false /\
      match normal_next lcg minus_one 20 (dof 10) (dof 3) st g with
      | Ok (z', st', g') => g' = g /\ fst st' = false /\ deqb z' z = false
      | _ => False
      end
  | _ => False
  end /\
  match norm_loop (dnorm minus_one) (map unit_draw (outputs lcg 20 12%Z)) with Some (_, k) => k = 4%nat | None => False end.
Proof. vm_compute. repeat split; repeat constructor. Qed.
