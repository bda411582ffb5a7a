From Coq Require Import Reals Lra Floats.SpecFloat Psatz.
From Flocq Require Import Core Mult_error.
From Verif Require Import Base Float FloatProofs NumModel RandModel RandSpec RandDoubleProofs RandSamplerProofs StatProofs StatErrProofs DistModel DistNumSpec DistNumProofs DistGammaProofs.
Local Open Scope Z_scope.

Section Draws.
Context {G : Type} (E : engine G) (log exp : double -> double) (pow : double -> double -> double).
Lemma nextDouble_ok x : exists u, nextDouble x = Ok u.
Proof. unfold nextDouble, nextDouble_range. change (dltb done dzero) with false. eauto. Qed.
Lemma gamma_sum_draws n : forall acc g, exists us, Forall2 (fun x u => nextDouble x = Ok u) (outputs E n g) us /\
  gamma_sum E log n acc g = Ok (fold_left (fun s u => dadd s (log (dsub done u))) us acc, after E n g).
Proof.
  induction n as [|n IH]; intros acc g; cbn [outputs after gamma_sum]. { exists []. split; [constructor|reflexivity]. }
  destruct (gen E g) as [x g']. cbn [fst snd]. destruct (nextDouble_ok x) as [u U]. rewrite U. cbn [bind].
  destruct (IH (dadd acc (log (dsub done u))) g') as (us & F & R). exists (u :: us). split; [now constructor|exact R].
Qed.
Lemma after_add m : forall n g, after E (n + m) g = after E m (after E n g).
Proof. intros n. induction n as [|n IH]; intros g; cbn; [reflexivity|apply IH]. Qed.
Lemma reject_draws fuel : forall d g, gamma_reject E log exp pow fuel d g = Fuel \/
  exists ksi m, (0 < m)%nat /\ gamma_reject E log exp pow fuel d g = Ok (ksi, after E (3 * m) g).
Proof.
  induction fuel as [|fuel IH]; intros d g; cbn [gamma_reject]; [now left|]. unfold draw.
  destruct (gen E g) as [x1 g1] eqn:G1. destruct (nextDouble_ok x1) as [u ->]. cbn [bind].
  destruct (gen E g1) as [x2 g2] eqn:G2. destruct (nextDouble_ok x2) as [v ->]. cbn [bind].
  destruct (gen E g2) as [x3 g3] eqn:G3. destruct (nextDouble_ok x3) as [w ->]. cbn [bind].
  assert (A : after E 3 g = g3) by (cbn; rewrite G1; cbn; rewrite G2; cbn; now rewrite G3).
  destruct (gamma_try _ _ _ _ _) as [ksi|].
  - right. exists ksi, 1%nat. split; [lia|]. now rewrite <- A.
  - destruct (IH d g3) as [H|(ksi & m & M & H)]; [left; exact H|right]. exists ksi, (S m). split; [lia|]. rewrite H. replace (3 * S m)%nat with (3 + 3 * m)%nat by lia. now rewrite after_add, A.
Qed.
(** every outcome, with the number of outputs used *)
Lemma gamma_outcome fuel k theta g : number k -> (0 < real k)%R ->
  let n := Z.to_nat (Zfloor (real k)) in
  match gamma_draw E log exp pow fuel k theta g with
  | Ok (_, g') => (real k < IZR (2 ^ 31))%R /\ exists m, g' = after E (n + 3 * m) g /\ (m = 0%nat <-> real k = IZR (Z.of_nat n))
  | UB => (IZR (2 ^ 31) <= real k)%R
  | Fuel => (real k < IZR (2 ^ 31))%R /\ real k <> IZR (Z.of_nat n)
  | Err => False
  end.
Proof.
  intros N P n. pose proof (floor_range k P) as F0. unfold gamma_draw. rewrite to_int_spec by assumption. destruct (Rlt_bool_spec (real k) (IZR (2 ^ 31))) as [L|L]; [|exact L]. cbn [bind].
  fold n. destruct (gamma_sum_draws n dzero g) as (us & _ & ->). cbn [bind]. destruct (delta_spec k N (conj P L)) as ([Vd Fd] & Rd & Bd). rewrite deqb_zero, Rd by assumption.
  assert (I : (real k - IZR (Zfloor (real k)) = 0)%R <-> real k = IZR (Z.of_nat n)) by (unfold n; rewrite Z2Nat.id by lia; split; intros; lra).
  destruct (Req_bool_spec (real k - IZR (Zfloor (real k))) 0) as [Z|Z].
  - split; [exact L|]. exists 0%nat. rewrite Nat.add_0_r. split; [reflexivity|]. tauto.
  - destruct (reject_draws fuel (dsub k (dfloor k)) (after E n g)) as [->|(ksi & m & M & ->)]; cbn [bind]; [split; [exact L|tauto]|]. split; [exact L|]. exists m. rewrite after_add. split; [reflexivity|]. split; [lia|tauto].
Qed.
Lemma gamma_of_integer fuel k theta n g : number k -> real k = IZR (Z.of_nat n) -> 0 < Z.of_nat n < 2 ^ 31 ->
  exists us, Forall2 (fun x u => nextDouble x = Ok u) (outputs E n g) us /\
    gamma_draw E log exp pow fuel k theta g = Ok (gamma_of_draws (double_ops log exp pow) theta us, after E n g).
Proof.
  intros Nk Rk Bn. assert (P : (0 < real k < IZR (2 ^ 31))%R) by (rewrite Rk; split; apply IZR_lt; lia).
  unfold gamma_draw. rewrite to_int_spec by (tauto || lra). rewrite Rlt_bool_true by apply P. cbn [bind]. rewrite Rk, Zfloor_IZR, Nat2Z.id.
  destruct (gamma_sum_draws n dzero g) as (us & F & ->). cbn [bind]. destruct (delta_spec k Nk P) as ([Vd Fd] & Rd & _). rewrite Rk, Zfloor_IZR, Rminus_diag_eq in Rd by reflexivity. rewrite deqb_zero, Rd, Req_bool_true by (assumption || reflexivity).
  exists us. split; [exact F|reflexivity].
Qed.
End Draws.

(** the getter of ChiSquaredDistribution *)
Lemma chi_getter r : number r -> (bpow radix2 (-1021) <= real r)%R -> chi_squared_r (ddiv r (dof 2)) = r.
Proof.
  intros N L. destruct (half_spec r N) as [[Vh Fh] R]. destruct N as [V F]. assert (P : (0 < real r)%R) by (pose proof (bpow_gt_0 radix2 (-1021)); lra).
  assert (RH : real (ddiv r (dof 2)) = (real r / 2)%R).
  { rewrite R. unfold rnd. apply round_generic; [apply valid_rnd_N|]. replace (real r / 2)%R with (real r * bpow radix2 (-1))%R by (change (bpow radix2 (-1)) with (/ 2)%R; reflexivity).
    apply mult_bpow_exact_FLT; [exact (format_real r V)|]. change (emin 53 1024) with (-1074); assert (-1020 <= mag radix2 (real r)); [|lia]. apply mag_ge_bpow. rewrite Rabs_pos_eq by lra. exact L. }
  destruct number_2 as [V2 F2]. unfold chi_squared_r. destruct (dmul_spec (ddiv r (dof 2)) (dof 2) Vh V2 Fh F2) as [A S].
  rewrite RH, real_2 in S. replace (real r / 2 * 2)%R with (real r) in S by field. rewrite (rnd_real r V) in S. rewrite Rlt_bool_true in S by (exact (dvalid_le_pow r V F)).
  destruct S as [Q B]. apply real_inj; try assumption; rewrite Q; try reflexivity; lra.
Qed.

(** NaN parameters *)
Lemma nan_accepted exp pow x n : number x -> (0 < real x)%R -> 0 < n <= int32_max ->
  Forall (fun p => init exp pow p <> Err)
    [PBernoulli dnan; PUniform dnan x; PUniform x dnan; PNormal x dnan; PGamma dnan x; PGamma x dnan; PExponential dnan; PChiSquared dnan;
     PStudentT dnan; PNegBin n dnan; PGeometric dnan; PPoisson dnan; PBinomial n dnan].
Proof.
  intros Nx Px Bn. assert (L : dleb x dzero = false) by (rewrite (leb_zero x Nx); now apply Rle_bool_false). repeat apply Forall_cons; try apply Forall_nil; try discriminate.
  - cbn. destruct x as [| | |[]]; discriminate.
  - cbn [init]. unfold gamma_init. rewrite L. discriminate.
  - cbn [init]. unfold gamma_init. rewrite L. discriminate.
  - cbn [init]. unfold negbin_init, B64. cbn [RandModel.ltb geb of_int binary64]. change (dleb dnan (dof 0)) with false. change (dltb (dof 1) dnan) with false. destruct (Z.leb_spec n 0); [lia|]. cbn [orb].
    intros X. assert (Q : genericBinaryPow1 dmul done dnan n <> Err) by (unfold genericBinaryPow1; destruct (n =? 0); [discriminate|]; destruct (n =? 1); [discriminate|]; destruct (Z.ltb_spec n 0); [lia|apply gpow_not_err]).
    match type of X with context [genericBinaryPow1 ?m ?o dnan n] => change (genericBinaryPow1 m o dnan n) with (genericBinaryPow1 dmul done dnan n) in X end.
    destruct (genericBinaryPow1 dmul done dnan n); cbn in X; try discriminate; congruence.
  - cbn [init]. unfold binomial_init, B64. cbn [RandModel.ltb geb of_int binary64]. change (dltb dnan (dof 0)) with false. change (dltb (dof 1) dnan) with false. destruct (Z.ltb_spec n 0); [lia|]. cbn [orb].
    intros X. unfold chk32 in X. destruct (in_int32 (n + 1)); cbn [bind] in X; [|discriminate].
    match type of X with context [binom_table ?a ?b ?c ?d ?e ?f ?g] => pose proof (table_not_err (fun x i => pow x (dof i)) n d e b ltac:(lia) 0 g ltac:(lia) ltac:(lia)) as Q; destruct (binom_table a b c d e f g); cbn in X; try discriminate; congruence end.
Qed.
