From Coq Require Import QArith Qpower Lqa.
From Verif Require Import Base NumModel NumSpec NumProofs NumPowProofs NumBinProofs RandModel RandSpec RandProofs.
Local Open Scope Z_scope.

(** powers *)
Lemma qpow_nonneg q n : (0 <= q)%Q -> (0 <= qpow q n)%Q.
Proof. intros H. induction n as [|n IH]; cbn [qpow]; [lra|]. now apply Qmult_le_0_compat. Qed.
Lemma qpow_pos q n : (0 < q)%Q -> (0 < qpow q n)%Q.
Proof. intros H. induction n as [|n IH]; cbn [qpow]; [lra|]. apply Qmult_lt_0_compat; assumption. Qed.
(** Bernoulli: q^n (1 + n (1-q)/q) <= 1, in the form q^n (q + n (1-q)) <= q *)
Lemma qpow_decay q n : (0 <= q)%Q -> (q <= 1)%Q -> (qpow q n * (q + inject_Z (Z.of_nat n) * (1 - q)) <= q)%Q.
Proof.
  intros Q0 Q1. induction n as [|n IH]; cbn [qpow].
  - change (inject_Z (Z.of_nat 0)) with 0%Q. lra.
  - assert (N : (inject_Z (Z.of_nat (S n)) == inject_Z (Z.of_nat n) + 1)%Q).
    { rewrite Nat2Z.inj_succ. unfold Z.succ. now rewrite inject_Z_plus. }
    assert (N0 : (0 <= inject_Z (Z.of_nat n))%Q) by (unfold Qle; cbn; lia). rewrite N.
    pose proof (qpow_nonneg q n Q0) as P. set (w := qpow q n) in *. set (m := inject_Z (Z.of_nat n)) in *. clearbody w m. 
    assert ((q * w * (q + (m + 1) * (1 - q)) == w * (q + m * (1 - q)) - (1 - q) * (1 - q) * (w * m))%Q) as -> by ring.
    assert (0 <= (1 - q) * (1 - q) * (w * m))%Q. { apply Qmult_le_0_compat; apply Qmult_le_0_compat; lra. } lra.
Qed.
Lemma qpow_bernoulli q n : (0 <= q)%Q -> (q <= 1)%Q -> (1 - inject_Z (Z.of_nat n) * (1 - q) <= qpow q n)%Q.
Proof.
  intros Q0 Q1. induction n as [|n IH]; cbn [qpow].
  - change (inject_Z (Z.of_nat 0)) with 0%Q. lra.
  - assert (N : (inject_Z (Z.of_nat (S n)) == inject_Z (Z.of_nat n) + 1)%Q).
    { rewrite Nat2Z.inj_succ. unfold Z.succ. now rewrite inject_Z_plus. }
    assert (N0 : (0 <= inject_Z (Z.of_nat n))%Q) by (unfold Qle; cbn; lia). rewrite N.
    set (w := qpow q n) in *. set (m := inject_Z (Z.of_nat n)) in *. clearbody w m.
    assert (H : (q * (1 - m * (1 - q)) <= q * w)%Q).
    { rewrite !(Qmult_comm q). apply Qmult_le_compat_r; assumption. }
    assert (0 <= m * ((1 - q) * (1 - q)))%Q by (apply Qmult_le_0_compat; [assumption|apply Qmult_le_0_compat; lra]). nra.
Qed.
Lemma archimed (x : Q) : exists n : nat, (x < inject_Z (Z.of_nat n))%Q.
Proof.
  exists (Z.to_nat (Z.max 0 (Qnum x) + 1)). rewrite Z2Nat.id by lia. destruct x as [n d]. unfold Qlt. cbn. nia.
Qed.
Lemma qpow_small q eps : (0 <= q)%Q -> (q < 1)%Q -> (0 < eps)%Q -> exists n, (qpow q n < eps)%Q.
Proof.
  intros Q0 Q1 E. destruct (archimed (q / (eps * (1 - q)))) as [n N]. exists n.
  pose proof (qpow_decay q n Q0 ltac:(lra)) as D.
  assert (N0 : (0 <= inject_Z (Z.of_nat n))%Q) by (unfold Qle; cbn; lia).
  pose proof (qpow_nonneg q n Q0) as P. set (w := qpow q n) in *. set (m := inject_Z (Z.of_nat n)) in *. clearbody w m.
  assert (X : (0 < eps * (1 - q))%Q) by (apply Qmult_lt_0_compat; lra).
  assert (N' : (q < m * (eps * (1 - q)))%Q).
  { setoid_replace q with (q / (eps * (1 - q)) * (eps * (1 - q)))%Q at 1 by (field; split; intro; lra). apply Qmult_lt_compat_r; assumption. }
  apply Qnot_le_lt. intros C.
  assert ((m * (eps * (1 - q)) <= w * (q + m * (1 - q)))%Q); [|lra].
  assert (0 <= w * q)%Q by (apply Qmult_le_0_compat; assumption).
  assert (0 <= (w - eps) * (m * (1 - q)))%Q by (apply Qmult_le_0_compat; [lra|apply Qmult_le_0_compat; lra]). lra.
Qed.

(** negative binomial *)
Lemma negbin_one p k : (negbin_pmf 1 p k == geometric_pmf p k)%Q.
Proof.
  unfold negbin_pmf, geometric_pmf. replace (k + 1 - 1)%nat with k by lia. cbn [Nat.sub fac qpow]. change (inject_Z 1) with 1%Q. field. apply fac_nz.
Qed.
Lemma geometric_cdf p k : (cdf (geometric_pmf p) k == 1 - qpow (1 - p) (S k))%Q.
Proof. induction k as [|k IH]; cbn [cdf]; unfold geometric_pmf at 1; [cbn [qpow]; ring|]. rewrite IH. unfold geometric_pmf. cbn [qpow]. ring. Qed.
Lemma negbin_pascal0 r p : (negbin_pmf (S (S r)) p 0 == p * negbin_pmf (S r) p 0)%Q.
Proof. rewrite !negbin_0. cbn [qpow]. ring. Qed.
Lemma negbin_pascal r p x :
  (negbin_pmf (S (S r)) p (S x) == p * negbin_pmf (S r) p (S x) + (1 - p) * negbin_pmf (S (S r)) p x)%Q.
Proof.
  unfold negbin_pmf. replace (S x + S (S r) - 1)%nat with (S (x + S r)) by lia.
  replace (S x + S r - 1)%nat with (x + S r)%nat by lia. replace (x + S (S r) - 1)%nat with (x + S r)%nat by lia.
  replace (S (S r) - 1)%nat with (S r) by lia. replace (S r - 1)%nat with r by lia.
  rewrite (fac_S (x + S r)), (fac_S x), (fac_S r).
  assert ((inject_Z (Z.of_nat (S (x + S r))) == inject_Z (Z.of_nat (S x)) + inject_Z (Z.of_nat (S r)))%Q) as ->.
  { rewrite <- inject_Z_plus. replace (Z.of_nat (S (x + S r))) with (Z.of_nat (S x) + Z.of_nat (S r)) by lia. reflexivity. }
  cbn [qpow]. field. repeat split; apply fac_nz || apply injS_nz.
Qed.
Lemma negbin_cdf_rec r p k : (cdf (negbin_pmf (S (S r)) p) (S k) ==
  p * cdf (negbin_pmf (S r) p) (S k) + (1 - p) * cdf (negbin_pmf (S (S r)) p) k)%Q.
Proof.
  induction k as [|k IH].
  - cbn [cdf]. rewrite negbin_pascal, negbin_pascal0. ring.
  - change (cdf (negbin_pmf (S (S r)) p) (S (S k))) with (cdf (negbin_pmf (S (S r)) p) (S k) + negbin_pmf (S (S r)) p (S (S k)))%Q.
    rewrite negbin_pascal.
    setoid_replace (cdf (negbin_pmf (S (S r)) p) (S k)) with (p * cdf (negbin_pmf (S r) p) (S k) + (1 - p) * cdf (negbin_pmf (S (S r)) p) k)%Q at 1 by exact IH.
    cbn [cdf]. ring.
Qed.
(** the upper tail *)
Definition tail r p k : Q := (1 - cdf (negbin_pmf (S r) p) k)%Q.
Lemma tail_0 p k : (tail 0 p k == qpow (1 - p) (S k))%Q.
Proof. unfold tail. rewrite (cdf_ext _ _ k (negbin_one p)), geometric_cdf. ring. Qed.
Lemma tail_S0 r p : (tail (S r) p 0 == p * tail r p 0 + (1 - p))%Q.
Proof. unfold tail. cbn [cdf]. rewrite negbin_pascal0. ring. Qed.
Lemma tail_SS r p k : (tail (S r) p (S k) == p * tail r p (S k) + (1 - p) * tail (S r) p k)%Q.
Proof. unfold tail. rewrite negbin_cdf_rec. ring. Qed.
Lemma tail_range r p : (0 < p)%Q -> (p < 1)%Q -> forall k, (0 < tail r p k)%Q /\ (tail r p k <= 1)%Q.
Proof.
  intros P0 P1. induction r as [|r IH]; intros k.
  - rewrite tail_0. split; [apply qpow_pos; lra|]. induction (S k) as [|n IH]; cbn [qpow]; [lra|].
    pose proof (qpow_nonneg (1 - p) n ltac:(lra)). nra.
  - induction k as [|k IHk].
    + rewrite tail_S0. destruct (IH 0%nat). nra.
    + rewrite tail_SS. destruct (IH (S k)), IHk. nra.
Qed.
Lemma negbin_pmf_nonneg r p x : (0 <= p)%Q -> (p <= 1)%Q -> (0 <= negbin_pmf r p x)%Q.
Proof.
  intros P0 P1. unfold negbin_pmf.
  assert (F : forall n, (0 <= inject_Z (fac n))%Q) by (intros n; pose proof (fac_pos n); unfold Qle; cbn; lia).
  apply Qmult_le_0_compat; [apply Qmult_le_0_compat|]; try (apply qpow_nonneg; lra).
  apply Qmult_le_0_compat; [apply F|]. apply Qinv_le_0_compat. apply Qmult_le_0_compat; apply F.
Qed.
Lemma cdf_mono f k j : (forall i, (0 <= f i)%Q) -> (k <= j)%nat -> (cdf f k <= cdf f j)%Q.
Proof. intros H. induction 1 as [|j L IH]; [lra|]. cbn [cdf]. specialize (H (S j)). lra. Qed.
Lemma tail_small r p : (0 < p)%Q -> (p <= 1)%Q -> forall eps, (0 < eps)%Q -> exists k, forall j, (k <= j)%nat -> (tail r p j < eps)%Q.
Proof.
  intros P0 P1.
  assert (Mono : forall r eps k, (tail r p k < eps)%Q -> forall j, (k <= j)%nat -> (tail r p j < eps)%Q).
  { intros r' eps k H j L. unfold tail in *. pose proof (cdf_mono (negbin_pmf (S r') p) k j (fun i => negbin_pmf_nonneg _ p i ltac:(lra) P1) L). lra. }
  induction r as [|r IH]; intros eps E.
  - destruct (qpow_small (1 - p) eps) as [n N]; [lra|lra|assumption|]. exists n. apply Mono. rewrite tail_0. cbn [qpow].
    pose proof (qpow_nonneg (1 - p) n ltac:(lra)). nra.
  - destruct (IH (eps * (1 # 2))%Q) as [K HK]; [lra|].
    destruct (qpow_small (1 - p) (eps * (1 # 2))%Q) as [n N]; [lra|lra|lra|].
    assert (T1 : (tail (S r) p K <= 1)%Q).
    { unfold tail. pose proof (cdf_mono (negbin_pmf (S (S r)) p) 0 K (fun i => negbin_pmf_nonneg _ p i ltac:(lra) P1) ltac:(lia)).
      cbn [cdf] in H. pose proof (negbin_pmf_nonneg (S (S r)) p 0 ltac:(lra) P1). lra. }
    assert (B : forall m, (tail (S r) p (K + m) <= eps * (1 # 2) + qpow (1 - p) m)%Q).
    { induction m as [|m IHm]; [rewrite Nat.add_0_r; cbn [qpow]; lra|]. rewrite Nat.add_succ_r, tail_SS. cbn [qpow].
      pose proof (HK (S (K + m)) ltac:(lia)). pose proof (qpow_nonneg (1 - p) m ltac:(lra)). nra. }
    exists (K + n)%nat. apply Mono. specialize (B n). lra.
Qed.
Lemma least (P : nat -> Prop) (dec : forall n, P n \/ ~ P n) n : P n -> exists k, P k /\ forall j, (j < k)%nat -> ~ P j.
Proof.
  induction n as [n IH] using (well_founded_induction Wf_nat.lt_wf). intros H.
  assert (D : (exists j, (j < n)%nat /\ P j) \/ forall j, (j < n)%nat -> ~ P j).
  { clear IH H. induction n as [|n IH]; [right; intros; lia|]. destruct IH as [(j & L & H)|N]; [left; exists j; split; [lia|assumption]|].
    destruct (dec n) as [H|H]; [left; exists n; split; [lia|assumption]|]. right. intros j L. destruct (Nat.eq_dec j n) as [-> |]; [assumption|]. apply N. lia. }
  destruct D as [(j & L & Hj)|N]; [apply (IH j L Hj)|]. now exists n.
Qed.
Lemma inverse_exists f u k : (u < cdf f k)%Q -> exists k', (k' <= k)%nat /\ inverse_cdf f u k'.
Proof.
  intros H. destruct (least (fun k => (u < cdf f k)%Q)) with (n := k) as (k' & K1 & K2); [|assumption|].
  - intros n. destruct (Qlt_le_dec u (cdf f n)); [now left|right; lra].
  - exists k'. split; [|split; [assumption|]].
    + destruct (Nat.le_gt_cases k' k); [assumption|]. exfalso. apply (K2 k); assumption.
    + intros j L. specialize (K2 j L). lra.
Qed.
Lemma negbin_inverse r p u : (1 <= r)%nat -> (0 < p)%Q -> (p <= 1)%Q -> (u < 1)%Q -> exists k, inverse_cdf (negbin_pmf r p) u k.
Proof.
  intros R P0 P1 U. destruct r as [|r]; [lia|]. destruct (tail_small r p P0 P1 (1 - u)%Q) as [k K]; [lra|]. specialize (K k ltac:(lia)).
  destruct (inverse_exists (negbin_pmf (S r) p) u k) as (k' & _ & I); [unfold tail in K; lra|]. now exists k'.
Qed.
Lemma negbin_cdf_lt1 r p k : (1 <= r)%nat -> (0 < p)%Q -> (p < 1)%Q -> (cdf (negbin_pmf r p) k < 1)%Q.
Proof. intros R P0 P1. destruct r as [|r]; [lia|]. pose proof (tail_range r p P0 P1 k). unfold tail in *. lra. Qed.

(** binomial *)
Lemma Gfac a b : G a b * fac a * fac b = fac (a + b).
Proof. exact (G_fact a b). Qed.
Lemma binomial_pmf_G n p x : (x <= n)%nat ->
  (binomial_pmf n p x == inject_Z (G (n - x) x) * qpow p x * qpow (1 - p) (n - x))%Q.
Proof.
  intros L. unfold binomial_pmf. pose proof (Gfac (n - x) x) as H. replace (n - x + x)%nat with n in H by lia.
  rewrite <- H, !inject_Z_mult. field. repeat split; apply fac_nz.
Qed.
Lemma binomial_step n p k : (k <= n)%nat ->
  (cdf (binomial_pmf (S n) p) k == cdf (binomial_pmf n p) k - p * binomial_pmf n p k)%Q.
Proof.
  induction k as [|k IH]; intros L; cbn [cdf].
  - rewrite !binomial_pmf_G by lia. rewrite !Nat.sub_0_r, !G_0_r. change (inject_Z 1) with 1%Q. cbn [qpow]. ring.
  - rewrite IH by lia. rewrite !binomial_pmf_G by lia. replace (S n - S k)%nat with (S (n - S k)) by lia.
    replace (n - k)%nat with (S (n - S k)) by lia. rewrite G_SS, inject_Z_plus. cbn [qpow]. ring.
Qed.
Lemma binomial_total n p : (cdf (binomial_pmf n p) n == 1)%Q.
Proof.
  induction n as [|n IH]; [cbn; rewrite binomial_pmf_G by lia; cbn; ring|].
  cbn [cdf]. rewrite binomial_step, IH by lia. rewrite !binomial_pmf_G by lia. rewrite !Nat.sub_diag, !G_0_l. change (inject_Z 1) with 1%Q. cbn [qpow]. ring.
Qed.
Lemma qpower_qpow q n : (Qpower q (Z.of_nat n) == qpow q n)%Q.
Proof.
  induction n as [|n IH]; [reflexivity|]. cbn [qpow]. destruct n as [|n]; [cbn; ring|].
  rewrite <- IH. change (Z.of_nat (S (S n))) with (Zpos (Pos.succ (Pos.of_succ_nat n))). change (Z.of_nat (S n)) with (Zpos (Pos.of_succ_nat n)).
  cbn [Qpower]. rewrite <- Pos.add_1_l, Qpower_plus_positive. reflexivity.
Qed.
Lemma binom_fits n i : 0 <= i <= n -> n <= 33 -> GZ (n - i) i <= int32_max.
Proof.
  intros I N. transitivity (GZ (33 - i) i).
  - unfold GZ. apply G_mono; lia.
  - assert (B : forall j, (j < 34)%nat -> exists v, binomial I32 33 (Z.of_nat j) = Ok v).
    { intros j J. do 34 (destruct j as [|j]; [vm_compute; eauto|]). lia. }
    destruct (B (Z.to_nat i) ltac:(lia)) as [v Hv]. rewrite Z2Nat.id in Hv by lia.
    rewrite binomial_spec in Hv by (unfold int32_max; lia). unfold chk in Hv. destruct (inr I32 (GZ (33 - i) i)) eqn:R; [|discriminate].
    apply inr_iff in R. change (imax I32) with int32_max in R. lia.
Qed.
Lemma binom_overflows n : 34 <= n -> int32_max < GZ (n - 17) 17.
Proof.
  intros N. pose proof (binomial_spec I64 34 17 ltac:(lia) ltac:(unfold int32_max; lia)) as B.
  assert (C : binomial I64 34 17 = Ok 2333606220) by (vm_compute; reflexivity). rewrite C in B. clear C.
  assert (L : GZ (34 - 17) 17 <= GZ (n - 17) 17) by (unfold GZ; apply G_mono; lia).
  revert B L. generalize (GZ (34 - 17) 17). intros g B L. unfold chk in B. destruct (inr I64 g); [|discriminate].
  injection B as <-. unfold int32_max. lia.
Qed.
Lemma nth_table n p : Z.of_nat n <= 33 -> forall fuel i th, (i + fuel = n)%nat ->
  (match i with O => th == 0 | S j => th == cdf (binomial_pmf n p) j end)%Q ->
  exists t, binom_table exact fuel (Z.of_nat n) p (1 - p)%Q (Z.of_nat i) th = Ok t /\ length t = S fuel /\
    forall j d, (j < fuel)%nat -> (nth j t d == cdf (binomial_pmf n p) (i + j))%Q.
Proof.
  intros N. induction fuel as [|fuel IH]; intros i th L T; cbn [binom_table].
  - eexists. split; [reflexivity|]. split; [reflexivity|]. intros. lia.
  - rewrite binomial_spec by (unfold int32_max; lia). unfold chk.
    pose proof (binom_fits (Z.of_nat n) (Z.of_nat i) ltac:(lia) N) as F.
    assert (R : inr I32 (GZ (Z.of_nat n - Z.of_nat i) (Z.of_nat i)) = true).
    { apply inr_iff. assert (1 <= GZ (Z.of_nat n - Z.of_nat i) (Z.of_nat i)) by apply G_pos. change (imax I32) with int32_max. change (imin I32) with int32_min. unfold int32_min. lia. }
    rewrite R. cbn [bind add mul of_int RandModel.pow exact].
    set (th' := (th + _)%Q).
    assert (T' : (th' == cdf (binomial_pmf n p) i)%Q).
    { unfold th'. assert (E : (inject_Z (GZ (Z.of_nat n - Z.of_nat i) (Z.of_nat i)) * p ^ Z.of_nat i * (1 - p) ^ (Z.of_nat n - Z.of_nat i) == binomial_pmf n p i)%Q).
      { rewrite binomial_pmf_G by lia. rewrite <- Nat2Z.inj_sub by lia. rewrite !qpower_qpow. unfold GZ. now rewrite !Nat2Z.id. }
      rewrite E. destruct i as [|i]; cbn [cdf]; rewrite T; [ring|reflexivity]. }
    clearbody th'. replace (Z.of_nat i + 1) with (Z.of_nat (S i)) by lia.
    destruct (IH (S i) th') as (t & -> & Lt & Nt); [lia|assumption|]. exists (th' :: t). split; [reflexivity|]. split; [cbn [length]; lia|].
    intros [|j] d J; cbn [nth]; [rewrite Nat.add_0_r; assumption|]. rewrite Nt by lia. now replace (S i + j)%nat with (i + S j)%nat by lia.
Qed.
Lemma table_ub n p q : n <= int32_max -> forall fuel i th j, 0 <= i -> i + Z.of_nat fuel <= n -> i <= j < i + Z.of_nat fuel -> int32_max < GZ (n - j) j ->
  binom_table exact fuel n p q i th = UB.
Proof.
  intros N. induction fuel as [|fuel IH]; intros i th j I F J B; [lia|]. cbn [binom_table].
  rewrite binomial_spec by lia. unfold chk. destruct (inr I32 (GZ (n - i) i)) eqn:R; [|reflexivity].
  cbn [bind]. rewrite (IH (i + 1) _ j); [reflexivity|lia|lia| |assumption].
  destruct (Z.eq_dec i j) as [-> |]; [|lia]. apply inr_iff in R. change (imax I32) with int32_max in R. lia.
Qed.
Lemma search_table n p u t : length t = S n -> (forall j d, (j < n)%nat -> (nth j t d == cdf (binomial_pmf n p) j)%Q) ->
  forall fuel i, (i + fuel = n)%nat -> (forall j, (j < i)%nat -> (cdf (binomial_pmf n p) j <= u)%Q) ->
  exists k, binom_search exact fuel t u (Z.of_nat i) = Ok (Z.of_nat k) /\ (k <= n)%nat /\ (forall j, (j < k)%nat -> (cdf (binomial_pmf n p) j <= u)%Q) /\
    ((k < n)%nat -> (u < cdf (binomial_pmf n p) k)%Q).
Proof.
  intros Lt Nt. induction fuel as [|fuel IH]; intros i L P; cbn [binom_search].
  - exists i. split; [reflexivity|]. split; [lia|]. split; [assumption|lia].
  - rewrite (aget_ok _ _ 0%Q) by lia. cbn [bind ltb exact]. rewrite Nat2Z.id.
    destruct (Qltb u (nth i t 0%Q)) eqn:C.
    + apply Qltb_spec in C. rewrite Nt in C by lia. exists i. split; [reflexivity|]. split; [lia|]. split; auto.
    + replace (Z.of_nat i + 1) with (Z.of_nat (S i)) by lia. apply IH; [lia|]. intros j J.
      destruct (Nat.eq_dec j i) as [-> |]; [|apply P; lia]. rewrite <- (Nt i 0%Q) by lia. apply Qnot_lt_le. intros H. apply Qltb_spec in H. congruence.
Qed.
