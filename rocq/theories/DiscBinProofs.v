(** BinomialDistribution in binary64. *)
From Coq Require Import Reals Lra Psatz Floats.SpecFloat List.
From Flocq Require Import Core.
From Verif Require Import Base Float FloatProofs StatProofs NumModel NumSpec NumProofs NumBinProofs RandModel RandSpec RandProofs RandCdfProofs RandDoubleProofs DistNumSpec DistAccProofs DiscSpec DiscProofs DiscLoopProofs DiscNegProofs.
Local Open Scope R_scope.

(** relative error plus a tiny absolute one *)
Definition close (c t x X : R) : Prop := Rabs (x - X) <= c * X + t.
Lemma close_mul c1 t1 x X c2 t2 y Y M : close c1 t1 x X -> close c2 t2 y Y -> 0 <= c1 <= / 1024 -> 0 <= c2 <= / 1024 -> 0 <= t1 <= 1 -> 0 <= t2 <= 1 ->
  0 <= X <= M -> 0 <= Y <= M -> 1 <= M -> close (c1 + c2 + c1 * c2) (2 * M * t1 + 3 * M * t2) (x * y) (X * Y).
Proof.
  unfold close. intros A B C1 C2 T1 T2 HX HY HM.
  replace (x * y - X * Y) with ((x - X) * (y - Y) + (x - X) * Y + X * (y - Y)) by ring.
  eapply Rle_trans; [apply Rabs_triang|]. eapply Rle_trans; [apply Rplus_le_compat_r, Rabs_triang|]. rewrite !Rabs_mult. rewrite (Rabs_pos_eq X), (Rabs_pos_eq Y) by lra.
  set (a := Rabs (x - X)) in *. set (b := Rabs (y - Y)) in *. assert (A0 : 0 <= a) by apply Rabs_pos. assert (B0 : 0 <= b) by apply Rabs_pos.
  assert (P1 : a * b <= (c1 * X + t1) * (c2 * Y + t2)) by (apply Rmult_le_compat; lra).
  assert (P2 : a * Y <= (c1 * X + t1) * Y) by (apply Rmult_le_compat_r; lra).
  assert (P3 : X * b <= X * (c2 * Y + t2)) by (apply Rmult_le_compat_l; lra).
  replace ((c1 * X + t1) * (c2 * Y + t2)) with (c1 * c2 * (X * Y) + c1 * X * t2 + t1 * (c2 * Y) + t1 * t2) in P1 by ring.
  assert (Q1 : c1 * X * t2 <= M * t2) by (apply Rmult_le_compat_r; [lra|]; nra).
  assert (Q2 : t1 * (c2 * Y) <= M * t1) by (rewrite (Rmult_comm M); apply Rmult_le_compat_l; [lra|]; nra).
  assert (Q3 : t1 * t2 <= M * t2) by (apply Rmult_le_compat_r; lra).
  assert (Q4 : t1 * Y <= M * t1) by (rewrite (Rmult_comm M); apply Rmult_le_compat_l; lra).
  assert (Q5 : X * t2 <= M * t2) by (apply Rmult_le_compat_r; lra).
  nra.
Qed.
Lemma close_rnd c t x X : close c t x X -> 0 <= c <= / 1024 -> 0 <= X -> 0 <= t -> close (c + 2 * u) (2 * t + eta) (rnd x) X.
Proof.
  unfold close. intros A C HX T. pose proof (rnd_err x) as E. fold eta in E. pose proof u_small as U. pose proof (Rabs_triang (x - X) X) as Z. replace (x - X + X) with x in Z by ring. rewrite (Rabs_pos_eq X) in Z by lra.
  replace (rnd x - X) with ((rnd x - x) + (x - X)) by ring. eapply Rle_trans; [apply Rabs_triang|].
  assert (u * Rabs x <= u * (c * X + t + X)) by (apply Rmult_le_compat_l; [lra|]; lra).
  assert (u * (c * X) <= u * X) by (apply Rmult_le_compat_l; [lra|]; nra). assert (u * t <= t) by nra. nra.
Qed.
Lemma close_le c t x X c' t' : close c t x X -> c <= c' -> t <= t' -> 0 <= X -> close c' t' x X.
Proof. unfold close. intros. assert (c * X <= c' * X) by (apply Rmult_le_compat_r; lra). lra. Qed.
Lemma close_pow q Q e m : 0 <= Q -> q = Q * (1 + e) -> Rabs e <= u -> (m <= 33)%nat -> close (2 * INR m * u) 0 (q ^ m) (Q ^ m).
Proof.
  intros HQ -> E. unfold close. destruct u_num as [U0 UN]. induction m as [|m IH]; intros M.
  - cbn [Rpow_def.pow INR]. replace (1 - 1) with 0 by ring. rewrite Rabs_R0. lra.
  - specialize (IH ltac:(lia)). cbn [Rpow_def.pow]. set (a := (Q * (1 + e)) ^ m) in *. set (b := Q ^ m) in *. assert (B : 0 <= b) by (apply pow_le; lra).
    rewrite S_INR. assert (MB : INR m <= 33) by (replace 33 with (INR 33) by (cbn; lra); apply le_INR; lia). pose proof (pos_INR m) as MP.
    replace (Q * (1 + e) * a - Q * b) with (Q * ((1 + e) * (a - b) + e * b)) by ring. rewrite Rabs_mult, (Rabs_pos_eq Q) by lra.
    replace (2 * (INR m + 1) * u * (Q * b) + 0) with (Q * (2 * (INR m + 1) * u * b)) by ring. apply Rmult_le_compat_l; [lra|].
    eapply Rle_trans; [apply Rabs_triang|]. rewrite !Rabs_mult, (Rabs_pos_eq b) by lra.
    assert (Rabs (1 + e) <= 1 + u) by (apply Rabs_le; apply Rabs_le_inv in E; lra).
    assert (Rabs (1 + e) * Rabs (a - b) <= (1 + u) * (2 * INR m * u * b)) by (apply Rmult_le_compat; try apply Rabs_pos; lra).
    assert (Rabs e * b <= u * b) by (apply Rmult_le_compat_r; lra).
    assert (UB : 0 <= u * b) by (apply Rmult_le_pos; lra). assert (u * (2 * INR m) <= 1) by nra.
    assert (u * (2 * INR m) * (u * b) <= 1 * (u * b)) by (apply Rmult_le_compat_r; lra). nra.
Qed.

(** the mass function *)
Lemma fac_fact n : IZR (fac n) = INR (fact n).
Proof. induction n as [|n IH]; [reflexivity|]. cbn [fac fact]. change (fact n + n * fact n)%nat with (S n * fact n)%nat. rewrite mult_IZR, mult_INR, IH, (INR_IZR_INZ (S n)). reflexivity. Qed.
Lemma G_choose n i : (i <= n)%nat -> IZR (G (n - i) i) = choose n i.
Proof.
  intros L. pose proof (Gfac (n - i) i) as H. replace (n - i + i)%nat with n in H by lia. apply (f_equal IZR) in H. rewrite !mult_IZR, !fac_fact in H.
  unfold choose. rewrite <- H. field. split; apply INR_fact_neq_0.
Qed.
Lemma binom_mass_nonneg n p k : 0 <= p <= 1 -> 0 <= binom_mass n p k.
Proof.
  intros P. unfold binom_mass, choose. apply Rmult_le_pos; [apply Rmult_le_pos|]; [|apply pow_le; lra|apply pow_le; lra].
  apply Rmult_le_pos; [apply pos_INR|]. left. apply Rinv_0_lt_compat, Rmult_lt_0_compat; apply INR_fact_lt_0.
Qed.
Lemma binom_total n p : upto (binom_mass n p) n = 1.
Proof.
  unfold upto. pose proof (Binomial.binomial p (1 - p) n) as H. replace (p + (1 - p)) with 1 in H by ring. rewrite pow1 in H. rewrite H. apply sum_eq. intros i I. reflexivity.
Qed.
Lemma upto_mono mass j k : (forall i, 0 <= mass i) -> (j <= k)%nat -> upto mass j <= upto mass k.
Proof. intros H L. induction L as [|k L IH]; [lra|]. unfold upto in *. cbn [sum_f_R0]. specialize (H (S k)). lra. Qed.

Section Binom.
Context (pow : double -> Z -> double) (n : nat) (p : double).
Hypothesis (PW : accurate_pow pow) (NB : (n <= 33)%nat) (NP : number p) (P01 : 0 <= real p <= 1).
Lemma pc_any : number (pc p) /\ 0 <= real (pc p) <= 1 /\ exists e, Rabs e <= u /\ real (pc p) = (1 - real p) * (1 + e).
Proof.
  pose proof u_small as U. destruct (Req_dec (real p) 0) as [E|E].
  - destruct NP as [V F]. unfold pc. destruct (dof_exact 1 ltac:(lia)) as (V1 & F1 & R1).
    destruct (dsub_ok (dof 1) p 0 V1 V F1 F ltac:(lia)) as (V2 & F2 & R2). { rewrite R1. change (bpow radix2 0) with 1. apply Rabs_le. lra. }
    rewrite R1, E in R2. replace (rnd (1 - 0)) with 1 in R2 by (rewrite Rminus_0_r; symmetry; apply (rnd_pow 0); lia). split; [now split|]. rewrite R2, E. split; [lra|]. exists 0. rewrite Rabs_R0. split; lra.
  - destruct (pc_spec p NP ltac:(lra)) as (N & B & C). split; [exact N|]. split; [exact B|]. destruct C as [[C1 C2]|[_ C]]; [|exact C].
    exists 0. rewrite Rabs_R0, C1, C2. split; lra.
Qed.
Definition term (i : nat) : double := dmul (dmul (dof (G (n - i) i)) (pow p (Z.of_nat i))) (pow (pc p) (Z.of_nat (n - i))).
Lemma tiny : 0 < eta /\ eta * 1267650600228229401496703205376 <= u / 128.
Proof.
  split; [apply eta_pos|]. change 1267650600228229401496703205376 with (bpow radix2 100). unfold eta, u. rewrite <- bpow_plus.
  replace (bpow radix2 (-53) / 128) with (bpow radix2 (-53) * bpow radix2 (-7)) by (change (bpow radix2 (-7)) with (/ 128); reflexivity). rewrite <- bpow_plus. apply bpow_le. lia.
Qed.
Lemma pow_le_one x k : 0 <= x <= 1 -> 0 <= x ^ k <= 1.
Proof. intros H. split; [apply pow_le; lra|]. rewrite <- (pow1 k). apply pow_incr. lra. Qed.
Lemma term_spec i : (i <= n)%nat -> number (term i) /\ close (76 * u) (u / 8) (real (term i)) (binom_mass n (real p) i).
Proof.
  intros L. destruct tiny as [T0 T1]. destruct u_num as [U0 UN]. destruct pc_any as (NQ & Q01 & e & E1 & E2).
  pose proof (binom_fits (Z.of_nat n) (Z.of_nat i) ltac:(lia) ltac:(lia)) as F. unfold GZ in F. rewrite <- Nat2Z.inj_sub, !Nat2Z.id in F by lia.
  assert (GP : (1 <= G (n - i) i)%Z) by apply G_pos. unfold term. set (b := G (n - i) i) in *. unfold int32_max in F.
  destruct (dof_exact b ltac:(lia)) as (Vb & Fb & Rb). assert (B1 : 1 <= real (dof b) <= 2147483648). { rewrite Rb. split; apply IZR_le; lia. }
  assert (BC : real (dof b) = choose n i) by (rewrite Rb; unfold b; now apply G_choose). clear Rb. set (B := dof b) in *. clearbody B.
  destruct (PW p (Z.of_nat i) NP P01 ltac:(lia)) as ([VA FA] & EA). destruct (PW (pc p) (Z.of_nat (n - i)) NQ Q01 ltac:(lia)) as ([VC FC] & EC).
  rewrite Nat2Z.id in EA, EC. set (A := pow p (Z.of_nat i)) in *. set (D := pow (pc p) (Z.of_nat (n - i))) in *. clearbody A D.
  pose proof (pow_le_one (real p) i P01) as PA. pose proof (pow_le_one (1 - real p) (n - i) ltac:(lra)) as PD. pose proof (pow_le_one (real (pc p)) (n - i) Q01) as PQ.
  pose proof (close_pow (real (pc p)) (1 - real p) e (n - i) ltac:(lra) E2 E1 ltac:(lia)) as CP.
  replace (bpow radix2 (-52)) with (2 * u) in EA, EC by (unfold u; change (-52)%Z with (-53 + 1)%Z; rewrite bpow_plus; change (bpow radix2 1) with 2; ring).
  replace (bpow radix2 (-1074)) with (2 * eta) in EA, EC by (unfold eta; change (-1074)%Z with (-1075 + 1)%Z; rewrite bpow_plus; change (bpow radix2 1) with 2; ring).
  assert (MI : INR (n - i) <= 33) by (replace 33 with (INR 33) by (cbn; lra); apply le_INR; lia). pose proof (pos_INR (n - i)) as MP.
  unfold binom_mass. rewrite <- BC.
  set (X := real p ^ i) in *. set (Q := real (pc p) ^ (n - i)) in *. set (Y := (1 - real p) ^ (n - i)) in *.
  apply (close_le _ _ _ _ (66 * u) 0) in CP; [|nra|lra|lra].
  assert (CD : close (69 * u) (2 * eta) (real D) Y).
  { unfold close in *. replace (real D - Y) with ((real D - Q) + (Q - Y)) by ring. eapply Rle_trans; [apply Rabs_triang|]. apply Rabs_le_inv in CP.
    assert (u * Q <= u * (Y + 66 * u * Y)) by (apply Rmult_le_compat_l; lra). assert (UY : 0 <= u * Y) by (apply Rmult_le_pos; lra). assert (132 * u * (u * Y) <= 1 * (u * Y)) by (apply Rmult_le_compat_r; lra).
    assert (Rabs (Q - Y) <= 66 * u * Y) by (apply Rabs_le; lra). nra. }
  assert (CA : close (2 * u) (2 * eta) (real A) X) by exact EA.
  assert (CB : close 0 0 (real B) (real B)) by (unfold close; replace (real B - real B) with 0 by ring; rewrite Rabs_R0; lra).
  assert (AA : -2 <= real A <= 2). { unfold close in CA. apply Rabs_le_inv in CA. assert (0 <= u * X <= u) by (split; [apply Rmult_le_pos; lra|nra]). split; lra. }
  assert (DD : -2 <= real D <= 2). { unfold close in CD. apply Rabs_le_inv in CD. assert (0 <= u * Y <= u) by (split; [apply Rmult_le_pos; lra|nra]). split; lra. }
  assert (A1 : Rabs (real A) <= 2) by (apply Rabs_le; lra). assert (D1 : Rabs (real D) <= 2) by (apply Rabs_le; lra).
  pose proof (close_mul _ _ _ _ _ _ _ _ 2147483648 CB CA ltac:(lra) ltac:(lra) ltac:(lra) ltac:(lra) ltac:(lra) ltac:(lra) ltac:(lra)) as CBA.
  destruct (dmul_ok B A 32 Vb VA Fb FA ltac:(lia)) as (V1 & F1 & R1). { rewrite Rabs_mult, (Rabs_pos_eq (real B)) by lra. change (bpow radix2 32) with 4294967296. pose proof (Rabs_pos (real A)). nra. }
  assert (XB : 0 <= real B * X <= 2147483648) by (split; nra).
  apply close_rnd in CBA; [|lra|lra|lra]. rewrite <- R1 in CBA.
  assert (W1 : Rabs (real (dmul B A)) <= 4294967296).
  { rewrite R1. change 4294967296 with (bpow radix2 32). apply rnd_bound; [lia|]. rewrite Rabs_mult, (Rabs_pos_eq (real B)) by lra. change (bpow radix2 32) with 4294967296. pose proof (Rabs_pos (real A)). nra. }
  set (C := dmul B A) in *. clearbody C.
  apply (close_le _ _ _ _ (4 * u) (eta * 34359738368)) in CBA; [|lra|lra|lra].
  destruct (dmul_ok C D 33 V1 VC F1 FC ltac:(lia)) as (V2 & F2 & R2). { rewrite Rabs_mult. replace (bpow radix2 33) with (4294967296 * 2) by (change (bpow radix2 33) with 8589934592; lra). apply Rmult_le_compat; try apply Rabs_pos; assumption. }
  split; [now split|]. rewrite R2.
  pose proof (close_mul _ _ _ _ _ _ _ _ 2147483648 CBA CD ltac:(lra) ltac:(lra) ltac:(lra) ltac:(lra) XB ltac:(lra) ltac:(lra)) as CC.
  apply (close_le _ _ _ _ (74 * u) (eta * 1267650600228229401496703205376)) in CC; [|nra|lra|apply Rmult_le_pos; lra].
  apply close_rnd in CC; [|lra|apply Rmult_le_pos; lra|lra]. apply (close_le _ _ _ _ _ _ CC); [lra|lra|apply Rmult_le_pos; lra].
Qed.
(** the table *)
Fixpoint Bd (i : nat) : double := match i with O => dadd (dof 0) (term 0) | S j => dadd (Bd j) (term i) end.
Let mass := binom_mass n (real p).
Lemma upto_le_one k : (k <= n)%nat -> 0 <= upto mass k <= 1.
Proof.
  intros K. assert (M : forall i, 0 <= mass i) by (intros i; now apply binom_mass_nonneg). split.
  - apply Rle_trans with (upto mass 0); [exact (M 0%nat)|]. apply upto_mono; [exact M|lia].
  - rewrite <- (binom_total n (real p)). now apply upto_mono.
Qed.
Lemma add_close s S0 t T0 k : number s -> number t -> close (76 * u) (2 * k * u) (real s) S0 -> close (76 * u) (u / 8) (real t) T0 -> 0 <= S0 -> 0 <= T0 -> S0 + T0 <= 1 -> 0 <= k <= 40 ->
  number (dadd s t) /\ close (76 * u) (2 * (k + 1) * u) (real (dadd s t)) (S0 + T0).
Proof.
  intros [Vs Fs] [Vt Ft] A B S1 T1 ST K. destruct tiny as [H0 H1]. destruct u_num as [U0 UN]. unfold close in *.
  pose proof (Rabs_triang (real s - S0) (real t - T0)) as Z. replace (real s - S0 + (real t - T0)) with (real s + real t - (S0 + T0)) in Z by ring.
  set (w := real s + real t) in *. set (W := S0 + T0) in *. assert (Z' : Rabs (w - W) <= 76 * u * W + (2 * k * u + u / 8)) by (unfold W in *; lra). clear Z A B.
  assert (W1 : 0 <= W <= 1) by (unfold W in *; lra). assert (UW : 0 <= u * W <= u) by (split; [apply Rmult_le_pos; lra|nra]). assert (UK : 0 <= u * k <= 40 * u) by (split; [apply Rmult_le_pos; lra|nra]).
  assert (WB : Rabs w <= 1 + 1 / 1024). { pose proof (Rabs_triang (w - W) W) as Q. replace (w - W + W) with w in Q by ring. rewrite (Rabs_pos_eq W) in Q by lra. lra. }
  destruct (dadd_ok s t 1 Vs Vt Fs Ft ltac:(lia)) as (V & F & R). { fold w. change (bpow radix2 1) with 2. lra. }
  split; [now split|]. rewrite R. fold w. pose proof (rnd_err w) as E. fold eta in E. replace (rnd w - W) with ((rnd w - w) + (w - W)) by ring. eapply Rle_trans; [apply Rabs_triang|].
  assert (u * Rabs w <= u * (1 + 1 / 1024)) by (apply Rmult_le_compat_l; lra). nra.
Qed.
Lemma Bd_spec k : (k <= n)%nat -> number (Bd k) /\ close (76 * u) (2 * (INR k + 1) * u) (real (Bd k)) (upto mass k).
Proof.
  assert (M : forall i, 0 <= mass i) by (intros i; now apply binom_mass_nonneg). destruct u_num as [U0 _].
  induction k as [|k IH]; intros K.
  - destruct (term_spec 0 K) as [N C]. destruct (dof_exact 0 ltac:(lia)) as (V & F & R). pose proof (upto_le_one 0 K) as B. cbn [Bd INR]. unfold upto in *. cbn [sum_f_R0] in *.
    replace (mass 0%nat) with (0 + mass 0%nat) by ring. apply add_close; try assumption; try lra; [now split|].
    unfold close. rewrite R. replace (0 - 0) with 0 by ring. rewrite Rabs_R0. lra.
  - destruct (IH ltac:(lia)) as [N C]. destruct (term_spec (S k) K) as [N' C']. pose proof (upto_le_one (S k) K) as B. pose proof (upto_le_one k ltac:(lia)) as B'. cbn [Bd]. rewrite S_INR.
    change (upto mass (S k)) with (upto mass k + mass (S k)) in *. apply add_close; try assumption; try lra; [apply M|].
    pose proof (pos_INR k). assert (INR k <= 33) by (replace 33 with (INR 33) by (cbn; lra); apply le_INR; lia). lra.
Qed.
Lemma Bd_near k : (k <= n)%nat -> number (Bd k) /\ Rabs (real (Bd k) - upto mass k) <= bpow radix2 (-45).
Proof.
  intros K. destruct (Bd_spec k K) as [N C]. split; [exact N|]. unfold close in C. pose proof (upto_le_one k K) as B. destruct u_num as [U0 UN].
  assert (INR k <= 33) by (replace 33 with (INR 33) by (cbn; lra); apply le_INR; lia).
  replace (bpow radix2 (-45)) with (256 * u) by (unfold u; change 256 with (bpow radix2 8); rewrite <- bpow_plus; reflexivity). nra.
Qed.
Lemma Bd_table : forall fuel i th, (i + fuel = n)%nat -> (match i with O => th = dof 0 | S j => th = Bd j end) ->
  exists t, binom_table (binary64 pow) fuel (Z.of_nat n) p (pc p) (Z.of_nat i) th = Ok t /\ length t = S fuel /\ forall j d, (j < fuel)%nat -> nth j t d = Bd (i + j).
Proof.
  induction fuel as [|fuel IH]; intros i th L T; cbn [binom_table].
  - eexists. split; [reflexivity|]. split; [reflexivity|]. intros. lia.
  - rewrite binomial_spec by (unfold int32_max; lia). unfold chk.
    pose proof (binom_fits (Z.of_nat n) (Z.of_nat i) ltac:(lia) ltac:(lia)) as F.
    assert (R : inr I32 (GZ (Z.of_nat n - Z.of_nat i) (Z.of_nat i)) = true).
    { apply inr_iff. assert (1 <= GZ (Z.of_nat n - Z.of_nat i) (Z.of_nat i))%Z by apply G_pos. change (imax I32) with int32_max. change (imin I32) with int32_min. unfold int32_min. lia. }
    rewrite R. cbn [bind add mul of_int RandModel.pow binary64]. unfold GZ. rewrite <- Nat2Z.inj_sub by lia. rewrite !Nat2Z.id. fold (term i).
    set (th' := dadd th (term i)). assert (T' : th' = Bd i) by (unfold th'; destruct i; rewrite T; reflexivity).
    clearbody th'. replace (Z.of_nat i + 1)%Z with (Z.of_nat (S i)) by lia.
    destruct (IH (S i) th') as (t & -> & Lt & Nt); [lia|assumption|]. exists (th' :: t). split; [reflexivity|]. split; [cbn [length]; lia|].
    intros [|j] d J; cbn [nth]; [rewrite Nat.add_0_r; assumption|]. rewrite Nt by lia. now replace (S i + j)%nat with (i + S j)%nat by lia.
Qed.
Lemma Bd_search v t : number v -> length t = S n -> (forall j d, (j < n)%nat -> nth j t d = Bd j) ->
  forall fuel i, (i + fuel = n)%nat -> (forall j, (j < i)%nat -> dltb v (Bd j) = false) ->
  exists k, binom_search (binary64 pow) fuel t v (Z.of_nat i) = Ok (Z.of_nat k) /\ (k <= n)%nat /\ (forall j, (j < k)%nat -> dltb v (Bd j) = false) /\ ((k < n)%nat -> dltb v (Bd k) = true).
Proof.
  intros NV Lt Nt. induction fuel as [|fuel IH]; intros i L P; cbn [binom_search].
  - exists i. split; [reflexivity|]. split; [lia|]. split; [assumption|lia].
  - rewrite (aget_ok _ _ dzero) by lia. cbn [bind RandModel.ltb binary64]. rewrite Nat2Z.id. rewrite Nt by lia.
    destruct (dltb v (Bd i)) eqn:C.
    + exists i. split; [reflexivity|]. split; [lia|]. split; auto.
    + replace (Z.of_nat i + 1)%Z with (Z.of_nat (S i)) by lia. apply IH; [lia|]. intros j J.
      destruct (Nat.eq_dec j i) as [-> |]; [exact C|apply P; lia].
Qed.
Lemma binomial_near v : number v -> real v < 1 -> exists d k, binomial_init (binary64 pow) (Z.of_nat n) p = Ok d /\ binomial_next (binary64 pow) d v = Ok (Z.of_nat k) /\ (k <= n)%nat /\ near_inverse mass (bpow radix2 (-45)) (real v) k.
Proof.
  intros NV V1. destruct NP as [Vp Fp]. destruct (dof_exact 0 ltac:(lia)) as (V0 & F0 & R0). destruct (dof_exact 1 ltac:(lia)) as (V1' & F1 & R1).
  unfold binomial_init. cbn [RandModel.ltb of_int sub binary64]. rewrite !dltb_spec by assumption. rewrite R0, R1.
  rewrite (Rlt_bool_false (real p) 0), (Rlt_bool_false 1 (real p)) by lra. destruct (Z.ltb_spec (Z.of_nat n) 0) as [X|_]; [lia|]. cbn [orb].
  unfold chk32. replace (in_int32 (Z.of_nat n + 1)) with true by (symmetry; unfold in_int32, int32_min, int32_max; lia). cbn [bind].
  rewrite Nat2Z.id. fold (pc p). destruct (Bd_table n 0 (dof 0) eq_refl eq_refl) as (t & BT & Lt & Nt). change (Z.of_nat 0) with 0%Z in BT. rewrite BT. cbn [bind].
  destruct (Bd_search v t NV Lt Nt n 0 eq_refl ltac:(lia)) as (k & S1 & S2 & S3 & S4).
  eexists _, k. split; [reflexivity|]. split; [unfold binomial_next; cbn [fst snd]; rewrite Nat2Z.id; exact S1|]. split; [exact S2|]. pose proof (bpow_gt_0 radix2 (-45)) as EP. destruct NV as [Vv Fv]. split.
  - destruct (Nat.eq_dec k n) as [->|K]; [unfold mass; rewrite binom_total; lra|]. specialize (S4 ltac:(lia)). destruct (Bd_near k S2) as ([V F] & B). rewrite dltb_spec in S4 by assumption.
    destruct (Rlt_bool_spec (real v) (real (Bd k))) as [L|]; [|discriminate]. apply Rabs_le_inv in B. lra.
  - intros j J. specialize (S3 j J). destruct (Bd_near j ltac:(lia)) as ([V F] & B). rewrite dltb_spec in S3 by assumption.
    destruct (Rlt_bool_spec (real v) (real (Bd j))) as [|L]; [discriminate|]. apply Rabs_le_inv in B. lra.
Qed.
End Binom.
