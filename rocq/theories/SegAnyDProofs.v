(** Segment trees of doubles and of integers. *)
From Coq Require Import Reals Lra Psatz Floats.SpecFloat.
From Flocq Require Import Core IEEE754.BinarySingleNaN Relative Plus_error.
From Verif Require Import Base Float FloatProofs StatProofs SegModel SegSpec SegProofs SegAnyModel SegAnySpec SegAnyProofs.
Local Open Scope R_scope.

(** ** order *)
Lemma below_lt x y : number x -> number y -> dltb x y = true <-> below x y.
Proof.
  intros [Vx Nx] [Vy Ny].
  assert (F : dfinite x = true -> dfinite y = true -> dltb x y = true <-> real x < real y).
  { intros Fx Fy. rewrite (dltb_spec x y Vx Vy Fx Fy). split; [intros H|intros H; now apply Rlt_bool_true].
    destruct (Rlt_bool_spec (real x) (real y)); [assumption|discriminate]. }
  destruct x as [sx|sx| |sx mx ex], y as [sy|sy| |sy my ey]; try (now elim Nx); try (now elim Ny);
    cbn [below]; try (apply F; reflexivity); try (destruct sx); try (destruct sy); vm_compute; intuition congruence.
Qed.
Lemma below_weak : forall x y z, number x -> number y -> number z ->
  (below x y -> below y z -> below x z) /\ (below x z -> below x y \/ below y z) /\ ~ below x x.
Proof.
  intros x y z [_ Nx] [_ Ny] [_ Nz].
  destruct x as [sx|sx| |sx mx ex], y as [sy|sy| |sy my ey], z as [sz|sz| |sz mz ez]; try (now elim Nx); try (now elim Ny); try (now elim Nz);
    cbn [below];
    repeat match goal with |- context [real ?a] => let n := fresh "t" in set (n := real a) in *; clearbody n end;
    repeat match goal with b : bool |- _ => destruct b end;
    (split; [|split]); try (intuition (congruence || lra)).
  all: intros; try (destruct (Rlt_dec t t1)); auto; try lra.
  all: try (match goal with H : ?a < ?b |- ?a < ?c \/ ?c < ?b => destruct (Rlt_dec a c); [left; assumption|right; lra] end).
Qed.
Lemma doubles_weak : weak_on doubles number.
Proof.
  repeat split; cbn [vlt doubles].
  - intros a Ha. destruct (dltb a a) eqn:E; [|reflexivity]. apply below_lt in E; auto. destruct (below_weak a a a Ha Ha Ha) as (_ & _ & K). contradiction.
  - intros a b c Ha Hb Hc H1 H2. apply below_lt; auto. apply below_lt in H1, H2; auto. destruct (below_weak a b c Ha Hb Hc) as (K & _). auto.
  - intros a b c Ha Hb Hc H. apply below_lt in H; auto. destruct (below_weak a b c Ha Hb Hc) as (_ & K & _).
    destruct (K H) as [?|?]; [left|right]; now apply below_lt.
Qed.
Lemma ordered_weak {T} (ty : ops T) f l r : ordered_on (vlt ty) f l r -> weak_on ty (fun x => exists i, (l <= i <= r)%Z /\ x = f i).
Proof.
  intros (A & B & C). repeat split.
  - intros a (i & Hi & ->). now apply A.
  - intros a b c (i & Hi & ->) (j & Hj & ->) (k & Hk & ->). now apply B.
  - intros a b c (i & Hi & ->) (j & Hj & ->) (k & Hk & ->). now apply C.
Qed.

(** ** sums *)
Lemma total_split g n m l : total (n + m) g l = total n g l + total m g (l + Z.of_nat n)%Z.
Proof.
  revert l. induction n as [|n IH]; intros l; cbn [total Nat.add]; [replace (l + Z.of_nat 0)%Z with l by lia; lra|].
  rewrite IH. replace (l + 1 + Z.of_nat n)%Z with (l + Z.of_nat (S n))%Z by lia. lra.
Qed.
Lemma over_one g l : over g l l = g l.
Proof. unfold over. replace (l - l + 1)%Z with 1%Z by lia. change (Z.to_nat 1) with 1%nat. cbn [total]. lra. Qed.
Lemma over_split g l m r : (l <= m < r)%Z -> over g l r = over g l m + over g (m + 1) r.
Proof.
  intros H. unfold over. replace (Z.to_nat (r - l + 1)) with (Z.to_nat (m - l + 1) + Z.to_nat (r - (m + 1) + 1))%nat by lia.
  rewrite total_split. replace (l + Z.of_nat (Z.to_nat (m - l + 1)))%Z with (m + 1)%Z by lia. reflexivity.
Qed.
Lemma total_nonneg g n l : (forall i, 0 <= g i) -> 0 <= total n g l.
Proof. intros H. revert l. induction n as [|n IH]; intros l; cbn [total]; [lra|]. pose proof (H l). pose proof (IH (l + 1)%Z). lra. Qed.

Lemma rnd_sum x y : dvalid x = true -> dvalid y = true -> Rabs (rnd (real x + real y) - (real x + real y)) <= u * Rabs (real x + real y).
Proof.
  intros Vx Vy. destruct (Rle_lt_dec (bpow radix2 (-1022)) (Rabs (real x + real y))) as [H|H]; [now apply rnd_rel|].
  assert (E : rnd (real x + real y) = real x + real y).
  { unfold rnd. apply round_generic; [typeclasses eauto|]. destruct (to_bf x Vx) as [a ->], (to_bf y Vy) as [b ->]. rewrite !real_bf in *.
    apply (FLT_format_plus_small radix2 (-1074) 53); [exact (generic_format_B2R 53 1024 a)|exact (generic_format_B2R 53 1024 b)|].
    apply Rlt_le. eapply Rlt_le_trans; [exact H|]. apply bpow_le. lia. }
  rewrite E. replace (real x + real y - (real x + real y)) with 0 by ring. rewrite Rabs_R0.
  apply Rmult_le_pos; [unfold u; apply bpow_ge_0|apply Rabs_pos].
Qed.
Lemma u_pos : 0 < u. Proof. apply bpow_gt_0. Qed.
Lemma growth h : (h <= 64)%nat -> 1 <= (1 + u) ^ h <= 1 + 2 * INR h * u.
Proof.
  pose proof u_pos as P. assert (Q : 128 * u <= 1).
  { rewrite u_val. change (2 ^ 53)%Z with (9007199254740992)%Z. lra. }
  induction h as [|h IH]; intros H; [cbn; lra|]. specialize (IH ltac:(lia)). rewrite S_INR. cbn [pow].
  assert (0 <= INR h <= 64) as [N1 N2]. { split; [apply pos_INR|]. replace 64 with (INR 64) by (cbn; lra). apply le_INR. lia. }
  set (g := (1 + u) ^ h) in *. clearbody g. set (n := INR h) in *. clearbody n. clear H. destruct IH as [I1 I2]. split; [nra|].
  apply Rle_trans with ((1 + u) * (1 + 2 * n * u)); [apply Rmult_le_compat_l; lra|].
  assert (2 * n * u <= 1) by nra. nra.
Qed.
Lemma growth2 h : (h <= 64)%nat -> 1 <= (1 + u) ^ h <= 2.
Proof.
  intros H. destruct (growth h H) as [A B]. split; [assumption|].
  assert (Q : 128 * u <= 1). { rewrite u_val. change (2 ^ 53)%Z with (9007199254740992)%Z. lra. }
  assert (0 <= INR h <= 64) as [N1 N2]. { split; [apply pos_INR|]. replace 64 with (INR 64) by (cbn; lra). apply le_INR. lia. }
  pose proof u_pos. nra.
Qed.
Lemma bracketed_sum f h l r x : (h <= 64)%nat -> (forall i, (l <= i <= r)%Z -> dvalid (f i) = true /\ dfinite (f i) = true) ->
  over (fun i => Rabs (real (f i))) l r <= bpow radix2 1022 -> bracketed dadd f h l r x ->
  dvalid x = true /\ dfinite x = true /\ Rabs (real x) <= (1 + u) ^ h * over (fun i => Rabs (real (f i))) l r /\
  Rabs (real x - over (fun i => real (f i)) l r) <= ((1 + u) ^ h - 1) * over (fun i => Rabs (real (f i))) l r.
Proof.
  intros Hh HF HS B. induction B as [h l|h l m r x y Hm A IHA B IHB].
  - destruct (HF l ltac:(lia)) as [V F]. rewrite !over_one in *. replace (real (f l) - real (f l)) with 0 by ring. rewrite Rabs_R0.
    pose proof (growth2 h Hh). pose proof (Rabs_pos (real (f l))). repeat split; try assumption; nra.
  - rewrite !(over_split _ l m r Hm) in *.
    set (P := over (fun i => Rabs (real (f i))) l m) in *. set (Q := over (fun i => Rabs (real (f i))) (m + 1) r) in *.
    assert (0 <= P) by (apply total_nonneg; intros; apply Rabs_pos). assert (0 <= Q) by (apply total_nonneg; intros; apply Rabs_pos).
    destruct IHA as (Vx & Fx & Bx & Ex); [lia|intros; apply HF; pose proof (bracketed_range _ _ _ _ _ _ B); lia|lra|].
    destruct IHB as (Vy & Fy & By & Ey); [lia|intros; apply HF; pose proof (bracketed_range _ _ _ _ _ _ A); lia|lra|].
    set (SA := over (fun i => real (f i)) l m) in *. set (SB := over (fun i => real (f i)) (m + 1) r) in *.
    assert (G : 1 <= (1 + u) ^ h <= 2) by (apply growth2; lia). pose proof u_pos as U.
    assert (T0 : Rabs (real x + real y) <= (1 + u) ^ h * (P + Q)). { eapply Rle_trans; [apply Rabs_triang|]. lra. }
    assert (T1 : Rabs (real x + real y) <= bpow radix2 1023).
    { eapply Rle_trans; [exact T0|]. change 1023%Z with (1022 + 1)%Z. rewrite bpow_plus. change (bpow radix2 1) with 2.
      set (W := bpow radix2 1022) in *. clearbody W P Q. set (g := (1 + u) ^ h) in *. clearbody g. clear - HS G H H0. nra. }
    destruct (dadd_ok x y 1023 Vx Vy Fx Fy ltac:(lia) T1) as (V & F & E). pose proof (rnd_sum x y Vx Vy) as R. rewrite <- E in R.
    split; [assumption|]. split; [assumption|]. cbn [pow]. set (g := (1 + u) ^ h) in *. set (z := real (dadd x y)) in *. set (a := real x) in *. set (b := real y) in *.
    clearbody g z a b P Q SA SB. set (t := a + b) in *. pose proof (Rabs_pos t) as Tp.
    assert (T2 : Rabs (z - t) <= u * (g * (P + Q))) by (eapply Rle_trans; [exact R|]; apply Rmult_le_compat_l; lra).
    split.
    + replace z with ((z - t) + t) by ring. eapply Rle_trans; [apply Rabs_triang|]. lra.
    + replace (z - (SA + SB)) with ((z - t) + ((a - SA) + (b - SB))) by (unfold t; ring).
      eapply Rle_trans; [apply Rabs_triang|]. eapply Rle_trans; [apply Rplus_le_compat_l; apply Rabs_triang|]. lra.
Qed.
Lemma height_small n : (0 < n <= 2 ^ 29)%Z -> (height n <= 29)%nat.
Proof. intros H. unfold height. assert (Z.log2_up n <= 29)%Z by (rewrite <- (Z.log2_up_pow2 29) by lia; apply Z.log2_up_le_mono; lia). lia. Qed.
