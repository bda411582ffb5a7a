(** Compound assignment, [++], [--] and the forms taking an int64. *)
From Verif Require Import Base DecModel BigModel BigSpec BigProofs BigOpProofs BigThmProofs.
Local Open Scope Z_scope.

Lemma plus_val_mixed cap a b x y f :
  denotes cap a x -> denotes cap b y -> clean a -> clean b -> (x < 0 <-> ~ y < 0) -> 0 <= x + y ->
  exists v, plus_val (S f) cap a b = Ok v /\ denotes cap v (x + y).
Proof.
  intros Ha Hb Ca Cb Hs H1.
  destruct (denotes_mag _ _ _ Ha) as (xs & Mx & Ex & Sx & Nx).
  destruct (denotes_mag _ _ _ Hb) as (ys & My & Ey & Sy & Ny).
  unfold plus_val. rewrite Sx, Sy.
  destruct (Z.ltb_spec x 0), (Z.ltb_spec y 0); try (exfalso; lia).
  - change (-1 =? 1) with false. change (-1 <? 0) with true. cbv iota.
    destruct (sub_ge f cap b a ys xs My Mx Ca Sy ltac:(lia)) as (r & ds & E & M & S & C & V).
    rewrite E. exists r. split; [reflexivity|]. apply (mag_denotes cap r ds); [assumption|lia|].
    destruct (Z.ltb_spec (x + y) 0); [lia|congruence].
  - change (1 =? -1) with false. change (1 <? 0) with false. cbv iota.
    destruct (sub_ge f cap a b xs ys Mx My Cb Sx ltac:(lia)) as (r & ds & E & M & S & C & V).
    rewrite E. exists r. split; [reflexivity|]. apply (mag_denotes cap r ds); [assumption|lia|].
    destruct (Z.ltb_spec (x + y) 0); [lia|congruence].
Qed.
Lemma denotes_length cap a x : denotes cap a x -> length (el a) = cap.
Proof. intros [(ds & tl & _ & L & _) _]. exact L. Qed.
Lemma plus_assign_mixed cap a b x y f :
  denotes cap a x -> denotes cap b y -> clean a -> clean b -> (x < 0 <-> ~ y < 0) -> 0 <= x + y ->
  exists r, plus_assign (S f) cap a b = Ok r /\ denotes cap r (x + y).
Proof.
  intros Ha Hb Ca Cb Hs H1. destruct (plus_val_mixed cap a b x y f Ha Hb Ca Cb Hs H1) as (v & E & D).
  unfold plus_assign. rewrite E. cbn [bind].
  destruct (assign_value cap a v (x + y) (denotes_length _ _ _ Ha) D) as (r & E' & D' & _). eauto.
Qed.
Lemma minus_assign_diff cap a b x y f :
  denotes cap a x -> denotes cap b y -> clean a -> clean b -> Z.max (len a) (len b) < Z.of_nat cap ->
  (x < 0 <-> ~ y < 0) ->
  exists r, minus_assign f cap a b = Ok r /\ denotes cap r (x - y).
Proof.
  intros Ha Hb Ca Cb Hc Hs.
  destruct (add_value cap a b x y Ha Hb Ca Cb Hc) as (v & ds & E & Mr & Sr & Cr & L1 & V).
  assert (Ep : minus_val f cap a b = Ok v).
  { unfold minus_val. rewrite E. destruct Ha as [Ma Sa], Hb as [Mb Sb].
    replace (sgn a =? sgn b) with false; [reflexivity|].
    rewrite Sa, Sb. destruct (Z.ltb_spec x 0), (Z.ltb_spec y 0); try reflexivity; tauto || lia. }
  assert (D : denotes cap v (x - y)).
  { apply (mag_denotes cap v ds); [assumption|lia|]. destruct Ha as [_ Sa]. rewrite Sr, Sa.
    destruct (Z.ltb_spec x 0), (Z.ltb_spec (x - y) 0); try reflexivity; lia. }
  unfold minus_assign. rewrite Ep. cbn [bind].
  destruct (assign_value cap a v (x - y) (denotes_length _ _ _ Ha) D) as (r & E' & D' & _). eauto.
Qed.
Lemma int_len cap n k : in_int64 n = true -> n <> int64_min -> Z.abs n < 10 ^ Z.of_nat k -> (k <= cap)%nat ->
  exists b, of_int64 cap n = Ok b /\ denotes cap b n /\ clean b /\ len b <= Z.of_nat k.
Proof.
  intros H1 H2 H3 Hk.
  assert (10 ^ Z.of_nat k <= 10 ^ Z.of_nat cap) by (apply Z.pow_le_mono_r; lia).
  destruct (of_int64_spec cap n H1 H2 ltac:(lia)) as (b & E & D & C). exists b. repeat split; try assumption; try apply D.
  destruct (denotes_mag _ _ _ D) as (ds & M & Ed & S & N). rewrite N. apply (mag_len_lt cap b ds); [assumption|lia|lia].
Qed.
Lemma one_int cap : (1 <= cap)%nat -> exists b, of_int64 cap 1 = Ok b /\ denotes cap b 1 /\ clean b /\ len b <= 1.
Proof. intros H. apply (int_len cap 1 1); [reflexivity|unfold int64_min; lia|reflexivity|assumption]. Qed.

Lemma incr_value cap a x f : denotes cap a x -> clean a -> len a < Z.of_nat cap -> (2 <= cap)%nat -> -1 <= x ->
  exists r, incr (S f) cap a = Ok r /\ denotes cap r (x + 1).
Proof.
  intros Ha Ca Hl Hc Hx. destruct (one_int cap ltac:(lia)) as (b & E & D & C & L). unfold incr. rewrite E. cbn [bind].
  destruct (Z.eq_dec x (-1)) as [->|].
  - apply plus_assign_mixed; try assumption; lia.
  - destruct (plus_same cap a b x 1 (S f) Ha D Ca C ltac:(lia) ltac:(lia)) as [_ (r & E1 & D1 & _)]. eauto.
Qed.
Lemma incr_diverges cap a x f : denotes cap a x -> clean a -> (1 <= cap)%nat -> x < -1 -> incr f cap a = Fuel.
Proof.
  intros Ha Ca Hc Hx. destruct (one_int cap Hc) as (b & E & D & C & L). unfold incr. rewrite E. cbn [bind].
  destruct (plus_mixed cap a b x 1 0 Ha D Ca C ltac:(lia)) as [_ H]. apply H. lia.
Qed.
Lemma decr_value cap a x f : denotes cap a x -> clean a -> len a < Z.of_nat cap -> (2 <= cap)%nat ->
  exists r, decr (S (S f)) cap a = Ok r /\ denotes cap r (x - 1).
Proof.
  intros Ha Ca Hl Hc. destruct (one_int cap ltac:(lia)) as (b & E & D & C & L). unfold decr. rewrite E. cbn [bind].
  destruct (Z.ltb_spec x 0).
  - apply minus_assign_diff; try assumption; lia.
  - destruct (minus_nonneg cap a b x 1 f Ha D Ca C ltac:(lia) ltac:(lia)) as (v & r & Ev & Er & Dr & Cr & Dv).
    unfold minus_assign. rewrite Ev. cbn [bind].
    destruct (assign_value cap a v (x - 1) (denotes_length _ _ _ Ha) Dv) as (r' & E' & D' & _). eauto.
Qed.
Lemma times_int_value cap a x n k : denotes cap a x -> in_int64 n = true -> n <> int64_min ->
  90 * Z.of_nat cap <= 900000000 -> Z.abs n < 10 ^ Z.of_nat k -> len a + Z.of_nat k <= Z.of_nat cap -> 0 <= len a ->
  (exists r, times_int cap a n = Ok r /\ denotes cap r (x * Z.abs n) /\ clean r) /\
  (exists r, times_assign_int cap a n = Ok r /\ denotes cap r (x * Z.abs n)).
Proof.
  intros Ha H1 H2 H3 H4 H5 H6. destruct (int_len cap n k H1 H2 H4 ltac:(lia)) as (b & E & D & C & L).
  destruct (times_value cap a b x n Ha D H3 ltac:(lia)) as (v & Ev & Dv & Cv). unfold times in Ev.
  unfold times_int, times_assign_int. rewrite E. cbn [bind]. rewrite Ev. cbn [bind]. split.
  - destruct (denotes_mag _ _ _ Dv) as (ds & M & Ed & S & N).
    destruct (assign_mk0 cap v ds M) as (r' & E' & M' & S' & C'). exists r'. split; [assumption|]. split; [|assumption].
    apply (mag_denotes cap r' ds); [assumption|lia|congruence].
  - destruct (assign_value cap a v _ (denotes_length _ _ _ Ha) Dv) as (r & E' & D' & _). eauto.
Qed.
