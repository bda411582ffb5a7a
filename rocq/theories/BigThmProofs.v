(** Operators of BigNum against the integers. *)
From Verif Require Import Base DecModel DecProofs BigModel BigSpec BigProofs BigOpProofs.
Local Open Scope Z_scope.

Lemma denotes_mag cap b z : denotes cap b z ->
  exists ds, mag cap b ds /\ Z.abs z = dval ds /\ sgn b = (if z <? 0 then -1 else 1) /\ len b = Z.of_nat (length ds).
Proof.
  intros [Hm Hs]. destruct (magnitude_mag _ _ _ Hm) as (ds & Hd & E). exists ds.
  split; [assumption|]. split; [assumption|]. split; [assumption|]. now destruct Hd as (_ & _ & N & _).
Qed.
Lemma mag_denotes cap b ds z : mag cap b ds -> Z.abs z = dval ds -> sgn b = (if z <? 0 then -1 else 1) -> denotes cap b z.
Proof. intros H E S. split; [|assumption]. rewrite E. now apply mag_magnitude. Qed.
Lemma mag_len cap b ds : mag cap b ds -> len b = Z.of_nat (length ds) /\ length (el b) = cap.
Proof. intros (_ & H & N & _). auto. Qed.

(** equal signs added / different signs subtracted: [add] *)
Lemma add_value cap a b x y :
  denotes cap a x -> denotes cap b y -> clean a -> clean b -> Z.max (len a) (len b) < Z.of_nat cap ->
  exists r ds, add cap a b = Ok r /\ mag cap r ds /\ sgn r = sgn a /\ clean r /\ len a <= len r /\
    dval ds = Z.abs x + Z.abs y.
Proof.
  intros Ha Hb Ca Cb Hc.
  destruct (denotes_mag _ _ _ Ha) as (xs & Mx & Ex & Sx & Nx).
  destruct (denotes_mag _ _ _ Hb) as (ys & My & Ey & Sy & Ny).
  destruct (add_clean cap a b xs ys Mx My Ca Cb ltac:(lia)) as (r & ds & E & Mr & Sr & Cr & L1 & L2 & V).
  exists r, ds. rewrite Ex, Ey. auto 10.
Qed.
Lemma plus_same cap a b x y f :
  denotes cap a x -> denotes cap b y -> clean a -> clean b -> Z.max (len a) (len b) < Z.of_nat cap ->
  (x < 0 <-> y < 0) ->
  (exists r, plus f cap a b = Ok r /\ denotes cap r (x + y) /\ clean r) /\
  (exists r, plus_assign f cap a b = Ok r /\ denotes cap r (x + y) /\ clean r).
Proof.
  intros Ha Hb Ca Cb Hc Hs.
  destruct (add_value cap a b x y Ha Hb Ca Cb Hc) as (r & ds & E & Mr & Sr & Cr & L1 & V).
  destruct Ha as [Ma Sa], Hb as [Mb Sb].
  assert (Ep : plus_val f cap a b = Ok r).
  { unfold plus_val. rewrite E. replace (sgn a =? sgn b) with true; [reflexivity|].
    rewrite Sa, Sb. destruct (Z.ltb_spec x 0), (Z.ltb_spec y 0); try reflexivity; tauto || lia. }
  assert (Sr' : sgn r = if x + y <? 0 then -1 else 1).
  { rewrite Sr, Sa. destruct (Z.ltb_spec x 0), (Z.ltb_spec (x + y) 0); try reflexivity; lia. }
  unfold plus, plus_assign. rewrite Ep. cbn [bind]. split.
  - destruct (assign_mk0 cap r ds Mr) as (r' & E' & M' & S' & C'). exists r'.
    split; [assumption|]. split; [|assumption]. apply (mag_denotes cap r' ds); [assumption| |congruence].
    rewrite V. lia.
  - destruct (magnitude_mag _ _ _ Ma) as (xs & Mx & Ex). destruct (mag_len _ _ _ Mx) as [Nx Lx].
    destruct (assign_mag cap a r ds Lx Mr) as (r' & E' & M' & S' & Hcell & _). exists r'.
    split; [assumption|]. split.
    + apply (mag_denotes cap r' ds); [assumption| |congruence]. rewrite V. lia.
    + destruct (mag_len _ _ _ M') as [N' L']. destruct (mag_len _ _ _ Mr) as [Nr Lr].
      intros i Hi. rewrite Hcell by lia. apply Ca. lia.
Qed.
Lemma minus_diff cap a b x y f :
  denotes cap a x -> denotes cap b y -> clean a -> clean b -> Z.max (len a) (len b) < Z.of_nat cap ->
  (x < 0 <-> ~ y < 0) ->
  exists r, minus f cap a b = Ok r /\ denotes cap r (x - y) /\ clean r.
Proof.
  intros Ha Hb Ca Cb Hc Hs.
  destruct (add_value cap a b x y Ha Hb Ca Cb Hc) as (r & ds & E & Mr & Sr & Cr & L1 & V).
  destruct Ha as [Ma Sa], Hb as [Mb Sb].
  assert (Ep : minus_val f cap a b = Ok r).
  { unfold minus_val. rewrite E. replace (sgn a =? sgn b) with false; [reflexivity|].
    rewrite Sa, Sb. destruct (Z.ltb_spec x 0), (Z.ltb_spec y 0); try reflexivity; tauto || lia. }
  unfold minus. rewrite Ep. cbn [bind].
  destruct (assign_mk0 cap r ds Mr) as (r' & E' & M' & S' & C'). exists r'.
  split; [assumption|]. split; [|assumption]. apply (mag_denotes cap r' ds); [assumption|lia|].
  rewrite S', Sr, Sa. destruct (Z.ltb_spec x 0), (Z.ltb_spec (x - y) 0); try reflexivity; lia.
Qed.
Lemma minus_nonneg cap a b x y f :
  denotes cap a x -> denotes cap b y -> clean a -> clean b -> 0 <= x -> 0 <= y ->
  exists v r, minus_val (S (S f)) cap a b = Ok v /\ minus (S (S f)) cap a b = Ok r /\ denotes cap r (x - y) /\ clean r /\
    denotes cap v (x - y).
Proof.
  intros Ha Hb Ca Cb Hx Hy.
  destruct (denotes_mag _ _ _ Ha) as (xs & Mx & Ex & Sx & Nx).
  destruct (denotes_mag _ _ _ Hb) as (ys & My & Ey & Sy & Ny).
  destruct (Z.ltb_spec x 0); [lia|]. destruct (Z.ltb_spec y 0); [lia|].
  assert (Ev : exists r ds, sub (S (S f)) cap a b = Ok r /\ mag cap r ds /\
               sgn r = (if x - y <? 0 then -1 else 1) /\ dval ds = Z.abs (x - y)).
  { destruct (Z.ltb_spec (x - y) 0).
    - destruct (sub_lt f cap a b xs ys Mx My Ca Sx Sy ltac:(lia)) as (r & ds & E & M & S & C & V).
      exists r, ds. split; [assumption|]. split; [assumption|]. split; [assumption|lia].
    - destruct (sub_ge (S f) cap a b xs ys Mx My Cb Sx ltac:(lia)) as (r & ds & E & M & S & C & V).
      exists r, ds. split; [assumption|]. split; [assumption|]. split; [assumption|lia]. }
  destruct Ev as (r & ds & E & M & S & V).
  unfold minus, minus_val. rewrite Sx, Sy. change (1 =? 1) with true. change (1 <? 0) with false. cbv iota. rewrite E. cbn [bind].
  destruct (assign_mk0 cap r ds M) as (r' & E' & M' & S' & C'). exists r, r'.
  split; [reflexivity|]. split; [assumption|]. split; [|split; [assumption|]].
  - apply (mag_denotes cap r' ds); [assumption|lia|congruence].
  - apply (mag_denotes cap r ds); [assumption|lia|congruence].
Qed.

(** mixed signs *)
Lemma plus_mixed cap a b x y f :
  denotes cap a x -> denotes cap b y -> clean a -> clean b -> (x < 0 <-> ~ y < 0) ->
  (0 <= x + y ->
     (exists r, plus (S f) cap a b = Ok r /\ denotes cap r (x + y) /\ clean r)) /\
  (x + y < 0 -> forall g, plus g cap a b = Fuel /\ plus_assign g cap a b = Fuel).
Proof.
  intros Ha Hb Ca Cb Hs.
  destruct (denotes_mag _ _ _ Ha) as (xs & Mx & Ex & Sx & Nx).
  destruct (denotes_mag _ _ _ Hb) as (ys & My & Ey & Sy & Ny).
  unfold plus, plus_assign, plus_val. rewrite Sx, Sy.
  destruct (Z.ltb_spec x 0), (Z.ltb_spec y 0); try (exfalso; lia).
  - change (-1 =? 1) with false. change (-1 <? 0) with true. cbv iota. split.
    + intros H1. destruct (sub_ge f cap b a ys xs My Mx Ca Sy ltac:(lia)) as (r & ds & E & M & S & C & V).
      rewrite E. cbn [bind]. destruct (assign_mk0 cap r ds M) as (r' & E' & M' & S' & C'). exists r'.
      split; [assumption|]. split; [|assumption]. apply (mag_denotes cap r' ds); [assumption|lia|].
      destruct (Z.ltb_spec (x + y) 0); [lia|congruence].
    + intros H1 g. destruct (sub_diverges g cap b a ys xs My Mx Sy Sx ltac:(lia)) as [E _]. rewrite E. auto.
  - change (1 =? -1) with false. change (1 <? 0) with false. cbv iota. split.
    + intros H1. destruct (sub_ge f cap a b xs ys Mx My Cb Sx ltac:(lia)) as (r & ds & E & M & S & C & V).
      rewrite E. cbn [bind]. destruct (assign_mk0 cap r ds M) as (r' & E' & M' & S' & C'). exists r'.
      split; [assumption|]. split; [|assumption]. apply (mag_denotes cap r' ds); [assumption|lia|].
      destruct (Z.ltb_spec (x + y) 0); [lia|congruence].
    + intros H1 g. destruct (sub_diverges g cap a b xs ys Mx My Sx Sy ltac:(lia)) as [E _]. rewrite E. auto.
Qed.
Lemma minus_negative cap a b x y f :
  denotes cap a x -> denotes cap b y -> x < 0 -> y < 0 -> Z.min (len a) (len b) < Z.of_nat cap ->
  exists r, minus (S (S f)) cap a b = Ok r /\
    (x = y -> denotes cap r 0) /\
    (x < y -> sgn r = 1 /\ magnitude cap r ((x - y) mod 10 ^ len b)) /\
    (y < x -> sgn r = -1 /\ magnitude cap r ((y - x) mod 10 ^ len a)) /\
    (x <> y -> ~ denotes cap r (x - y)).
Proof.
  intros Ha Hb Hx Hy Hroom.
  destruct (denotes_mag _ _ _ Ha) as (xs & Mx & Ex & Sx & Nx).
  destruct (denotes_mag _ _ _ Hb) as (ys & My & Ey & Sy & Ny).
  unfold minus, minus_val. rewrite Sx, Sy. destruct (Z.ltb_spec x 0); [|lia]. destruct (Z.ltb_spec y 0); [|lia].
  change (-1 =? -1) with true. change (-1 <? 0) with true. cbv iota.
  assert (Hwrong : forall (r : big) z, (0 < z -> sgn r = -1) -> (z < 0 -> sgn r = 1) -> z <> 0 -> ~ denotes cap r z).
  { intros r z H1 H2 H3 [_ H4]. destruct (Z.ltb_spec z 0); [rewrite H2 in H4 by lia|rewrite H1 in H4 by lia]; lia. }
  destruct (Z.lt_trichotomy x y) as [Hlt|[Heq|Hgt]].
  - assert (Hl : (length ys < cap)%nat).
    { assert (length ys <= length xs)%nat; [|lia].
      destruct (Nat.le_gt_cases (length ys) (length xs)); [assumption|].
      destruct Mx as (_ & _ & _ & Dx & Cx), My as (_ & _ & _ & Dy & Cy). pose proof (len_lt_val xs ys Dx Dy Cy H1). lia. }
    destruct (sub_neg_lt (S f) cap b a ys xs My Mx Sy ltac:(lia) Hl) as (r & ds & E & M & S & V).
    rewrite E. cbn [bind]. destruct (assign_mk0 cap r ds M) as (r' & E' & M' & S' & C'). exists r'.
    split; [assumption|]. split; [lia|]. split; [|split; [lia|]].
    + intros _. split; [congruence|]. pose proof (mag_magnitude _ _ _ M') as H1. rewrite V in H1.
      rewrite <- Ny in H1. replace (dval ys - dval xs) with (x - y) in H1 by lia. assumption.
    + intros _. apply Hwrong; [lia|intros; congruence|lia].
  - subst y. assert (Ev : dval xs = dval ys) by lia.
    destruct (sub_neg_eq (S f) cap b a ys xs My Mx Ev) as (r & E & M & S & C).
    rewrite E. cbn [bind]. destruct (assign_mk0 cap r [] M) as (r' & E' & M' & S' & C'). exists r'.
    split; [assumption|]. split; [|split; [lia|split; lia]].
    intros _. apply (mag_denotes cap r' []); [assumption|reflexivity|]. rewrite S', S. reflexivity.
  - assert (Hl : (length xs < cap)%nat).
    { assert (length xs <= length ys)%nat; [|lia].
      destruct (Nat.le_gt_cases (length xs) (length ys)); [assumption|].
      destruct Mx as (_ & _ & _ & Dx & Cx), My as (_ & _ & _ & Dy & Cy). pose proof (len_lt_val ys xs Dy Dx Cx H1). lia. }
    destruct (sub_neg_gt f cap b a ys xs My Mx Sy Sx ltac:(lia) Hl) as (r & ds & E & M & S & V).
    rewrite E. cbn [bind]. destruct (assign_mk0 cap r ds M) as (r' & E' & M' & S' & C'). exists r'.
    split; [assumption|]. split; [lia|]. split; [lia|]. split.
    + intros _. split; [congruence|]. pose proof (mag_magnitude _ _ _ M') as H1. rewrite V in H1.
      rewrite <- Nx in H1. replace (dval xs - dval ys) with (y - x) in H1 by lia. assumption.
    + intros _. apply Hwrong; [intros; congruence|lia|lia].
Qed.

(** multiplication *)
Lemma times_value cap a b x y :
  denotes cap a x -> denotes cap b y -> 90 * Z.of_nat cap <= 900000000 ->
  len a + len b <= Z.of_nat cap ->
  exists r, times cap a b = Ok r /\ denotes cap r (x * Z.abs y) /\ clean r.
Proof.
  intros Ha Hb Hbig Hc.
  destruct (denotes_mag _ _ _ Ha) as (xs & Mx & Ex & Sx & Nx).
  destruct (denotes_mag _ _ _ Hb) as (ys & My & Ey & Sy & Ny). unfold times.
  assert (Hz : x * Z.abs y = 0 -> len a = 0 \/ len b = 0 -> exists r, mul cap a b = Ok r /\ denotes cap r (x * Z.abs y) /\ clean r).
  { intros H0 Hl. exists (mk0 cap). unfold mul.
    replace ((len a =? 0) || (len b =? 0)) with true by lia. split; [reflexivity|]. split.
    - rewrite H0. apply (mag_denotes cap _ []); [|reflexivity|reflexivity].
      split; [exists (zeros cap); reflexivity|]. split; [apply mk0_len|]. split; [reflexivity|]. split; [constructor|congruence].
    - apply (clean_of_el cap _ []); [reflexivity|]. cbn [mk0 el]. unfold zeros. cbn [map app length]. now rewrite Nat.sub_0_r. }
  destruct (list_eq_dec Z.eq_dec xs []) as [E0|Nx0].
  { apply Hz; [|left; rewrite Nx, E0; reflexivity]. apply (mag_nil _ _ _ Mx) in E0. lia. }
  destruct (list_eq_dec Z.eq_dec ys []) as [E0|Ny0].
  { apply Hz; [|right; rewrite Ny, E0; reflexivity]. apply (mag_nil _ _ _ My) in E0. lia. }
  assert (Lx : (0 < length xs)%nat) by (destruct xs; [congruence|cbn; lia]).
  assert (Ly : (0 < length ys)%nat) by (destruct ys; [congruence|cbn; lia]).
  destruct (mul_gen cap a b xs ys Mx My Nx0 Ny0 ltac:(lia) Hbig) as (ds & E & Ld & Dd & Nd & Cd & V).
  eexists. split; [exact E|]. rewrite map_app, map_repeat'. split.
  - assert (Hx0 : x <> 0). { intros ->. apply Nx0. apply (mag_nil _ _ _ Mx). cbn in Ex. lia. }
    assert (Hy0 : y <> 0). { intros ->. apply Ny0. apply (mag_nil _ _ _ My). cbn in Ey. lia. }
    apply (mag_denotes cap _ ds).
    + split; [eexists; reflexivity|]. cbn [el len]. split; [rewrite app_length, map_length, repeat_length; lia|]. auto.
    + rewrite V, <- Ex, <- Ey, Z.abs_mul, Z.abs_involutive. reflexivity.
    + cbn [sgn]. rewrite Sx. destruct (Z.ltb_spec x 0), (Z.ltb_spec (x * Z.abs y) 0); try reflexivity; nia.
  - apply (clean_of_el cap _ ds); reflexivity.
Qed.

(** the product does not fit: UB *)
Lemma times_full cap a b x y : denotes cap a x -> denotes cap b y -> x <> 0 -> y <> 0 ->
  Z.of_nat cap < len a + len b -> times cap a b = UB.
Proof.
  intros Ha Hb Hx Hy Hc.
  destruct (denotes_mag _ _ _ Ha) as (xs & Mx & Ex & Sx & Nx).
  destruct (denotes_mag _ _ _ Hb) as (ys & My & Ey & Sy & Ny).
  assert (xs <> []) by (intros E; apply (mag_nil _ _ _ Mx) in E; lia).
  assert (ys <> []) by (intros E; apply (mag_nil _ _ _ My) in E; lia).
  apply mul_full; [| |assumption]; [destruct xs|destruct ys]; try congruence; cbn [length] in *; lia.
Qed.

(** negation *)
Lemma opp_value cap a x : denotes cap a x -> 
  exists r, opp cap a = Ok r /\ (x <> 0 -> denotes cap r (- x)) /\
    (forall i, len a <= i < Z.of_nat cap -> aget (el r) i = Ok None) /\ len r = len a /\ sgn r = - sgn a /\
    magnitude cap r (Z.abs x).
Proof.
  intros Ha. destruct (denotes_mag _ _ _ Ha) as (xs & Mx & Ex & Sx & Nx).
  pose proof (mag_le _ _ _ Mx) as Hle. destruct Mx as ([tl E] & L & N & Hd & Hl).
  unfold opp, copy. rewrite L, N.
  destruct (Z.ltb_spec (Z.of_nat (length xs)) 0); [lia|].
  destruct (Z.ltb_spec (Z.of_nat cap) (Z.of_nat (length xs))); [lia|]. cbn [orb].
  rewrite Nat2Z.id. cbn [bind el len sgn].
  assert (Ef : firstn (length xs) (el a) = map Some xs).
  { rewrite E, <- (map_length Some xs), firstn_app, Nat.sub_diag, firstn_all, firstn_O. apply app_nil_r. }
  rewrite Ef. eexists. split; [reflexivity|]. cbn [el len sgn].
  assert (Hm : mag cap (Big (map Some xs ++ repeat None (cap - length xs)) (Z.of_nat (length xs)) (- sgn a)) xs).
  { split; [eexists; reflexivity|]. cbn [el len]. split; [rewrite app_length, map_length, repeat_length; lia|]. auto. }
  split; [|split; [|split; [reflexivity|split; [reflexivity|]]]].
  - intros Hx. apply (mag_denotes _ _ xs); [assumption|lia|]. cbn [sgn]. rewrite Sx.
    destruct (Z.ltb_spec x 0), (Z.ltb_spec (- x) 0); lia.
  - intros i Hi. rewrite aget_app2 by (rewrite map_length; lia). rewrite map_length. apply aget_repeat. lia.
  - rewrite Ex. now apply mag_magnitude.
Qed.

(** an addition that reads an indeterminate cell of its first operand is UB *)
Lemma add_digits_none a b i r : aget a i = Ok None -> add_digits a b i r = UB.
Proof. intros H. unfold add_digits, rd. rewrite H. reflexivity. Qed.
Lemma for_ub {S} (body : Z -> S -> outcome S) : forall n i0 k s,
  (forall i s, (exists s', body i s = Ok s') \/ body i s = UB) ->
  i0 <= k < i0 + Z.of_nat n -> (forall s, body k s = UB) -> for_loop n i0 body s = UB.
Proof.
  induction n as [|n IH]; intros i0 k s H Hk Hb; [lia|].
  cbn [for_loop]. destruct (Z.eq_dec i0 k) as [->|Hne]; [now rewrite Hb|].
  destruct (H i0 s) as [[s' ->]|E]; [|now rewrite E]. cbn [bind]. apply (IH _ k); [assumption|lia|assumption].
Qed.
Lemma add_none cap a b i : 0 <= i < Z.max (len a) (len b) -> aget (el a) i = Ok None -> add cap a b = UB.
Proof.
  intros Hi Hn. unfold add. rewrite (for_ub _ _ 0 i); [reflexivity| |lia|].
  - intros j s. destruct (add_digits_okub (length s) (el a) (el b) j s eq_refl) as [(s' & E & _)|E]; eauto.
  - intros s. now apply add_digits_none.
Qed.

(** sums with left-over digits *)
Lemma plus_leftover cap a b x y st f :
  denotes cap a x -> denotes cap b y -> 0 <= x -> 0 <= y ->
  leftover b st -> len b + Z.of_nat (length st) = len a -> len a < Z.of_nat cap ->
  (exists r, plus f cap a b = Ok r /\ denotes cap r (x + (y + 10 ^ len b * dval st))) /\
  (exists r, plus f cap b a = Ok r /\ denotes cap r ((y + 10 ^ len b * dval st) + x)).
Proof.
  intros Ha Hb Hx Hy Hst Hlen Hcap.
  destruct (denotes_mag _ _ _ Ha) as (xs & Mx & Ex & Sx & Nx).
  destruct (denotes_mag _ _ _ Hb) as (ys & My & Ey & Sy & Ny).
  assert (H0 : leftover a []) by (split; [constructor|intros k Hk; cbn in Hk; lia]).
  destruct (Z.ltb_spec x 0); [lia|]. destruct (Z.ltb_spec y 0); [lia|].
  pose proof (dval_bound st (proj1 Hst)) as Bst.
  assert (HP : 0 <= 10 ^ Z.of_nat (length ys)) by (apply Z.pow_nonneg; lia).
  split.
  - destruct (add_mag cap a b xs ys [] st Mx My H0 Hst) as (r & ds & E & M & S & C & L1 & L2 & V);
      [cbn [length]; lia|lia|lia|].
    unfold plus, plus_val. rewrite Sx, Sy, E. cbn [bind Z.eqb Pos.eqb].
    destruct (assign_mk0 cap r ds M) as (r' & E' & M' & S' & C'). exists r'.
    split; [assumption|]. rewrite app_nil_r, dval_app in V. rewrite Ny.
    apply (mag_denotes cap r' ds); [assumption|nia|]. rewrite S', S, Sx.
    destruct (Z.ltb_spec (x + (y + 10 ^ Z.of_nat (length ys) * dval st)) 0); [nia|reflexivity].
  - destruct (add_mag cap b a ys xs st [] My Mx Hst H0) as (r & ds & E & M & S & C & L1 & L2 & V);
      [lia|cbn [length]; lia|lia|].
    unfold plus, plus_val. rewrite Sx, Sy, E. cbn [bind Z.eqb Pos.eqb].
    destruct (assign_mk0 cap r ds M) as (r' & E' & M' & S' & C'). exists r'.
    split; [assumption|]. rewrite app_nil_r, dval_app in V. rewrite Ny.
    apply (mag_denotes cap r' ds); [assumption|nia|]. rewrite S', S, Sy.
    destruct (Z.ltb_spec (y + 10 ^ Z.of_nat (length ys) * dval st + x) 0); [nia|reflexivity].
Qed.

(** assignment keeps the old cells above the new digits *)
Lemma assign_value cap d s z : length (el d) = cap -> denotes cap s z ->
  exists r, assign d s = Ok r /\ denotes cap r z /\
    forall i, len s <= i -> aget (el r) i = aget (el d) i.
Proof.
  intros Ld Hs. destruct (denotes_mag _ _ _ Hs) as (ds & M & E & S & N).
  destruct (assign_mag cap d s ds Ld M) as (r & Er & Mr & Sr & Hc & _). exists r.
  split; [assumption|]. split; [|assumption]. apply (mag_denotes cap r ds); [assumption..|]. congruence.
Qed.

(** expressions with natural values *)
Lemma beval_natural cap e : 90 * Z.of_nat cap <= 900000000 -> (1 <= cap)%nat -> natural cap e ->
  exists b, beval cap e = Ok b /\ denotes cap b (zeval e) /\ clean b.
Proof.
  intros Hbig Hcap. 
  assert (Hlen : forall b z, denotes cap b z -> 0 <= z < 10 ^ (Z.of_nat cap - 1) -> len b <= Z.of_nat cap - 1).
  { intros b z Hb Hz. destruct (denotes_mag _ _ _ Hb) as (ds & M & E & S & N). rewrite N.
    apply (mag_len_lt cap b ds); [assumption|lia|lia]. }
  induction e as [n|s|a IHa b IHb|a IHa b IHb|a IHa b IHb]; cbn [natural zeval beval].
  - intros [Hr Hn]. apply of_int64_spec; [assumption|unfold int64_min; lia|].
    assert (10 ^ (Z.of_nat cap - 1) <= 10 ^ Z.of_nat cap) by (apply Z.pow_le_mono_r; lia). lia.
  - intros [Hr (Hs & Hne & H0)]. apply of_string_pos; [assumption..|].
    assert (C : canon_digits s) by (split; [assumption|split; [assumption|right; assumption]]).
    assert (s <> ["0"%char]) by (intros ->; apply H0; reflexivity).
    pose proof (canon_digits_lower s C H).
    destruct (Nat.le_gt_cases (length s) cap); [assumption|].
    assert (10 ^ (Z.of_nat cap - 1) <= 10 ^ (Z.of_nat (length s) - 1)) by (apply Z.pow_le_mono_r; lia). lia.
  - intros [Hr [Ha Hb]]. destruct (IHa Ha) as (x & Ex & Dx & Cx). destruct (IHb Hb) as (y & Ey & Dy & Cy).
    rewrite Ex, Ey. cbn [bind].
    assert (Hza : 0 <= zeval a < 10 ^ (Z.of_nat cap - 1)) by (destruct a; exact (proj1 Ha)).
    assert (Hzb : 0 <= zeval b < 10 ^ (Z.of_nat cap - 1)) by (destruct b; exact (proj1 Hb)).
    pose proof (Hlen _ _ Dx Hza). pose proof (Hlen _ _ Dy Hzb).
    apply (plus_same cap x y (zeval a) (zeval b) 2 Dx Dy Cx Cy); lia.
  - intros [Hr [Ha Hb]]. destruct (IHa Ha) as (x & Ex & Dx & Cx). destruct (IHb Hb) as (y & Ey & Dy & Cy).
    rewrite Ex, Ey. cbn [bind].
    assert (Hza : 0 <= zeval a < 10 ^ (Z.of_nat cap - 1)) by (destruct a; exact (proj1 Ha)).
    assert (Hzb : 0 <= zeval b < 10 ^ (Z.of_nat cap - 1)) by (destruct b; exact (proj1 Hb)).
    destruct (minus_nonneg cap x y (zeval a) (zeval b) 0 Dx Dy Cx Cy ltac:(lia) ltac:(lia)) as (v & r & _ & E & D & C & _).
    eauto.
  - intros [Hr [Ha Hb]]. destruct (IHa Ha) as (x & Ex & Dx & Cx). destruct (IHb Hb) as (y & Ey & Dy & Cy).
    rewrite Ex, Ey. cbn [bind].
    assert (Hza : 0 <= zeval a < 10 ^ (Z.of_nat cap - 1)) by (destruct a; exact (proj1 Ha)).
    assert (Hzb : 0 <= zeval b < 10 ^ (Z.of_nat cap - 1)) by (destruct b; exact (proj1 Hb)).
    pose proof (Hlen _ _ Dx Hza). pose proof (Hlen _ _ Dy Hzb).
    destruct (times_value cap x y (zeval a) (zeval b) Dx Dy Hbig) as (r & E & D & C).
    + destruct (denotes_mag _ _ _ Dx) as (xs & Mx & Vx & Sx & Nx).
      destruct (denotes_mag _ _ _ Dy) as (ys & My & Vy & Sy & Ny).
      destruct (list_eq_dec Z.eq_dec xs []) as [->|N1]; [rewrite Nx; cbn [length]; lia|].
      destruct (list_eq_dec Z.eq_dec ys []) as [->|N2]; [rewrite Ny; cbn [length]; lia|].
      destruct Mx as (_ & _ & _ & Hdx & Hlx), My as (_ & _ & _ & Hdy & Hly).
      pose proof (dval_lower xs Hdx N1 (Hlx N1)) as L1. pose proof (dval_lower ys Hdy N2 (Hly N2)) as L2.
      assert (P1 : (0 < length xs)%nat) by (destruct xs; [congruence|cbn; lia]).
      assert (P2 : (0 < length ys)%nat) by (destruct ys; [congruence|cbn; lia]).
      assert (L3 : 10 ^ (Z.of_nat (length xs) - 1 + (Z.of_nat (length ys) - 1)) <= zeval a * zeval b).
      { rewrite Z.pow_add_r by lia. replace (zeval a) with (dval xs) by lia. replace (zeval b) with (dval ys) by lia.
        apply Z.mul_le_mono_nonneg; try assumption; apply Z.pow_nonneg; lia. }
      destruct (Z.le_gt_cases (len x + len y) (Z.of_nat cap)) as [|Hgt]; [assumption|].
      assert (10 ^ (Z.of_nat cap - 1) <= 10 ^ (Z.of_nat (length xs) - 1 + (Z.of_nat (length ys) - 1)))
        by (apply Z.pow_le_mono_r; lia). lia.
    + exists r. rewrite (Z.abs_eq (zeval b)) in D by lia. auto.
Qed.
