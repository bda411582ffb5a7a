From Coq Require Import QArith.
From Verif Require Import Base NumModel NumSpec.
Local Open Scope Z_scope.

Lemma inr_iff t z : inr t z = true <-> imin t <= z <= imax t.
Proof. unfold inr. lia. Qed.
Lemma imin_imax t : imin t = - imax t - 1 /\ 0 < imax t.
Proof. destruct t; cbn; unfold int32_min, int32_max, int64_min, int64_max; lia. Qed.
Lemma imax_lt t : imax t < 2 ^ 63.
Proof. destruct t; cbn; unfold int32_max, int64_max; lia. Qed.
Lemma chk_ok t z : inr t z = true -> chk t z = Ok z.
Proof. unfold chk. now intros ->. Qed.
Lemma chk_inv t z v : chk t z = Ok v -> v = z /\ inr t z = true.
Proof. unfold chk. destruct (inr t z); [|discriminate]. intros H; injection H as <-. now split. Qed.

(** ** gcd *)
Lemma quot_bound a b : b <> 0 -> Z.abs (Z.quot a b) <= Z.abs a.
Proof.
  intros Hb. rewrite Z.quot_div by assumption.
  rewrite !Z.abs_mul.
  assert (Z.abs (Z.sgn a) <= 1) by lia. assert (Z.abs (Z.sgn b) <= 1) by lia.
  assert (0 <= Z.abs a / Z.abs b) by (apply Z.div_pos; lia).
  assert (Z.abs a / Z.abs b <= Z.abs a) by (apply Z.div_le_upper_bound; nia).
  rewrite (Z.abs_eq (Z.abs a / Z.abs b)) by assumption. nia.
Qed.
Lemma quot_in t a b : inr t a = true -> b <> 0 -> ~ (a = imin t /\ b = -1) ->
  inr t (Z.quot a b) = true.
Proof.
  intros Ha Hb Hn. rewrite inr_iff in *. destruct (imin_imax t) as [Hm Hp].
  destruct (Z.eq_dec b (-1)) as [->|Hb1].
  - change (-1) with (- (1)). rewrite Z.quot_opp_r, Z.quot_1_r by lia. lia.
  - destruct (Z.eq_dec b 1) as [->|Hb2]; [rewrite Z.quot_1_r; lia|].
    pose proof (quot_bound a b Hb).
    destruct (Z.eq_dec a (imin t)) as [->|]; [|lia].
    destruct (Z.eq_dec (Z.quot (imin t) b) (imax t + 1)) as [E|]; [|lia].
    exfalso. pose proof (Z.quot_rem (imin t) b Hb) as Q.
    pose proof (Z.rem_bound_abs (imin t) b Hb). rewrite E in Q.
    assert (b = -1 \/ b <= -2 \/ 0 < b) by lia. nia.
Qed.
Lemma imod_ok t a b : inr t a = true -> b <> 0 -> ~ (a = imin t /\ b = -1) ->
  imod t a b = Ok (Z.rem a b).
Proof.
  intros Ha Hb Hn. unfold imod. destruct (Z.eqb_spec b 0); [lia|].
  now rewrite quot_in.
Qed.

Lemma is_gcd_rem g a b : b <> 0 -> is_gcd g (Z.rem a b) b <-> is_gcd g a b.
Proof.
  intros Hb. pose proof (Z.quot_rem a b Hb) as Q. unfold is_gcd.
  assert (E1 : forall d, (d | b) -> (d | Z.rem a b) -> (d | a)).
  { intros d H1 H2. rewrite Q. apply Z.divide_add_r; [now apply Z.divide_mul_l|assumption]. }
  assert (E2 : forall d, (d | b) -> (d | a) -> (d | Z.rem a b)).
  { intros d H1 H2. replace (Z.rem a b) with (a - b * Z.quot a b) by lia.
    apply Z.divide_sub_r; [assumption|now apply Z.divide_mul_l]. }
  split; intros (H1 & H2 & H3); split; auto.
Qed.
Lemma is_gcd_sym g a b : is_gcd g a b -> is_gcd g b a.
Proof. intros (H1 & H2 & H3). split; [|split]; auto. Qed.
Lemma is_gcd_0 b : is_gcd b 0 b.
Proof. split; [|split]; auto using Z.divide_0_r, Z.divide_refl. Qed.

Lemma rem_half b a : a <> 0 -> Z.abs a < Z.abs b -> 2 * Z.abs (Z.rem b a) < Z.abs b.
Proof.
  intros Ha Hlt. pose proof (Z.rem_bound_abs b a Ha) as R.
  rewrite <- Z.rem_abs in * by assumption.
  pose proof (Z.quot_rem (Z.abs b) (Z.abs a) ltac:(lia)) as Q.
  assert (H : 1 <= Z.quot (Z.abs b) (Z.abs a)) by (apply Z.quot_le_lower_bound; lia).
  assert (Z.abs a <= Z.abs a * Z.quot (Z.abs b) (Z.abs a)) by (clear -H; nia).
  lia.
Qed.
Lemma same_sign x y : 0 <= x * y -> y <> 0 -> x <> 0 -> (0 <= y -> 0 <= x) /\ (y <= 0 -> x <= 0).
Proof. intros. split; nia. Qed.

Lemma gcd_loop_ok t : forall fuel a b,
  inr t a = true -> inr t b = true -> b <> 0 ->
  ~ (a = imin t /\ b = -1) -> ~ (a = -1 /\ b = imin t) ->
  Z.abs b < 2 ^ Z.of_nat fuel ->
  exists a' b', gcd_loop fuel t a b = Ok (a', b') /\ (a' = 0 \/ b' = 0) /\
    inr t (a' + b') = true /\
    is_gcd (a' + b') a b /\
    (0 <= a -> 0 <= b -> 0 <= a' + b') /\ (a <= 0 -> b <= 0 -> a' + b' <= 0).
Proof.
  induction fuel as [|k IH]; intros a b Ha Hb Hb0 N1 N2 Hf.
  - change (2 ^ Z.of_nat 0) with 1 in Hf. lia.
  - cbn [gcd_loop]. rewrite imod_ok by assumption. cbn [bind].
    pose proof (Z.rem_bound_abs a b Hb0) as R1.
    destruct (imin_imax t) as [Hm Hp].
    rewrite inr_iff in Ha, Hb.
    destruct (Z.eqb_spec (Z.rem a b) 0) as [E|E].
    + exists (Z.rem a b), b. rewrite E. split; [reflexivity|]. split; [now left|].
      cbn [Z.add]. split; [now apply inr_iff|]. split; [|lia].
      apply is_gcd_rem; [assumption|]. rewrite E. apply is_gcd_0.
    + set (a1 := Z.rem a b) in *.
      assert (Sa : (0 <= a -> 0 <= a1) /\ (a <= 0 -> a1 <= 0)).
      { apply same_sign; [now apply Z.rem_sign_mul| |assumption].
        intros ->. apply E. unfold a1. now apply Z.rem_0_l. }
      assert (N3 : ~ (b = imin t /\ a1 = -1)).
      { intros [-> Ea]. destruct (Z.eq_dec a (imin t)) as [->|].
        - unfold a1 in Ea. rewrite Z.rem_same in Ea by assumption. lia.
        - assert (a1 = a); [|lia]. unfold a1. apply Z.rem_small_iff; lia. }
      rewrite imod_ok; [|now apply inr_iff|assumption|assumption]. cbn [bind].
      pose proof (Z.rem_bound_abs b a1 E) as R2.
      destruct (Z.eqb_spec (Z.rem b a1) 0) as [E2|E2].
      * exists a1, (Z.rem b a1). rewrite E2. split; [reflexivity|]. split; [now right|].
        rewrite Z.add_0_r. split; [rewrite inr_iff; lia|]. split; [|tauto].
        apply is_gcd_rem; [assumption|]. fold a1. apply is_gcd_sym, is_gcd_rem; [assumption|].
        rewrite E2. apply is_gcd_0.
      * set (b1 := Z.rem b a1) in *.
        assert (Sb : (0 <= b -> 0 <= b1) /\ (b <= 0 -> b1 <= 0)).
        { apply same_sign; [now apply Z.rem_sign_mul|assumption|assumption]. }
        destruct (IH a1 b1) as (a' & b' & -> & HH & HR & HG & HS1 & HS2).
        -- rewrite inr_iff. lia.
        -- rewrite inr_iff. lia.
        -- assumption.
        -- lia.
        -- lia.
        -- assert (2 * Z.abs b1 < Z.abs b).
           { apply rem_half; [assumption|lia]. }
           rewrite Nat2Z.inj_succ, Z.pow_succ_r in Hf by lia. lia.
        -- exists a', b'. split; [reflexivity|]. split; [assumption|]. split; [assumption|].
           split; [|tauto].
           apply is_gcd_rem; [assumption|]. fold a1. apply is_gcd_sym, is_gcd_rem; [assumption|].
           apply is_gcd_sym. exact HG.
Qed.

Lemma gcd_spec t a b : inr t a = true -> inr t b = true ->
  ~ (a = imin t /\ b = -1) -> ~ (a = -1 /\ b = imin t) ->
  exists g, gcd t a b = Ok g /\ inr t g = true /\ is_gcd g a b /\
    (0 <= a -> 0 <= b -> 0 <= g) /\ (a <= 0 -> b <= 0 -> g <= 0).
Proof.
  intros Ha Hb N1 N2. unfold gcd.
  destruct (Z.eqb_spec b 0) as [->|Hb0]; cbn [negb].
  - exists a. cbn [bind]. rewrite Z.add_0_r. rewrite chk_ok by assumption.
    split; [reflexivity|]. split; [assumption|]. split; [|lia]. apply is_gcd_sym, is_gcd_0.
  - destruct (gcd_loop_ok t 65 a b) as (a' & b' & -> & H0 & HR & HG & HS); try assumption.
    { rewrite inr_iff in Hb. pose proof (imin_imax t). pose proof (imax_lt t).
      change (2 ^ Z.of_nat 65) with (4 * 2 ^ 63). lia. }
    exists (a' + b'). cbn [bind]. rewrite chk_ok by assumption. auto.
Qed.

Lemma gcd_ub t : gcd t (imin t) (-1) = UB /\ gcd t (-1) (imin t) = UB.
Proof. destruct t; split; vm_compute; reflexivity. Qed.

Lemma gcd_0 t a : inr t a = true -> gcd t a 0 = Ok a /\ gcd t 0 a = Ok a.
Proof.
  intros Ha. unfold gcd. cbn [Z.eqb negb bind]. rewrite Z.add_0_r, chk_ok by assumption.
  split; [reflexivity|].
  destruct (Z.eqb_spec a 0) as [->|Hn]; cbn [negb].
  - cbn [bind]. change (0 + 0) with 0. now apply chk_ok.
  - change (gcd_loop 65 t 0 a) with
      (a0 <- imod t 0 a ;; if a0 =? 0 then Ok (a0, a)
       else b <- imod t a a0 ;; if b =? 0 then Ok (a0, b) else gcd_loop 64 t a0 b).
    destruct (imin_imax t). rewrite imod_ok; [|rewrite inr_iff; lia|assumption|lia].
    cbn [bind]. rewrite Z.rem_0_l by assumption. cbn [Z.eqb bind].
    cbn [Z.add]. now apply chk_ok.
Qed.

(** ** lcm *)
Lemma is_gcd_nonneg g a b : 0 <= g -> is_gcd g a b -> g = Z.gcd a b.
Proof.
  intros Hg (H1 & H2 & H3). apply Z.divide_antisym_nonneg; auto using Z.gcd_nonneg.
  - now apply Z.gcd_greatest.
  - apply H3; auto using Z.gcd_divide_l, Z.gcd_divide_r.
Qed.
Lemma is_gcd_abs g a b : is_gcd g a b -> Z.abs g = Z.gcd a b.
Proof.
  intros (H1 & H2 & H3). apply is_gcd_nonneg; [lia|]. split; [|split].
  - now apply Z.divide_abs_l.
  - now apply Z.divide_abs_l.
  - intros. apply Z.divide_abs_r. auto.
Qed.

Lemma lcm_spec t a b : inr t a = true -> inr t b = true -> 0 <= a -> 0 <= b ->
  ~ (a = 0 /\ b = 0) -> inr t (a * b) = true ->
  exists m, lcm t a b = Ok m /\ is_lcm m a b.
Proof.
  intros Ha Hb Pa Pb N0 Hp. unfold lcm. rewrite chk_ok by assumption. cbn [bind].
  destruct (gcd_spec t a b) as (g & -> & Hg & HG & HS & _); try assumption; try lia.
  cbn [bind].
  assert (g = Z.gcd a b) by (apply is_gcd_nonneg; auto). subst g. clear HG HS.
  assert (Z.gcd a b <> 0) by (intros E; apply Z.gcd_eq_0 in E; tauto).
  pose proof (Z.gcd_nonneg a b).
  unfold idiv. destruct (Z.eqb_spec (Z.gcd a b) 0); [contradiction|].
  rewrite chk_ok.
  2:{ apply quot_in; [assumption|assumption|lia]. }
  eexists; split; [reflexivity|].
  assert (E : Z.quot (a * b) (Z.gcd a b) = Z.lcm a b).
  { unfold Z.lcm. destruct (Z.gcd_divide_r a b) as [c Hc].
    revert Hc H H0. generalize (Z.gcd a b). intros g Hc Hg1 Hg2.
    replace (b / g) with c by (rewrite Hc, Z.div_mul; auto).
    replace (a * b) with (a * c * g) by (rewrite Hc; ring).
    rewrite Z.quot_mul by assumption. rewrite Z.abs_eq; [reflexivity|].
    apply Z.mul_nonneg_nonneg; [assumption|]. clear -Hc Hg1 Hg2 Pb. nia. }
  rewrite E. split; [apply Z.lcm_nonneg|]. split; [apply Z.divide_lcm_l|].
  split; [apply Z.divide_lcm_r|]. intros k H1 H2. now apply Z.lcm_least.
Qed.

Lemma lcm_0_0 t : lcm t 0 0 = UB.
Proof. destruct t; vm_compute; reflexivity. Qed.
