From Verif Require Import Base NumSpec IntTyModel IntTySpec.
From Verif Require NumProofs.
Local Open Scope Z_scope.

(** ** types *)
(** half of the modulus *)
Definition half (t : ty) : Z := 2 ^ (bits t - 1).
Lemma bits_cases t : bits t = 8 \/ bits t = 16 \/ bits t = 32 \/ bits t = 64.
Proof. destruct t as [s []]; cbn; auto. Qed.
Lemma modulus t : 2 ^ bits t = 2 * half t /\ 128 <= half t.
Proof. destruct t as [s []]; cbn; lia. Qed.
Lemma half_wide t : 32 <= bits t -> 2147483648 <= half t.
Proof. destruct t as [s []]; unfold half; cbn; lia. Qed.
Lemma half_64 t : half t <= 2 ^ 63.
Proof. destruct t as [s []]; unfold half; cbn; lia. Qed.
Lemma inty_iff t z : inty t z <-> tmin t <= z <= tmax t.
Proof.
  unfold inty, tmin, tmax. destruct (sgn t); lia.
Qed.
Lemma tmin_eq t : tmin t = if sgn t then - half t else 0. Proof. reflexivity. Qed.
Lemma tmax_eq t : tmax t = if sgn t then half t - 1 else 2 * half t - 1.
Proof. unfold tmax. destruct (modulus t) as [-> _]. reflexivity. Qed.
Lemma has_iff t z : has t z = true <-> inty t z.
Proof. rewrite inty_iff. unfold has. lia. Qed.
Lemma inty_0 t : inty t 0.
Proof. apply inty_iff. rewrite tmin_eq, tmax_eq. destruct (modulus t). destruct (sgn t); lia. Qed.
Lemma inty_small t z : 0 <= z <= 127 -> inty t z.
Proof. intros. apply inty_iff. rewrite tmin_eq, tmax_eq. destruct (modulus t). destruct (sgn t); lia. Qed.

Lemma conv_id t z : inty t z -> conv t z = z.
Proof.
  rewrite inty_iff, tmin_eq, tmax_eq. unfold conv. rewrite tmin_eq. destruct (modulus t) as [-> _].
  intros H. rewrite Z.mod_small; [lia|]. destruct (sgn t); lia.
Qed.
Lemma conv_inty t z : inty t (conv t z).
Proof.
  rewrite inty_iff, tmin_eq, tmax_eq. unfold conv. rewrite tmin_eq. destruct (modulus t) as [-> Hh].
  pose proof (Z.mod_pos_bound (z - (if sgn t then - half t else 0)) (2 * half t) ltac:(lia)).
  destruct (sgn t); lia.
Qed.
Lemma conv_congr t z : (2 ^ bits t | z - conv t z).
Proof.
  unfold conv. set (M := 2 ^ bits t). set (m := tmin t).
  assert (HM : M <> 0) by (unfold M; destruct (modulus t); lia).
  exists ((z - m) / M). pose proof (Z.div_mod (z - m) M HM). lia.
Qed.
Lemma conv_residue t z : residue t z (conv t z).
Proof. split; [apply conv_inty|apply conv_congr]. Qed.
Lemma congr_eq t x y : inty t x -> inty t y -> (2 ^ bits t | x - y) -> x = y.
Proof.
  rewrite !inty_iff, !tmin_eq, !tmax_eq. destruct (modulus t) as [-> Hh]. intros Hx Hy [k Hk].
  assert (k = 0); [|lia].
  assert (- (2 * half t) < x - y < 2 * half t) by (destruct (sgn t); lia).
  nia.
Qed.
Lemma residue_unique t x y : residue t x y -> y = conv t x.
Proof.
  intros [H1 H2]. apply (congr_eq t); [assumption|apply conv_inty|].
  replace (y - conv t x) with ((x - conv t x) - (x - y)) by lia.
  apply Z.divide_sub_r; [apply conv_congr|assumption].
Qed.
Lemma conv_eq t x y : (2 ^ bits t | x - y) -> conv t x = conv t y.
Proof.
  intros H. apply residue_unique. split; [apply conv_inty|].
  replace (y - conv t x) with ((x - conv t x) - (x - y)) by lia.
  apply Z.divide_sub_r; [apply conv_congr|assumption].
Qed.
Lemma conv_0 t : conv t 0 = 0.
Proof. apply conv_id, inty_0. Qed.
Lemma conv_mul t x y : conv t (conv t x * y) = conv t (x * y).
Proof.
  apply conv_eq. replace (conv t x * y - x * y) with (- ((x - conv t x) * y)) by ring.
  apply Z.divide_opp_r, Z.divide_mul_l, conv_congr.
Qed.
Lemma conv_add t x y : conv t (conv t x + y) = conv t (x + y).
Proof.
  apply conv_eq. replace (conv t x + y - (x + y)) with (- (x - conv t x)) by ring.
  apply Z.divide_opp_r, conv_congr.
Qed.
(** conversion through a type with at least as many bits *)
Lemma conv_conv t c x : bits t <= bits c -> conv t (conv c x) = conv t x.
Proof.
  intros H. apply conv_eq. replace (conv c x - x) with (- (x - conv c x)) by ring.
  apply Z.divide_opp_r. eapply Z.divide_trans; [|apply conv_congr].
  exists (2 ^ (bits c - bits t)). rewrite <- Z.pow_add_r; [f_equal; lia|lia|].
  destruct (bits_cases t); lia.
Qed.
Lemma conv_mod_unsigned t x : sgn t = false -> conv t x = x mod 2 ^ bits t.
Proof. intros H. unfold conv, tmin. rewrite H. now rewrite Z.sub_0_r, Z.add_0_r. Qed.

Lemma arith_ok c z : inty c z -> arith c z = Ok z.
Proof.
  intros H. unfold arith. destruct (sgn c) eqn:S.
  - apply has_iff in H. now rewrite H.
  - rewrite <- conv_mod_unsigned by assumption. now rewrite conv_id.
Qed.
Lemma arith_unsigned c z : sgn c = false -> arith c z = Ok (conv c z).
Proof. intros H. unfold arith. rewrite H. now rewrite <- conv_mod_unsigned. Qed.
Lemma arith_ub c z : sgn c = true -> ~ inty c z -> arith c z = UB.
Proof.
  intros H N. unfold arith. rewrite H. destruct (has c z) eqn:E; [|reflexivity].
  now apply has_iff in E.
Qed.

(** ** common type *)
Lemma common_sym t1 t2 : common t1 t2 = common t2 t1.
Proof. destruct t1 as [[] []], t2 as [[] []]; reflexivity. Qed.
Lemma common_bits t1 t2 : 32 <= bits (common t1 t2) /\ bits t1 <= bits (common t1 t2) /\ bits t2 <= bits (common t1 t2).
Proof. destruct t1 as [[] []], t2 as [[] []]; cbn; lia. Qed.
Lemma common_self t : common t t = promote t.
Proof. destruct t as [[] []]; reflexivity. Qed.
Lemma common_int_same t : 32 <= bits t -> common t i32 = t.
Proof. destruct t as [[] []]; cbn; try lia; reflexivity. Qed.
Lemma promote_wide t : 32 <= bits t -> promote t = t.
Proof. destruct t as [[] []]; cbn; try lia; reflexivity. Qed.
Lemma promote_narrow t : bits t < 32 -> promote t = i32.
Proof. destruct t as [[] []]; cbn; try lia; reflexivity. Qed.
(** every non-negative value of an operand type is a value of the common type *)
Lemma common_nonneg t1 t2 x : inty t1 x -> 0 <= x -> inty (common t1 t2) x.
Proof.
  rewrite !inty_iff. destruct t1 as [[] []], t2 as [[] []]; unfold tmin, tmax; cbn; lia.
Qed.
Lemma common_signed t1 t2 x : sgn (common t1 t2) = true -> inty t1 x -> inty (common t1 t2) x.
Proof.
  rewrite !inty_iff. destruct t1 as [[] []], t2 as [[] []]; unfold tmin, tmax; cbn; try discriminate; lia.
Qed.
Lemma inty_between t x r : inty t x -> (0 <= r <= x \/ x <= r <= 0) -> inty t r.
Proof. pose proof (inty_0 t). rewrite !inty_iff in *. lia. Qed.
Lemma ret_cases t1 t2 : (t1 = t2 /\ ret t1 t2 = t1) \/ ret t1 t2 = common t1 t2.
Proof. destruct t1 as [[] []], t2 as [[] []]; cbn; auto. Qed.

(** ** gcd *)
(** a value of type [t] that survives the way to the common type and back *)
Definition stable (t c : ty) (x : Z) : Prop := inty c x \/ bits t = bits c.
(** the pairs for which [%] of the common type is undefined *)
Definition min_pair (c : ty) (A B : Z) : Prop := sgn c = true /\ A = tmin c /\ B = -1.

Lemma stable_step t c x r : inty t x -> stable t c x -> inty c r ->
  (0 <= r <= conv c x \/ conv c x <= r <= 0) ->
  inty t (conv t r) /\ stable t c (conv t r) /\ conv c (conv t r) = r /\ (conv t r = 0 <-> r = 0).
Proof.
  intros Hx [S|S] Hr Hb.
  - rewrite (conv_id c x S) in Hb. assert (Ht : inty t r) by (now apply (inty_between t x)).
    rewrite (conv_id t r Ht). repeat split; try assumption; try tauto.
    + left. assumption.
    + now apply conv_id.
  - split; [apply conv_inty|]. split; [now right|].
    assert (E : conv c (conv t r) = r).
    { rewrite conv_conv by lia. now apply conv_id. }
    split; [assumption|]. split; intros H.
    + rewrite H, conv_0 in E. congruence.
    + subst r. apply conv_0.
Qed.

Lemma quot_inty c A B : inty c A -> inty c B -> B <> 0 -> ~ min_pair c A B -> inty c (Z.quot A B).
Proof.
  intros HA HB Hn Hm. pose proof (NumProofs.quot_bound A B Hn) as Q.
  rewrite inty_iff, tmin_eq, tmax_eq in *. unfold min_pair in Hm. rewrite tmin_eq in Hm.
  destruct (modulus c) as [_ Hh]. destruct (sgn c).
  - destruct (Z.eq_dec (Z.quot A B) (half c)) as [E|E]; [|lia].
    exfalso. assert (A = - half c) by lia. subst A.
    pose proof (Z.quot_rem (- half c) B Hn) as QR.
    pose proof (Z.rem_bound_abs (- half c) B Hn). rewrite E in QR.
    assert (B = -1 \/ B <= -2 \/ 0 < B) as [->|[|]] by lia; [apply Hm; auto|nia|nia].
  - assert (0 <= Z.quot A B) by (apply Z.quot_pos; lia). lia.
Qed.
Lemma amod_ok c A B : inty c A -> inty c B -> B <> 0 -> ~ min_pair c A B -> amod c A B = Ok (Z.rem A B).
Proof.
  intros HA HB Hn Hm. unfold amod. destruct (Z.eqb_spec B 0); [contradiction|].
  now rewrite arith_ok by (now apply quot_inty).
Qed.
Lemma rem_between A B : B <> 0 -> 0 <= Z.rem A B <= A \/ A <= Z.rem A B <= 0.
Proof.
  intros Hn. destruct (Z.le_gt_cases 0 A).
  - left. rewrite <- Z.rem_abs_r by assumption. split; [apply Z.rem_nonneg; lia|].
    apply Z.rem_le; lia.
  - right. replace A with (- (- A)) by lia. rewrite Z.rem_opp_l by assumption.
    rewrite <- Z.rem_abs_r by assumption.
    pose proof (Z.rem_le (- A) (Z.abs B)). pose proof (Z.rem_nonneg (- A) (Z.abs B)). lia.
Qed.

Section Gcd.
Variables t1 t2 : ty.
Let c := common t1 t2.
Lemma modassign_12 a b : modassign t1 t2 a b = (v <- amod c (conv c a) (conv c b) ;; Ok (conv t1 v)).
Proof. reflexivity. Qed.
Lemma modassign_21 a b : modassign t2 t1 b a = (v <- amod c (conv c b) (conv c a) ;; Ok (conv t2 v)).
Proof. unfold modassign, opassign. now rewrite (common_sym t2 t1). Qed.

Lemma gcd_loop_ok : forall fuel a b,
  inty t1 a -> inty t2 b -> stable t1 c a -> stable t2 c b ->
  conv c b <> 0 -> ~ min_pair c (conv c a) (conv c b) -> ~ min_pair c (conv c b) (conv c a) ->
  Z.abs (conv c b) < 2 ^ Z.of_nat fuel ->
  exists a' b', gcd_loop fuel t1 t2 a b = Ok (a', b') /\ (a' = 0 \/ b' = 0) /\
    inty t1 a' /\ inty t2 b' /\ stable t1 c a' /\ stable t2 c b' /\
    is_gcd (conv c a' + conv c b') (conv c a) (conv c b) /\
    (0 <= conv c a -> 0 <= conv c b -> 0 <= conv c a' + conv c b') /\
    (conv c a <= 0 -> conv c b <= 0 -> conv c a' + conv c b' <= 0).
Proof.
  induction fuel as [|k IH]; intros a b Ha Hb Sa Sb Hn N1 N2 Hf.
  { change (2 ^ Z.of_nat 0) with 1 in Hf. lia. }
  cbn [gcd_loop]. rewrite modassign_12.
  pose proof (conv_inty c a) as CA. pose proof (conv_inty c b) as CB.
  set (A := conv c a) in *. set (B := conv c b) in *.
  rewrite (amod_ok c A B) by assumption. cbn [bind].
  pose proof (Z.rem_bound_abs A B Hn) as R1. pose proof (rem_between A B Hn) as W1.
  assert (I1 : inty c (Z.rem A B)) by (now apply (inty_between c A)).
  destruct (stable_step t1 c a (Z.rem A B) Ha Sa I1 W1) as (Ha1 & Sa1 & Ea1 & Za1).
  set (a1 := conv t1 (Z.rem A B)) in *.
  destruct (Z.eqb_spec a1 0) as [E|E].
  - exists a1, b. rewrite E. split; [reflexivity|]. split; [now left|].
    split; [apply inty_0|]. split; [assumption|]. split; [left; apply inty_0|]. split; [assumption|].
    rewrite conv_0. fold B. cbn [Z.add]. split; [|lia].
    apply NumProofs.is_gcd_rem; [assumption|]. rewrite (proj1 Za1 E). apply NumProofs.is_gcd_0.
  - assert (E' : Z.rem A B <> 0) by tauto. rewrite modassign_21. fold B. rewrite Ea1.
    set (A1 := Z.rem A B) in *.
    assert (N3 : ~ min_pair c B A1).
    { intros (Sg & EB & EA). rewrite inty_iff, tmin_eq, tmax_eq, Sg in *.
      destruct (modulus c) as [_ Hh].
      destruct (Z.eq_dec A (- half c)) as [X|X].
      - unfold A1 in EA. rewrite X, EB in EA. rewrite Z.rem_same in EA by lia. lia.
      - assert (A1 = A). { unfold A1. apply Z.rem_small_iff; lia. }
        apply N2. unfold min_pair. rewrite tmin_eq, Sg. repeat split; lia. }
    rewrite (amod_ok c B A1) by assumption. cbn [bind].
    pose proof (Z.rem_bound_abs B A1 E') as R2. pose proof (rem_between B A1 E') as W2.
    assert (I2 : inty c (Z.rem B A1)) by (now apply (inty_between c B)).
    destruct (stable_step t2 c b (Z.rem B A1) Hb Sb I2 W2) as (Hb1 & Sb1 & Eb1 & Zb1).
    set (b1 := conv t2 (Z.rem B A1)) in *.
    assert (SA : (0 <= A -> 0 <= A1) /\ (A <= 0 -> A1 <= 0)) by lia.
    destruct (Z.eqb_spec b1 0) as [F|F].
    + exists a1, b1. rewrite F. split; [reflexivity|]. split; [now right|].
      split; [assumption|]. split; [apply inty_0|]. split; [assumption|]. split; [left; apply inty_0|].
      rewrite conv_0, Ea1, Z.add_0_r. split; [|tauto].
      apply NumProofs.is_gcd_rem; [assumption|]. fold A1. apply NumProofs.is_gcd_sym, NumProofs.is_gcd_rem; [assumption|].
      rewrite (proj1 Zb1 F). apply NumProofs.is_gcd_0.
    + assert (F' : Z.rem B A1 <> 0) by tauto. set (B1 := Z.rem B A1) in *.
      assert (Hlt : 2 * Z.abs B1 < Z.abs B) by (apply NumProofs.rem_half; [assumption|lia]).
      destruct (IH a1 b1) as (a' & b' & -> & H0 & G1 & G2 & G3 & G4 & G5 & G6 & G7); try assumption.
      * now rewrite Eb1.
      * rewrite Ea1, Eb1. intros (Sg & EA & EB). rewrite tmin_eq, Sg in EA.
        rewrite inty_iff, tmin_eq, tmax_eq, Sg in *. lia.
      * rewrite Ea1, Eb1. intros (Sg & EB & EA). rewrite tmin_eq, Sg in EB.
        rewrite inty_iff, tmin_eq, tmax_eq, Sg in *. lia.
      * rewrite Eb1. rewrite Nat2Z.inj_succ, Z.pow_succ_r in Hf by lia. lia.
      * rewrite Ea1, Eb1 in *. exists a', b'. split; [reflexivity|]. split; [assumption|].
        split; [assumption|]. split; [assumption|]. split; [assumption|]. split; [assumption|].
        split; [|split; intros; [apply G6|apply G7]; lia].
        apply NumProofs.is_gcd_rem; [assumption|]. fold A1. apply NumProofs.is_gcd_sym, NumProofs.is_gcd_rem; [assumption|].
        apply NumProofs.is_gcd_sym. exact G5.
Qed.

Lemma abs_lt_64 x : inty c x -> Z.abs x < 2 ^ Z.of_nat 64.
Proof.
  rewrite inty_iff, tmin_eq, tmax_eq. pose proof (half_64 c). destruct (modulus c).
  change (2 ^ Z.of_nat 64) with (2 * 2 ^ 63). destruct (sgn c); lia.
Qed.

(** the value returned from a final state of the loop *)
Lemma gcd_return a b : inty t1 a -> inty t2 b -> a = 0 \/ b = 0 ->
  (s <- arith c (conv c a + conv c b) ;; Ok (conv (ret t1 t2) s)) = Ok (conv c a + conv c b) /\
  inty c (conv c a + conv c b) /\ inty (ret t1 t2) (conv c a + conv c b).
Proof.
  intros Ha Hb H0. pose proof (conv_inty c a) as CA. pose proof (conv_inty c b) as CB.
  assert (IS : inty c (conv c a + conv c b)).
  { destruct H0; subst; rewrite conv_0, ?Z.add_0_r; assumption. }
  rewrite arith_ok by assumption. cbn [bind].
  assert (IR : inty (ret t1 t2) (conv c a + conv c b)).
  { destruct (ret_cases t1 t2) as [[Et Er]|Er]; rewrite Er; [|assumption].
    subst t2. destruct (Z_lt_le_dec (bits t1) 32) as [N|N].
    - assert (Ec : c = i32) by (unfold c; rewrite common_self; now apply promote_narrow).
      assert (Hin : forall x, inty t1 x -> conv c x = x).
      { intros x Hx. apply conv_id. apply common_signed; [fold c; rewrite Ec; reflexivity|assumption]. }
      rewrite (Hin a Ha), (Hin b Hb). destruct H0; subst; rewrite ?Z.add_0_r; assumption.
    - assert (Ec : c = t1) by (unfold c; rewrite common_self; now apply promote_wide).
      rewrite <- Ec. assumption. }
  now rewrite conv_id.
Qed.

(** the general fact: both operands survive the way to the common type and back *)
Theorem gcd_stable a b :
  inty t1 a -> inty t2 b -> stable t1 c a -> stable t2 c b ->
  ~ min_pair c (conv c a) (conv c b) -> ~ min_pair c (conv c b) (conv c a) ->
  exists g, converges (fun k => gcd k t1 t2 a b) (Ok g) /\ inty (ret t1 t2) g /\ inty c g /\
    is_gcd g (conv c a) (conv c b) /\
    (0 <= conv c a -> 0 <= conv c b -> 0 <= g) /\ (conv c a <= 0 -> conv c b <= 0 -> g <= 0).
Proof.
  intros Ha Hb Sa Sb N1 N2.
  destruct (Z.eq_dec b 0) as [->|Hb0].
  - destruct (gcd_return a 0 Ha Hb (or_intror eq_refl)) as (R1 & R2 & R3).
    exists (conv c a + conv c 0). split.
    { exists 0%nat. intros k _. unfold gcd. cbn [Z.eqb negb bind]. exact R1. }
    split; [assumption|]. split; [assumption|]. rewrite conv_0, Z.add_0_r. split; [|lia].
    apply NumProofs.is_gcd_sym, NumProofs.is_gcd_0.
  - assert (HB0 : conv c b <> 0).
    { intros E. apply Hb0. destruct Sb as [S|S].
      - now rewrite conv_id in E.
      - transitivity (conv t2 b); [symmetry; now apply conv_id|].
        rewrite <- (conv_conv t2 c) by lia. rewrite E. apply conv_0. }
    assert (L : forall k, (64 <= k)%nat -> Z.abs (conv c b) < 2 ^ Z.of_nat k).
    { intros k Hk. apply Z.lt_le_trans with (2 ^ Z.of_nat 64); [apply abs_lt_64, conv_inty|].
      apply Z.pow_le_mono_r; lia. }
    destruct (gcd_loop_ok 64 a b Ha Hb Sa Sb HB0 N1 N2 (L 64%nat (le_n _)))
      as (a' & b' & E & H0 & G1 & G2 & G3 & G4 & G5 & G6).
    destruct (gcd_return a' b' G1 G2 H0) as (R1 & R2 & R3).
    exists (conv c a' + conv c b'). split; [|auto].
    exists 64%nat. intros k Hk.
    assert (Ek : gcd_loop k t1 t2 a b = Ok (a', b')).
    { clear - Hk E.
      assert (M : forall n a b r, gcd_loop n t1 t2 a b = Ok r -> forall m, (n <= m)%nat -> gcd_loop m t1 t2 a b = Ok r).
      { clear. induction n as [|n IH]; intros a b r E m Hm; [discriminate|].
        destruct m as [|m]; [lia|]. cbn [gcd_loop] in *.
        destruct (modassign t1 t2 a b) as [x| | |]; try discriminate. cbn [bind] in *.
        destruct (x =? 0); [assumption|].
        destruct (modassign t2 t1 b x) as [y| | |]; try discriminate. cbn [bind] in *.
        destruct (y =? 0); [assumption|]. apply IH; [assumption|lia]. }
      now apply (M 64%nat). }
    unfold gcd. destruct (Z.eqb_spec b 0); [contradiction|]. cbn [negb]. rewrite Ek. cbn [bind]. exact R1.
Qed.
End Gcd.

Lemma gcd_min_pair t1 t2 a b k : inty t1 a -> inty t2 b ->
  min_pair (common t1 t2) a b -> gcd (S k) t1 t2 a b = UB.
Proof.
  intros Ha Hb (Sg & -> & ->). set (c := common t1 t2) in *.
  assert (IM : inty c (-1)) by (apply common_signed with (t1 := t2) (t2 := t1) in Hb; [unfold c; now rewrite common_sym|now rewrite common_sym]).
  unfold gcd. cbn [Z.eqb negb gcd_loop]. unfold modassign, opassign. fold c.
  assert (IT : inty c (tmin c)) by (rewrite inty_iff, tmin_eq, tmax_eq, Sg; destruct (modulus c); lia).
  rewrite (conv_id c _ IT), (conv_id c _ IM). unfold amod. cbn [Z.eqb].
  rewrite arith_ub; [reflexivity|assumption|].
  change (-1) with (- (1)). rewrite Z.quot_opp_r, Z.quot_1_r by lia.
  rewrite inty_iff, tmin_eq, tmax_eq, Sg. lia.
Qed.
