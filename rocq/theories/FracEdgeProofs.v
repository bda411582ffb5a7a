From Coq Require Import Znumtheory.
From Verif Require Import Base NumModel NumSpec NumProofs FracModel FracSpec FracProofs FracEdgeSpec.
Local Open Scope Z_scope.

Lemma euclid_total b : 0 <= b -> forall a, 0 <= a -> exists k, euclid a b k.
Proof.
  intros Hb. pattern b. apply Zlt_0_ind; [|assumption]. clear b Hb. intros b IH Hb a Ha. destruct (Z.eq_dec b 0) as [->|].
  - exists O. now constructor.
  - destruct (IH (a mod b) ltac:(apply Z.mod_pos_bound; lia) b Hb) as [k Hk]. exists (S k). constructor; [assumption|lia|assumption].
Qed.
Lemma euclid_fun a b k : euclid a b k -> forall k', euclid a b k' -> k = k'.
Proof.
  induction 1 as [a Ha|a b k Ha Hb H IH]; intros k' H'; inversion H'; subst; try lia. f_equal. now apply IH.
Qed.
Lemma euclid_inv a b k : b <> 0 -> euclid (Z.abs a) (Z.abs b) k -> exists k', k = S k' /\ euclid (Z.abs b) (Z.abs (Z.rem a b)) k'.
Proof.
  intros Hb H. inversion H; subst; [lia|]. exists k0. split; [reflexivity|].
  replace (Z.abs (Z.rem a b)) with (Z.abs a mod Z.abs b); [assumption|].
  rewrite <- Z.rem_abs by assumption. rewrite Z.rem_mod_nonneg; lia.
Qed.
Lemma euclid_end a k : euclid a 0 k -> k = O.
Proof. inversion 1; subst; [reflexivity|lia]. Qed.
Lemma sgn_rem a b : b <> 0 -> Z.rem a b <> 0 -> Z.sgn (Z.rem a b) = Z.sgn a.
Proof. intros Hb Hr. now apply Z.rem_sign_nz. Qed.
Lemma gcd_rem_l a b : b <> 0 -> Z.gcd (Z.rem a b) b = Z.gcd a b.
Proof. intros Hb. rewrite Z.gcd_rem by assumption. apply Z.gcd_comm. Qed.
Lemma loop_value t fuel : forall a b k a' b', b <> 0 -> euclid (Z.abs a) (Z.abs b) k -> gcd_loop fuel t a b = Ok (a', b') ->
  a' + b' = (if Nat.even k then Z.sgn a else Z.sgn b) * Z.gcd a b.
Proof.
  induction fuel as [|f IH]; intros a b k a' b' Hb HE H; [discriminate|]. cbn [gcd_loop] in H.
  apply bind_ok in H. destruct H as (a1 & E1 & H).
  assert (a1 = Z.rem a b) by (unfold imod in E1; destruct (b =? 0); [discriminate|]; destruct (inr t _); [congruence|discriminate]). clear E1.
  destruct (euclid_inv a b k Hb HE) as (k1 & -> & HE1). rewrite <- H0 in HE1.
  assert (G1 : Z.gcd a1 b = Z.gcd a b) by (subst a1; now apply gcd_rem_l).
  destruct (Z.eqb_spec a1 0) as [Z1|Z1].
  - injection H as <- <-. rewrite Z1 in *. apply euclid_end in HE1. subst k1. cbn [Nat.even]. rewrite <- G1. rewrite Z.gcd_0_l. lia.
  - apply bind_ok in H. destruct H as (b1 & E1 & H).
    assert (B1 : b1 = Z.rem b a1) by (unfold imod in E1; destruct (a1 =? 0); [discriminate|]; destruct (inr t _); [congruence|discriminate]). clear E1.
    destruct (euclid_inv b a1 k1 Z1 HE1) as (k2 & -> & HE2). rewrite <- B1 in HE2.
    assert (G2 : Z.gcd b1 a1 = Z.gcd b a1) by (subst b1; now apply gcd_rem_l).
    assert (S1 : Z.sgn a1 = Z.sgn a) by (subst a1; now apply sgn_rem).
    destruct (Z.eqb_spec b1 0) as [Z2|Z2].
    + injection H as <- <-. rewrite Z2 in *. apply euclid_end in HE2. subst k2. cbn [Nat.even]. rewrite <- G1, Z.gcd_comm, <- G2, Z.gcd_0_l. lia.
    + assert (S2 : Z.sgn b1 = Z.sgn b) by (subst b1; now apply sgn_rem).
      rewrite (IH a1 b1 k2 a' b' Z2 HE2 H). cbn [Nat.even]. rewrite S1, S2, Z.gcd_comm, G2, Z.gcd_comm, G1. reflexivity.
Qed.
(** the value of gcd, with its sign *)
Lemma gcd_value t a b k : inr t a = true -> inr t b = true -> ~ (a = imin t /\ b = -1) -> ~ (a = -1 /\ b = imin t) -> b <> 0 ->
  euclid (Z.abs a) (Z.abs b) k -> gcd t a b = Ok ((if Nat.even k then Z.sgn a else Z.sgn b) * Z.gcd a b).
Proof.
  intros Ha Hb N1 N2 Hb0 HE. destruct (gcd_spec t a b Ha Hb N1 N2) as (g & Eg & _). rewrite Eg. f_equal.
  unfold gcd in Eg. destruct (Z.eqb_spec b 0); [contradiction|]. cbn [negb] in Eg. apply bind_ok in Eg. destruct Eg as ([a' b'] & El & Eg).
  apply chk_inv in Eg. destruct Eg as [-> _]. now apply (loop_value t 65 a b k a' b').
Qed.
(** ** the constructor *)
Lemma odd_gcd a k : 0 <= k -> Z.odd a = true -> Z.gcd a (2 ^ k) = 1.
Proof.
  intros Hk Ho. pattern k. apply natlike_ind; [apply Z.gcd_1_r| |assumption]. intros j Hj IH. rewrite Z.pow_succ_r by assumption.
  apply Zgcd_1_rel_prime. apply rel_prime_mult; apply Zgcd_1_rel_prime; [|exact IH].
  pose proof (Z.divide_pos_le _ 2 ltac:(lia) (Z.gcd_divide_r a 2)). pose proof (Z.gcd_nonneg a 2).
  assert (Z.gcd a 2 <> 0) by (intros E; apply Z.gcd_eq_0_r in E; lia).
  assert (Z.gcd a 2 = 1 \/ Z.gcd a 2 = 2) as [|G] by lia; [assumption|]. pose proof (Z.gcd_divide_l a 2) as [p Hp]. rewrite G in Hp. subst a.
  rewrite Z.mul_comm, Z.odd_mul in Ho. discriminate.
Qed.
Lemma even_gcd a b : Z.odd a = false -> Z.odd b = false -> b <> 0 -> 2 <= Z.gcd a b.
Proof.
  intros Ha Hb Hb0. rewrite <- Z.negb_even in Ha, Hb. apply Bool.negb_false_iff in Ha, Hb. apply Z.even_spec in Ha, Hb. destruct Ha as [p ->], Hb as [q ->].
  rewrite Z.gcd_mul_mono_l_nonneg by lia. pose proof (Z.gcd_nonneg p q). assert (Z.gcd p q <> 0); [|lia]. intros E. apply Z.gcd_eq_0_r in E. lia.
Qed.
Lemma half_le n g x : n = g * x -> 2 <= Z.abs g -> 2 * Z.abs x <= Z.abs n.
Proof. intros -> H. rewrite Z.abs_mul. nia. Qed.
Lemma mk_good n d : in_int32 n = true -> in_int32 d = true -> d <> 0 -> ~ bad_pair n d -> exists f, mk n d = Ok f.
Proof.
  intros Hn Hd Hd0 NB. pose proof (proj1 (in32_iff _) Hn) as Bn. pose proof (proj1 (in32_iff _) Hd) as Bd. unfold int32_min, int32_max in *.
  assert (N1 : ~ (n = imin I32 /\ d = -1)). { intros [-> ->]. apply NB. right. left. cbn. unfold int32_min. split; [reflexivity|]. split; [reflexivity|lia]. }
  assert (N2 : ~ (n = -1 /\ d = imin I32)). { intros [-> ->]. apply NB. left. split; reflexivity. }
  destruct (euclid_total (Z.abs d) ltac:(lia) (Z.abs n) ltac:(lia)) as [k HE].
  pose proof (gcd_value I32 n d k Hn Hd N1 N2 Hd0 HE) as Eg.
  destruct (gcd_spec I32 n d Hn Hd N1 N2) as (g & Eg' & Rg & HG & _). rewrite Eg in Eg'. injection Eg' as Vg.
  unfold mk. destruct (Z.eqb_spec d 0); [contradiction|]. rewrite Eg, Vg. cbn [bind].
  destruct (gcd_unique_quot n d g HG Hd0) as (Hg & En & Ed & HC). pose proof (is_gcd_abs _ _ _ HG) as HA.
  pose proof (quot_bound n g Hg) as Q1. pose proof (quot_bound d g Hg) as Q2.
  unfold idiv. destruct (Z.eqb_spec g 0); [contradiction|].
  assert (Exy : n = d -> Z.quot n g = Z.quot d g) by congruence.
  set (x := Z.quot n g) in *. set (y := Z.quot d g) in *. clearbody x y.
  assert (Hx : Z.abs x <= Z.abs n) by exact Q1. assert (Hy : Z.abs y <= Z.abs d) by exact Q2.
  assert (K : (-2147483648 < x <= 2147483647 \/ (x = -2147483648 /\ 0 < y)) /\ -2147483648 < y <= 2147483647).
  { destruct (Z.eq_dec n (-2147483648)) as [En'|En'], (Z.eq_dec d (-2147483648)) as [Ed'|Ed'].
    - specialize (Exy ltac:(congruence)). subst x. rewrite Z.gcd_diag in HC. clear - HC. lia.
    - assert (-2147483648 < y <= 2147483647) by (clear - Hy Bd Ed'; lia). split; [|assumption].
      destruct (Z.odd d) eqn:Od.
      + assert (G1 : Z.gcd n d = 1) by (rewrite En', Z.gcd_comm; rewrite <- Z.gcd_opp_r; exact (odd_gcd d 31 ltac:(lia) Od)).
        destruct (Z.ltb_spec d 0).
        * exfalso. apply NB. right. left. change (- 2 ^ 31) with (-2147483648). auto.
        * destruct (Nat.even k) eqn:Ek.
          -- exfalso. apply NB. right. right. change (- 2 ^ 31) with (-2147483648). split; [assumption|]. split; [assumption|]. split; [lia|]. exists k. split; [|assumption].
             rewrite En' in HE. rewrite (Z.abs_eq d) in HE by lia. exact HE.
          -- rewrite G1 in Vg. assert (Hg1 : g = 1) by (clear - Vg H0 Hd0; lia). clear - En Ed Hg1 En' H0 Hd0. rewrite Hg1 in *. right. lia.
      + assert (2 <= Z.gcd n d) by (apply even_gcd; [rewrite En'; reflexivity|assumption|assumption]). pose proof (half_le n g x En ltac:(clear - HA H0; lia)) as HH. clear - HH En'. left. lia.
    - assert (-2147483648 < x <= 2147483647) by (clear - Hx Bn En'; lia). split; [now left|].
      destruct (Z.odd n) eqn:On.
      + exfalso. apply NB. left. change (- 2 ^ 31) with (-2147483648). auto.
      + assert (2 <= Z.gcd n d) by (apply even_gcd; [assumption|rewrite Ed'; reflexivity|assumption]). pose proof (half_le d g y Ed ltac:(clear - HA H0; lia)) as HH. clear - HH Ed'. lia.
    - clear - Hx Hy Bn Bd En' Ed'. split; [left|]; lia. }
  clear - K.
  destruct K as [Kx Ky].
  assert (R : forall z, -2147483648 <= z <= 2147483647 -> chk32 z = Ok z).
  { intros. apply chk32_ok, in32_iff. unfold int32_min, int32_max. lia. }
  rewrite !chk_ok by (rewrite inr_iff; cbn; unfold int32_min, int32_max; lia). cbn [bind].
  unfold iabs. destruct (Z.ltb_spec y 0).
  - rewrite R by lia. cbn [bind]. rewrite R by lia. cbn [bind]. eauto.
  - cbn [bind]. rewrite R by lia. cbn [bind]. eauto.
Qed.
Lemma chk_out t z : inr t z = false -> chk t z = UB.
Proof. unfold chk. now intros ->. Qed.
Lemma chk32_out z : ~ (-2147483648 <= z <= 2147483647) -> chk32 z = UB.
Proof. intros H. unfold chk32. destruct (in_int32 z) eqn:E; [|reflexivity]. apply in32_iff in E. unfold int32_min, int32_max in E. lia. Qed.
Lemma mk_bad n d : in_int32 n = true -> in_int32 d = true -> bad_pair n d -> mk n d = UB.
Proof.
  intros Hn Hd HB. pose proof (proj1 (in32_iff _) Hn) as Bn. pose proof (proj1 (in32_iff _) Hd) as Bd. unfold int32_min, int32_max in *.
  assert (Hd0 : d <> 0). { intros ->. destruct HB as [[H _]|[(_ & H & _)|(_ & H & _)]]; [lia|discriminate..]. }
  unfold mk. destruct (Z.eqb_spec d 0); [contradiction|].
  destruct (Z.eq_dec d (-1)) as [Ed|Ed].
  { assert (n = -2147483648) by (destruct HB as [[H _]|[(H & _)|(H & _)]]; change (- 2 ^ 31) with (-2147483648) in H; lia). subst. reflexivity. }
  destruct (Z.eq_dec n (-1)) as [En|En].
  { assert (d = -2147483648) by (destruct HB as [[H _]|[(H & _)|(H & _)]]; change (- 2 ^ 31) with (-2147483648) in H; lia). subst. reflexivity. }
  destruct (euclid_total (Z.abs d) ltac:(lia) (Z.abs n) ltac:(lia)) as [k HE].
  rewrite (gcd_value I32 n d k Hn Hd ltac:(lia) ltac:(lia) Hd0 HE). cbn [bind].
  change (2 ^ 31) with 2147483648 in HB.
  assert (U : forall z, z = -2147483648 -> idiv I32 z (-1) = UB) by (intros z ->; reflexivity).
  destruct HB as [[H1 H2]|[(H1 & H2 & H3)|(H1 & H2 & H3 & k' & H4 & H5)]].
  - assert (G1 : Z.gcd n d = 1) by (rewrite H1, <- Z.gcd_opp_r; exact (odd_gcd n 31 ltac:(lia) H2)).
    assert (On : n <> -2147483648) by (intros ->; discriminate). assert (n <> 0) by (intros ->; discriminate).
    rewrite G1, Z.mul_1_r. assert (S1 : (if Nat.even k then Z.sgn n else Z.sgn d) = 1 \/ (if Nat.even k then Z.sgn n else Z.sgn d) = -1) by (destruct (Nat.even k); lia).
    destruct S1 as [-> | ->].
    + unfold idiv. cbn [Z.eqb]. rewrite !Z.quot_1_r, !chk_ok by assumption. cbn [bind]. destruct (Z.ltb_spec d 0); [|lia].
      rewrite chk32_ok by (apply in32_iff; unfold int32_min, int32_max; lia). cbn [bind]. unfold iabs. rewrite chk32_out by lia. reflexivity.
    + rewrite (U d H1). unfold idiv. cbn [Z.eqb]. change (-1) with (- (1)). rewrite Z.quot_opp_r, Z.quot_1_r by lia. rewrite chk_ok by (rewrite inr_iff; cbn; unfold int32_min, int32_max; lia). reflexivity.
  - assert (G1 : Z.gcd n d = 1) by (rewrite H1, Z.gcd_comm, <- Z.gcd_opp_r; exact (odd_gcd d 31 ltac:(lia) H2)).
    rewrite G1, Z.mul_1_r. replace (if Nat.even k then Z.sgn n else Z.sgn d) with (-1) by (destruct (Nat.even k); lia). now rewrite (U n H1).
  - assert (G1 : Z.gcd n d = 1) by (rewrite H1, Z.gcd_comm, <- Z.gcd_opp_r; exact (odd_gcd d 31 ltac:(lia) H2)).
    assert (k = k'). { apply (euclid_fun _ _ _ HE). rewrite H1, (Z.abs_eq d) by lia. exact H4. }
    subst k'. rewrite H5, G1, Z.mul_1_r. replace (Z.sgn n) with (-1) by lia. now rewrite (U n H1).
Qed.
Lemma bad_dec n d : bad_pair n d \/ ~ bad_pair n d.
Proof.
  unfold bad_pair. destruct (Z.eq_dec d (- 2 ^ 31)) as [E1|E1], (Z.eq_dec n (- 2 ^ 31)) as [E2|E2], (Z.odd n) eqn:On, (Z.odd d) eqn:Od, (Z_lt_dec d 0) as [L|L];
    try (left; now auto); try (right; intros [[? ?]|[(? & ? & ?)|(? & ? & ? & ?)]]; congruence); try (right; intros [[? ?]|[(? & ? & ?)|(? & ? & ? & ?)]]; lia).
  all: destruct (euclid_total d ltac:(lia) (2 ^ 31) ltac:(lia)) as [k Hk]; destruct (Nat.even k) eqn:Ek.
  all: try (left; right; right; split; [assumption|]; split; [reflexivity|]; split; [|now exists k]; destruct (Z.eq_dec d 0) as [->|]; [discriminate|lia]).
  all: right; intros [[? ?]|[(? & ? & ?)|(? & ? & ? & k' & Hk' & Ek')]]; try congruence; try lia; rewrite (euclid_fun _ _ _ Hk _ Hk') in Ek; congruence.
Qed.
(** runs Euclid's algorithm on literals *)
Ltac eu := match goal with |- euclid ?a ?b ?k => let a' := eval vm_compute in a in let b' := eval vm_compute in b in change (euclid a' b' k) end;
  first [apply euclid_0; lia | apply euclid_S; [lia|lia|eu]].
