From Coq Require Import Znumtheory Zpow_facts.
From Verif Require Import Base NumSpec IntTyModel IntTySpec IntTyProofs.
From Verif Require NumProofs.
Local Open Scope Z_scope.

(** ** more about gcd *)
Lemma gcd_min_pair_r t1 t2 a b k : inty t1 a -> inty t2 b ->
  min_pair (common t1 t2) b a -> gcd (S k) t1 t2 a b = UB.
Proof.
  intros Ha Hb (Sg & -> & ->). set (c := common t1 t2) in *.
  assert (IM : inty c (-1)) by (now apply common_signed).
  destruct (modulus c) as [_ Hh].
  assert (IT : inty c (tmin c)) by (rewrite inty_iff, tmin_eq, tmax_eq, Sg; lia).
  assert (T0 : tmin c <> 0) by (rewrite tmin_eq, Sg; lia).
  unfold gcd. destruct (Z.eqb_spec (tmin c) 0); [contradiction|]. cbn [negb gcd_loop].
  unfold modassign at 1, opassign. fold c.
  rewrite (conv_id c _ IT), (conv_id c _ IM).
  assert (Q : Z.quot (-1) (tmin c) = 0 /\ Z.rem (-1) (tmin c) = -1).
  { split; [apply Z.quot_small_iff|apply Z.rem_small_iff]; try assumption; rewrite tmin_eq, Sg; lia. }
  unfold amod at 1. destruct (Z.eqb_spec (tmin c) 0); [contradiction|].
  rewrite (proj1 Q), (proj2 Q). rewrite arith_ok by apply inty_0. cbn [bind].
  rewrite (conv_id t1 (-1)) by assumption. cbn [Z.eqb].
  unfold modassign, opassign. rewrite (common_sym t2 t1). fold c.
  rewrite (conv_id c _ IT), (conv_id c _ IM). unfold amod. cbn [Z.eqb].
  rewrite arith_ub; [reflexivity|assumption|].
  change (-1) with (- (1)). rewrite Z.quot_opp_r, Z.quot_1_r by lia.
  rewrite inty_iff, tmin_eq, tmax_eq, Sg. lia.
Qed.

Lemma gcd_loop_mono t1 t2 : forall n a b r, gcd_loop n t1 t2 a b = Ok r ->
  forall m, (n <= m)%nat -> gcd_loop m t1 t2 a b = Ok r.
Proof.
  induction n as [|n IH]; intros a b r E m Hm; [discriminate|].
  destruct m as [|m]; [lia|]. cbn [gcd_loop] in *.
  destruct (modassign t1 t2 a b) as [x| | |]; try discriminate. cbn [bind] in *.
  destruct (x =? 0); [assumption|].
  destruct (modassign t2 t1 b x) as [y| | |]; try discriminate. cbn [bind] in *.
  destruct (y =? 0); [assumption|]. apply IH; [assumption|lia].
Qed.
Lemma gcd_converges t1 t2 a b n g : gcd n t1 t2 a b = Ok g -> converges (fun k => gcd k t1 t2 a b) (Ok g).
Proof.
  intros E. exists n. intros k Hk. unfold gcd in *. destruct (negb (b =? 0)); [|assumption].
  destruct (gcd_loop n t1 t2 a b) as [p| | |] eqn:EL; try discriminate.
  now rewrite (gcd_loop_mono t1 t2 n a b p EL k Hk).
Qed.

Lemma conv_is t x y : inty t y -> (2 ^ bits t | x - y) -> conv t x = y.
Proof. intros. symmetry. apply residue_unique. now split. Qed.

(** ** a negative operand and a wider unsigned type: the loop can run for ever *)
Section Diverge.
Variables t1 t2 : ty.
Hypothesis Sg1 : sgn t1 = true.
Hypothesis Sg2 : sgn t2 = false.
Hypothesis W2 : 32 <= bits t2.
Hypothesis W12 : bits t1 < bits t2.
Variables (a e : Z).
Hypothesis Ha : inty t1 a.
Hypothesis Na : a < 0.
Hypothesis He : bits t1 <= e < bits t2.

Lemma div_common : common t1 t2 = t2.
Proof. clear - Sg1 Sg2 W2 W12. destruct t1 as [[] []], t2 as [[] []]; cbn in *; try discriminate; try lia; reflexivity. Qed.
Lemma div_facts : 0 <= e /\ 2 * 2 ^ e <= 2 ^ bits t2 /\ - 2 ^ e < a /\ (2 ^ bits t1 | 2 ^ e) /\ (2 ^ e | 2 ^ bits t2).
Proof.
  assert (0 < bits t1) by (pose proof (bits_cases t1); lia).
  split; [lia|]. split; [rewrite <- Z.pow_succ_r by lia; apply Z.pow_le_mono_r; lia|].
  assert (2 ^ bits t1 <= 2 ^ e) by (apply Z.pow_le_mono_r; lia).
  split.
  { rewrite inty_iff, tmin_eq, Sg1 in Ha. destruct (modulus t1). lia. }
  split; [exists (2 ^ (e - bits t1))|exists (2 ^ (bits t2 - e))]; rewrite <- Z.pow_add_r by lia; f_equal; lia.
Qed.
Lemma div_step : modassign t1 t2 a (2 ^ e) = Ok a /\ modassign t2 t1 (2 ^ e) a = Ok (2 ^ e).
Proof.
  destruct div_facts as (E0 & F1 & F2 & F3 & F4).
  assert (P : 0 < 2 ^ e) by (apply Z.pow_pos_nonneg; lia).
  assert (IB : inty t2 (2 ^ e)) by (rewrite inty_iff; unfold tmin, tmax; rewrite Sg2; lia).
  assert (CA : conv t2 a = a + 2 ^ bits t2).
  { apply conv_is; [rewrite inty_iff; unfold tmin, tmax; rewrite Sg2; lia|].
    exists (-1). lia. }
  assert (IA : inty t2 (a + 2 ^ bits t2)) by (rewrite <- CA; apply conv_inty).
  assert (NM : forall x y, ~ min_pair t2 x y) by (intros x y (X & _); congruence).
  unfold modassign, opassign. rewrite (common_sym t2 t1), div_common. rewrite CA, (conv_id t2 _ IB).
  rewrite (amod_ok t2 (a + 2 ^ bits t2) (2 ^ e)), (amod_ok t2 (2 ^ e) (a + 2 ^ bits t2)); auto; try lia.
  cbn [bind]. split; f_equal.
  - apply conv_is; [assumption|].
    rewrite Z.rem_mod_nonneg by lia.
    eapply Z.divide_trans; [exact F3|].
    assert (D : (2 ^ e | (a + 2 ^ bits t2) mod 2 ^ e - (a + 2 ^ bits t2))).
    { exists (- ((a + 2 ^ bits t2) / 2 ^ e)). pose proof (Z.div_mod (a + 2 ^ bits t2) (2 ^ e) ltac:(lia)). lia. }
    replace ((a + 2 ^ bits t2) mod 2 ^ e - a) with ((a + 2 ^ bits t2) mod 2 ^ e - (a + 2 ^ bits t2) + 2 ^ bits t2) by lia.
    now apply Z.divide_add_r.
  - rewrite Z.rem_mod_nonneg by lia. rewrite Z.mod_small by lia. now apply conv_id.
Qed.
Lemma div_pow_pos : 2 ^ e <> 0.
Proof. destruct div_facts as (E0 & _). pose proof (Z.pow_pos_nonneg 2 e). lia. Qed.
Lemma gcd_loop_diverges k : gcd_loop k t1 t2 a (2 ^ e) = Fuel /\ gcd_loop k t2 t1 (2 ^ e) a = Fuel.
Proof.
  pose proof div_pow_pos. destruct div_step as [E1 E2].
  induction k as [|k [IH1 IH2]]; [split; reflexivity|]. split; cbn [gcd_loop].
  - rewrite E1. cbn [bind]. destruct (Z.eqb_spec a 0); [lia|]. rewrite E2. cbn [bind].
    destruct (Z.eqb_spec (2 ^ e) 0); [contradiction|]. assumption.
  - rewrite E2. cbn [bind]. destruct (Z.eqb_spec (2 ^ e) 0); [contradiction|]. rewrite E1. cbn [bind].
    destruct (Z.eqb_spec a 0); [lia|]. assumption.
Qed.
Lemma gcd_diverges : diverges (fun k => gcd k t1 t2 a (2 ^ e)) /\ diverges (fun k => gcd k t2 t1 (2 ^ e) a).
Proof.
  pose proof div_pow_pos. split; intros k; unfold gcd.
  - destruct (Z.eqb_spec (2 ^ e) 0); [contradiction|]. cbn [negb]. now rewrite (proj1 (gcd_loop_diverges k)).
  - destruct (Z.eqb_spec a 0); [lia|]. cbn [negb]. now rewrite (proj2 (gcd_loop_diverges k)).
Qed.
End Diverge.

(** ** lcm *)
Lemma is_gcd_abs_eq g a b : is_gcd g a b -> Z.abs g = Z.gcd a b.
Proof. apply NumProofs.is_gcd_abs. Qed.

Lemma quot_gcd_lcm a b g : Z.abs g = Z.gcd a b -> g <> 0 -> Z.abs (Z.quot (a * b) g) = Z.lcm a b.
Proof.
  intros Hg Hn. rewrite <- Z.quot_abs by assumption. rewrite Z.quot_div_nonneg by lia.
  rewrite Hg. unfold Z.lcm. rewrite Z.abs_mul.
  destruct (Z.gcd_divide_r a b) as [q Hq].
  assert (0 < Z.gcd a b) by (pose proof (Z.gcd_nonneg a b); lia).
  rewrite Hq at 1. rewrite !Z.abs_mul. rewrite (Z.abs_eq (Z.gcd a b)) by lia.
  replace (b / Z.gcd a b) with q by (rewrite Hq at 1; now rewrite Z.div_mul by lia).
  rewrite Z.mul_assoc. rewrite Z.div_mul by lia. reflexivity.
Qed.

Lemma gcd_one t1 t2 a b k : inty t1 a -> inty t2 b ->
  sgn (common t1 t2) = true -> (b = 1 \/ (a = 1 /\ b = tmin (common t1 t2))) -> gcd (S k) t1 t2 a b = Ok 1.
Proof.
  intros Ha Hb Sg Hab. set (c := common t1 t2) in *.
  assert (Ia : inty c a) by (now apply common_signed).
  assert (Ib : inty c b) by (unfold c; rewrite common_sym; apply common_signed; [now rewrite common_sym|assumption]).
  assert (R1 : forall t, conv t 1 = 1) by (intros t; apply conv_id, inty_small; lia).
  unfold gcd. fold c. destruct (modulus c) as [_ Hh].
  assert (Hb0 : b <> 0) by (destruct Hab as [->|[_ ->]]; [lia|rewrite tmin_eq, Sg; lia]).
  destruct (Z.eqb_spec b 0); [contradiction|]. cbn [negb gcd_loop].
  unfold modassign at 1, opassign. fold c. rewrite (conv_id c _ Ia), (conv_id c _ Ib).
  destruct Hab as [->|[-> Eb]].
  - rewrite amod_ok; [|assumption|assumption|lia|intros (_ & _ & X); lia]. cbn [bind].
    rewrite Z.rem_1_r, !conv_0. cbn [Z.eqb bind]. rewrite conv_0, R1. cbn [Z.add].
    rewrite arith_ok by (apply inty_small; lia). cbn [bind]. now rewrite R1.
  - rewrite amod_ok; [|assumption|assumption|lia|intros (_ & X & _); rewrite tmin_eq, Sg in X; lia]. cbn [bind].
    replace (Z.rem 1 b) with 1 by (symmetry; apply Z.rem_small_iff; [assumption|]; rewrite Eb, tmin_eq, Sg; lia).
    rewrite R1. cbn [Z.eqb]. unfold modassign, opassign. rewrite (common_sym t2 t1). fold c.
    rewrite (conv_id c _ Ib), (conv_id c 1) by assumption.
    rewrite amod_ok; [|assumption|assumption|lia|intros (_ & _ & X); lia]. cbn [bind].
    rewrite Z.rem_1_r, !conv_0. cbn [Z.eqb bind]. rewrite R1, conv_0, Z.add_0_r.
    rewrite arith_ok by (apply inty_small; lia). cbn [bind]. now rewrite R1.
Qed.

Lemma odd_unit a b n : 0 <= n -> a * b = - 2 ^ n -> Z.gcd a b = 1 -> Z.abs a = 1 \/ Z.abs b = 1.
Proof.
  intros Hn Hp Hg.
  assert (U : forall x y, x * y = - 2 ^ n -> ~ (2 | x) -> Z.abs x = 1).
  { intros x y Hxy H2.
    assert (RP : rel_prime x (2 ^ n)).
    { apply rel_prime_Zpower_r; [assumption|]. apply rel_prime_sym, prime_rel_prime; [apply prime_2|assumption]. }
    assert (D : (x | 1)).
    { apply (Gauss x (2 ^ n) 1); [|assumption]. exists (- y). lia. }
    apply Z.divide_1_r in D. lia. }
  destruct (Zdivide_dec 2 a) as [Da|Da].
  - right. apply (U b a); [lia|]. intros Db.
    assert (D : (2 | 1)) by (rewrite <- Hg; now apply Z.gcd_greatest).
    apply Z.divide_1_r_nonneg in D; lia.
  - left. now apply (U a b).
Qed.

Section Lcm.
Variables t1 t2 : ty.
Let c := common t1 t2.
Variables a b : Z.
Hypothesis Ha : inty t1 a.
Hypothesis Hb : inty t2 b.
Hypothesis Ca : inty c a.
Hypothesis Cb : inty c b.

Lemma lcm_product_ub k : sgn c = true -> ~ inty c (a * b) -> lcm k t1 t2 a b = UB.
Proof.
  intros Sg N. unfold lcm. fold c. rewrite (conv_id c _ Ca), (conv_id c _ Cb).
  now rewrite arith_ub.
Qed.

Hypothesis N0 : ~ (a = 0 /\ b = 0).
Lemma gcd_nz : Z.gcd a b <> 0.
Proof. intros E. apply Z.gcd_eq_0 in E. tauto. Qed.

Lemma lcm_fits : inty c (a * b) ->
  exists m M, converges (fun k => lcm k t1 t2 a b) (Ok m) /\ residue (ret t1 t2) M m /\
    Z.abs M = Z.lcm a b /\ (0 <= a -> 0 <= b -> 0 <= M) /\ inty c M.
Proof.
  intros Hp.
  assert (NP : forall x y, a * b = x * y -> ~ min_pair c x y).
  { intros x y E (Sg & -> & ->). rewrite inty_iff, tmin_eq, tmax_eq, Sg in Hp.
    rewrite E, tmin_eq, Sg in Hp. destruct (modulus c). lia. }
  destruct (gcd_stable t1 t2 a b Ha Hb) as (g & [n Cg] & G1 & G2 & G3 & G4 & _).
  { now left. } { now left. }
  { fold c. rewrite (conv_id c _ Ca), (conv_id c _ Cb). now apply NP. }
  { fold c. rewrite (conv_id c _ Ca), (conv_id c _ Cb). apply NP. ring. }
  fold c in G2, G3, G4. rewrite (conv_id c _ Ca), (conv_id c _ Cb) in G3, G4.
  apply is_gcd_abs_eq in G3. pose proof gcd_nz as NZ.
  assert (Hg : g <> 0) by lia.
  assert (MP : ~ min_pair c (a * b) g).
  { intros (Sg & Ep & Eg). rewrite tmin_eq, Sg in Ep. unfold half in Ep.
    assert (H1 : Z.gcd a b = 1) by lia.
    destruct (odd_unit a b (bits c - 1)) as [U|U]; [pose proof (bits_cases c); lia|assumption|assumption| |].
    - assert (a = 1 \/ a = -1) as [->| ->] by lia.
      + specialize (Cg (S n) ltac:(lia)). cbv beta in Cg.
        rewrite (gcd_one t1 t2 1 b n) in Cg; try assumption; [injection Cg as <-; lia|].
        right. split; [reflexivity|]. rewrite tmin_eq. fold c. rewrite Sg. unfold half. lia.
      + rewrite inty_iff, tmin_eq, tmax_eq, Sg in Cb. unfold half in *. lia.
    - assert (b = 1 \/ b = -1) as [->| ->] by lia.
      + specialize (Cg (S n) ltac:(lia)). cbv beta in Cg.
        rewrite (gcd_one t1 t2 a 1 n) in Cg; try assumption; [injection Cg as <-; lia|]. now left.
      + rewrite inty_iff, tmin_eq, tmax_eq, Sg in Ca. unfold half in *. lia. }
  exists (conv (ret t1 t2) (Z.quot (a * b) g)), (Z.quot (a * b) g).
  split; [|split; [apply conv_residue|split; [now apply quot_gcd_lcm|]]].
  - exists n. intros k Hk. unfold lcm. fold c. rewrite (conv_id c _ Ca), (conv_id c _ Cb).
    rewrite arith_ok by assumption. cbn [bind]. rewrite (Cg k Hk). cbn [bind].
    rewrite (conv_id c g) by assumption. unfold adiv. destruct (Z.eqb_spec g 0); [contradiction|].
    rewrite arith_ok by (now apply quot_inty). reflexivity.
  - split; [|now apply quot_inty].
    intros Pa Pb. apply Z.quot_pos; [nia|]. specialize (G4 Pa Pb). lia.
Qed.

Lemma lcm_unsigned_wrong : sgn c = false -> ~ inty c (a * b) ->
  exists m, converges (fun k => lcm k t1 t2 a b) (Ok m) /\ ~ is_lcm m a b.
Proof.
  intros Sg Hp.
  assert (NP : forall x y, ~ min_pair c x y) by (intros x y (X & _); congruence).
  destruct (gcd_stable t1 t2 a b Ha Hb) as (g & [n Cg] & G1 & G2 & G3 & G4 & _).
  { now left. } { now left. } { apply NP. } { apply NP. }
  fold c in G2, G3, G4. rewrite (conv_id c _ Ca), (conv_id c _ Cb) in G3, G4.
  pose proof gcd_nz as NZ. pose proof (Z.gcd_nonneg a b) as GN.
  rewrite inty_iff in Hp. unfold tmin, tmax in Hp. rewrite Sg in Hp.
  assert (Ba : 0 <= a < 2 ^ bits c) by (clear - Ca Sg; rewrite inty_iff in Ca; unfold tmin, tmax in Ca; rewrite Sg in Ca; lia).
  assert (Bb : 0 <= b < 2 ^ bits c) by (clear - Cb Sg; rewrite inty_iff in Cb; unfold tmin, tmax in Cb; rewrite Sg in Cb; lia).
  assert (Eg : g = Z.gcd a b) by (apply NumProofs.is_gcd_nonneg; [apply G4; lia|assumption]).
  subst g. set (g := Z.gcd a b) in *.
  set (p := (a * b) mod 2 ^ bits c).
  assert (HM : 0 < 2 ^ bits c) by lia.
  assert (Bp : 0 <= p < 2 ^ bits c) by (apply Z.mod_pos_bound; assumption).
  assert (Ip : inty c p) by (rewrite inty_iff; unfold tmin, tmax; rewrite Sg; lia).
  assert (Hab : 2 ^ bits c <= a * b) by (assert (0 <= a * b) by nia; lia).
  assert (Hpa : p <= a * b - 2 ^ bits c).
  { unfold p. pose proof (Z.div_mod (a * b) (2 ^ bits c) ltac:(lia)).
    assert (1 <= a * b / 2 ^ bits c) by (apply Z.div_le_lower_bound; lia). nia. }
  assert (Iq : inty c (Z.quot p g)) by (apply quot_inty; [assumption|assumption|assumption|apply NP]).
  assert (Er : ret t1 t2 = c).
  { destruct (ret_cases t1 t2) as [[Et Er]|Er]; [|assumption]. rewrite Er. subst t2.
    unfold c in Sg |- *. rewrite common_self in *. destruct t1 as [[] []]; cbn in *; congruence. }
  exists (Z.quot p g). split.
  - exists n. intros k Hk. unfold lcm. fold c. rewrite (conv_id c _ Ca), (conv_id c _ Cb).
    unfold arith at 1. rewrite Sg. fold p. cbn [bind]. rewrite (Cg k Hk). cbn [bind].
    rewrite (conv_id c g) by assumption. unfold adiv. destruct (Z.eqb_spec g 0); [contradiction|].
    rewrite arith_ok by assumption. cbn [bind]. rewrite Er. now rewrite conv_id.
  - intros (L1 & L2 & L3 & L4).
    assert (EL : Z.quot p g = Z.lcm a b).
    { apply Z.divide_antisym_nonneg; [assumption|apply Z.lcm_nonneg| |].
      - apply L4; [apply Z.divide_lcm_l|apply Z.divide_lcm_r].
      - now apply Z.lcm_least. }
    assert (EQ : Z.quot (a * b) g = Z.lcm a b).
    { rewrite <- (quot_gcd_lcm a b g); [|unfold g; lia|assumption].
      rewrite Z.abs_eq; [reflexivity|]. apply Z.quot_pos; lia. }
    rewrite <- EL in EQ. rewrite !Z.quot_div_nonneg in EQ by lia.
    assert (g <= 2 ^ bits c).
    { unfold g. destruct (Z.eq_dec a 0) as [Ea|]; [subst a; lia|].
      pose proof (Z.divide_pos_le (Z.gcd a b) a ltac:(lia) (Z.gcd_divide_l a b)). lia. }
    assert (p / g + 1 <= a * b / g); [|lia].
    rewrite <- Z.div_add by lia. apply Z.div_le_mono; lia.
Qed.
End Lcm.

Lemma lcm_0_0 t1 t2 k : lcm k t1 t2 0 0 = UB.
Proof.
  unfold lcm, gcd. rewrite !conv_0. cbn [Z.mul Z.eqb negb bind]. rewrite !conv_0. cbn [Z.add].
  rewrite !arith_ok by apply inty_0. cbn [bind]. now rewrite !conv_0.
Qed.
