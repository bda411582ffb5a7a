From Coq Require Import QArith Lqa.
From Verif Require Import Base NumModel NumSpec NumProofs FracModel FracSpec.
Local Open Scope Z_scope.

Lemma in32_iff z : in_int32 z = true <-> int32_min <= z <= int32_max.
Proof. unfold in_int32. lia. Qed.
Lemma chk32_inv z v : chk32 z = Ok v -> v = z /\ in_int32 z = true.
Proof. unfold chk32. destruct (in_int32 z); [|discriminate]. intros H; injection H as <-. auto. Qed.
Lemma chk32_ok z : in_int32 z = true -> chk32 z = Ok z.
Proof. unfold chk32. now intros ->. Qed.
Lemma inr32 z : inr I32 z = in_int32 z.
Proof. reflexivity. Qed.
Lemma idiv_inv a b v : idiv I32 a b = Ok v -> b <> 0 /\ v = Z.quot a b /\ in_int32 v = true.
Proof.
  unfold idiv. destruct (Z.eqb_spec b 0); [discriminate|]. intros H. apply chk_inv in H.
  destruct H as [-> H]. auto.
Qed.

Lemma qdiv_eq (a b c d : Z) : b <> 0 -> d <> 0 ->
  (inject_Z a / inject_Z b == inject_Z c / inject_Z d)%Q <-> a * d = c * b.
Proof.
  intros Hb Hd.
  assert (Hb' : ~ (inject_Z b == 0)%Q) by (intros E; unfold Qeq in E; cbn in E; lia).
  assert (Hd' : ~ (inject_Z d == 0)%Q) by (intros E; unfold Qeq in E; cbn in E; lia).
  split; intros H.
  - assert (E : (inject_Z a * inject_Z d == inject_Z c * inject_Z b)%Q).
    { transitivity (inject_Z a / inject_Z b * (inject_Z b * inject_Z d))%Q; [field; repeat split; assumption|].
      rewrite H. field; repeat split; assumption. }
    rewrite <- !inject_Z_mult in E. exact (proj1 (inject_Z_injective _ _) E).
  - assert (E : (inject_Z a * inject_Z d == inject_Z c * inject_Z b)%Q).
    { rewrite <- !inject_Z_mult, H. reflexivity. }
    transitivity (inject_Z a * inject_Z d / (inject_Z b * inject_Z d))%Q; [field; repeat split; assumption|].
    rewrite E. field; repeat split; assumption.
Qed.

Lemma gcd_unique_quot n d g : is_gcd g n d -> d <> 0 ->
  g <> 0 /\ n = g * Z.quot n g /\ d = g * Z.quot d g /\ Z.gcd (Z.quot n g) (Z.quot d g) = 1.
Proof.
  intros HG Hd. pose proof (is_gcd_abs _ _ _ HG) as HA.
  destruct HG as (H1 & H2 & _).
  assert (Hg : g <> 0) by (intros ->; destruct H2 as [k ->]; lia).
  destruct H1 as [x ->]. destruct H2 as [y ->].
  rewrite !Z.quot_mul by assumption.
  split; [assumption|]. split; [ring|]. split; [ring|].
  rewrite Z.gcd_mul_mono_r in HA. pose proof (Z.gcd_nonneg x y). nia.
Qed.

Lemma mk_ok n d f : in_int32 n = true -> in_int32 d = true -> mk n d = Ok f ->
  d <> 0 /\ canonical f /\ num f * d = n * den f.
Proof.
  intros Hn Hd. unfold mk. destruct (Z.eqb_spec d 0) as [|Hd0]; [discriminate|].
  intros H. apply bind_ok in H. destruct H as (g & Eg & H).
  assert (HG : is_gcd g n d).
  { assert (N1 : ~ (n = imin I32 /\ d = -1)) by (intros [-> ->]; vm_compute in Eg; discriminate).
    assert (N2 : ~ (n = -1 /\ d = imin I32)) by (intros [-> ->]; vm_compute in Eg; discriminate).
    destruct (gcd_spec I32 n d Hn Hd N1 N2) as (g' & E' & _ & HG & _). congruence. }
  destruct (gcd_unique_quot n d g HG Hd0) as (Hg & En & Ed & HC).
  apply bind_ok in H. destruct H as (n' & E1 & H). apply idiv_inv in E1. destruct E1 as (_ & -> & R1).
  apply bind_ok in H. destruct H as (d' & E2 & H). apply idiv_inv in E2. destruct E2 as (_ & -> & R2).
  set (x := Z.quot n g) in *. set (y := Z.quot d g) in *.
  apply bind_ok in H. destruct H as (n2 & E3 & H).
  apply bind_ok in H. destruct H as (d2 & E4 & H). injection H as <-.
  unfold iabs in E4. apply chk32_inv in E4. destruct E4 as [-> R4].
  split; [assumption|]. unfold canonical. cbn [num den].
  assert (y <> 0) by (intros E; rewrite E in Ed; lia).
  destruct (Z.ltb_spec y 0).
  - apply chk32_inv in E3. destruct E3 as [-> R3]. replace (x * -1) with (- x) in * by lia.
    rewrite Z.gcd_opp_l, Z.gcd_abs_r. repeat split; try assumption; try lia; nia.
  - injection E3 as <-. rewrite Z.gcd_abs_r. repeat split; try assumption; try lia; nia.
Qed.

Lemma mk_zero n : mk n 0 = Err.
Proof. reflexivity. Qed.

Lemma mk_total n d : int32_min < n <= int32_max -> int32_min < d <= int32_max -> d <> 0 ->
  exists f, mk n d = Ok f.
Proof.
  intros Hn Hd Hd0. unfold mk. destruct (Z.eqb_spec d 0); [contradiction|].
  destruct (gcd_spec I32 n d) as (g & -> & Rg & HG & _); try (rewrite inr_iff; cbn; lia); try (cbn; lia).
  cbn [bind]. destruct (gcd_unique_quot n d g HG Hd0) as (Hg & En & Ed & HC).
  pose proof (quot_bound n g Hg). pose proof (quot_bound d g Hg).
  unfold int32_min, int32_max in *.
  unfold idiv. destruct (Z.eqb_spec g 0); [contradiction|].
  rewrite !chk_ok by (rewrite inr_iff; cbn; unfold int32_min, int32_max; lia). cbn [bind].
  assert (R : forall z, -2147483648 < z <= 2147483647 -> chk32 z = Ok z).
  { intros. apply chk32_ok, in32_iff. unfold int32_min, int32_max. lia. }
  unfold iabs. destruct (Z.ltb_spec (Z.quot d g) 0).
  - rewrite R by lia. cbn [bind]. rewrite R by lia. cbn [bind]. eauto.
  - cbn [bind]. rewrite R by lia. cbn [bind]. eauto.
Qed.

Lemma fval_mk n d f : d <> 0 -> canonical f -> num f * d = n * den f ->
  (fval f == inject_Z n / inject_Z d)%Q.
Proof. intros Hd (H1 & _) E. unfold fval. apply qdiv_eq; lia. Qed.

Lemma q_of_den f : canonical f -> ~ (inject_Z (den f) == 0)%Q.
Proof. intros (H1 & _). intros E. unfold Qeq in E; cbn in E; lia. Qed.
Lemma q_nz z : z <> 0 -> ~ (inject_Z z == 0)%Q.
Proof. intros H E. unfold Qeq in E; cbn in E; lia. Qed.

Lemma of_int_ok n f : in_int32 n = true -> of_int n = Ok f -> canonical f /\ (fval f == inject_Z n)%Q.
Proof.
  intros Hn H. destruct (mk_ok n 1 f Hn eq_refl H) as (D1 & D2 & D3). split; [assumption|].
  rewrite (fval_mk n 1 f) by (auto; lia). change (inject_Z 1) with 1%Q. field.
Qed.
Lemma of_int_total n : in_int32 n = true -> of_int n = Ok (Frac n 1).
Proof.
  intros Hn. unfold of_int, mk. cbn [Z.eqb].
  assert (E : gcd I32 n 1 = Ok 1).
  { destruct (gcd_spec I32 n 1) as (g & E & _ & HG & _); try assumption; try reflexivity; try (cbn; lia).
    { cbn. unfold int32_min. lia. }
    unfold gcd in *. cbn [Z.eqb negb] in *.
    change (gcd_loop 65 I32 n 1) with
      (a0 <- imod I32 n 1 ;; if a0 =? 0 then Ok (a0, 1)
       else b <- imod I32 1 a0 ;; if b =? 0 then Ok (a0, b) else gcd_loop 64 I32 a0 b) in *.
    rewrite imod_ok in * by (auto; lia). rewrite Z.rem_1_r. reflexivity. }
  rewrite E. cbn [bind]. unfold idiv. cbn [Z.eqb]. rewrite Z.quot_1_r.
  rewrite chk_ok by assumption. reflexivity.
Qed.

Ltac inv_bind H :=
  let x := fresh "x" in let E := fresh "E" in
  apply bind_ok in H; destruct H as (x & E & H).

Lemma add_ok a b f : canonical a -> canonical b -> add a b = Ok f ->
  canonical f /\ (fval f == fval a + fval b)%Q.
Proof.
  intros Ca Cb H. unfold add in H. inv_bind H. inv_bind H. inv_bind H. inv_bind H.
  repeat match goal with E : chk32 _ = Ok _ |- _ => apply chk32_inv in E; destruct E as [-> ?] end.
  apply mk_ok in H; try assumption. destruct H as (D1 & D2 & D3). split; [assumption|].
  rewrite (fval_mk _ _ f D1 D2 D3). unfold fval. rewrite !inject_Z_plus, !inject_Z_mult.
  field. split; now apply q_of_den.
Qed.
Lemma sub_ok a b f : canonical a -> canonical b -> sub a b = Ok f ->
  canonical f /\ (fval f == fval a - fval b)%Q.
Proof.
  intros Ca Cb H. unfold sub in H. inv_bind H. inv_bind H. inv_bind H. inv_bind H.
  repeat match goal with E : chk32 _ = Ok _ |- _ => apply chk32_inv in E; destruct E as [-> ?] end.
  apply mk_ok in H; try assumption. destruct H as (D1 & D2 & D3). split; [assumption|].
  rewrite (fval_mk _ _ f D1 D2 D3). unfold fval. unfold Z.sub. rewrite !inject_Z_plus, !inject_Z_opp, !inject_Z_mult.
  field. split; now apply q_of_den.
Qed.
Lemma mul_ok a b f : canonical a -> canonical b -> mul a b = Ok f ->
  canonical f /\ (fval f == fval a * fval b)%Q.
Proof.
  intros Ca Cb H. unfold mul in H. inv_bind H. inv_bind H.
  repeat match goal with E : chk32 _ = Ok _ |- _ => apply chk32_inv in E; destruct E as [-> ?] end.
  apply mk_ok in H; try assumption. destruct H as (D1 & D2 & D3). split; [assumption|].
  rewrite (fval_mk _ _ f D1 D2 D3). unfold fval. rewrite !inject_Z_mult.
  field. split; now apply q_of_den.
Qed.
Lemma div_ok a b f : canonical a -> canonical b -> div a b = Ok f ->
  canonical f /\ num b <> 0 /\ (fval f == fval a / fval b)%Q.
Proof.
  intros Ca Cb H. unfold div in H. inv_bind H. inv_bind H.
  repeat match goal with E : chk32 _ = Ok _ |- _ => apply chk32_inv in E; destruct E as [-> ?] end.
  apply mk_ok in H; try assumption. destruct H as (D1 & D2 & D3). split; [assumption|].
  assert (num b <> 0) by (intros E; rewrite E, Z.mul_0_r in D1; lia). split; [assumption|].
  rewrite (fval_mk _ _ f D1 D2 D3). unfold fval. rewrite !inject_Z_mult.
  field. repeat split; auto using q_of_den, q_nz.
Qed.
Lemma div_by_zero a b : canonical a -> canonical b -> (fval b == 0)%Q -> div a b = Err.
Proof.
  intros Ca Cb H.
  assert (E : num b = 0).
  { unfold fval in H. change 0%Q with (inject_Z 0 / inject_Z 1)%Q in H.
    destruct Cb as (Hb & _). rewrite qdiv_eq in H by lia. lia. }
  assert (Eb : den b = 1).
  { destruct Cb as (Hb & HG & _). rewrite E, Z.gcd_0_l in HG. lia. }
  destruct Ca as (_ & _ & Ra & _).
  unfold div. rewrite E, Eb, Z.mul_1_r, Z.mul_0_r, chk32_ok by assumption. reflexivity.
Qed.
Lemma div_assign_ok a b f : canonical a -> canonical b -> div_assign a b = Ok f ->
  canonical f /\ num b <> 0 /\ Z.quot (den a) (den b) <> 0 /\
  (fval f == inject_Z (Z.quot (num a) (num b)) / inject_Z (Z.quot (den a) (den b)))%Q.
Proof.
  intros Ca Cb H. unfold div_assign in H. inv_bind H. inv_bind H.
  apply idiv_inv in E, E0. destruct E as (N1 & -> & R1), E0 as (N2 & -> & R2).
  apply mk_ok in H; try assumption. destruct H as (D1 & D2 & D3). split; [assumption|].
  split; [assumption|]. split; [assumption|]. now apply fval_mk.
Qed.

(** totality when no intermediate result leaves the (symmetric) range *)
Lemma fits_chk z : fits z -> chk32 z = Ok z.
Proof. unfold fits. intros H. apply chk32_ok, in32_iff. lia. Qed.
Lemma add_total a b : canonical a -> canonical b ->
  fits (num a * den b) -> fits (den a * num b) -> fits (num a * den b + den a * num b) ->
  fits (den a * den b) -> exists f, add a b = Ok f.
Proof.
  intros (Ha & _) (Hb & _) F1 F2 F3 F4. unfold add.
  rewrite !fits_chk by assumption. cbn [bind]. rewrite !fits_chk by assumption. cbn [bind].
  apply mk_total; [assumption|assumption|nia].
Qed.
Lemma sub_total a b : canonical a -> canonical b ->
  fits (num a * den b) -> fits (den a * num b) -> fits (num a * den b - den a * num b) ->
  fits (den a * den b) -> exists f, sub a b = Ok f.
Proof.
  intros (Ha & _) (Hb & _) F1 F2 F3 F4. unfold sub.
  rewrite !fits_chk by assumption. cbn [bind]. rewrite !fits_chk by assumption. cbn [bind].
  apply mk_total; [assumption|assumption|nia].
Qed.
Lemma mul_total a b : canonical a -> canonical b ->
  fits (num a * num b) -> fits (den a * den b) -> exists f, mul a b = Ok f.
Proof.
  intros (Ha & _) (Hb & _) F1 F2. unfold mul. rewrite !fits_chk by assumption. cbn [bind].
  apply mk_total; [assumption|assumption|nia].
Qed.
Lemma div_total a b : canonical a -> canonical b -> num b <> 0 ->
  fits (num a * den b) -> fits (den a * num b) -> exists f, div a b = Ok f.
Proof.
  intros (Ha & _) (Hb & _) Hn F1 F2. unfold div. rewrite !fits_chk by assumption. cbn [bind].
  apply mk_total; [assumption|assumption|nia].
Qed.

(** ** expressions *)
Lemma feval_canonical e : forall f, feval e = Ok f -> canonical f.
Proof.
  induction e; intros f H; cbn [feval] in H.
  - apply (of_int_ok 0 f); [reflexivity|exact H].
  - inv_bind H. apply chk32_inv in E. destruct E as [-> E]. now apply (of_int_ok n f).
  - inv_bind H. inv_bind H. apply chk32_inv in E, E0. destruct E as [-> E], E0 as [-> E0].
    now apply mk_ok in H.
  - inv_bind H. inv_bind H. eapply (add_ok x x0); eauto.
  - inv_bind H. inv_bind H. eapply (sub_ok x x0); eauto.
  - inv_bind H. inv_bind H. eapply (mul_ok x x0); eauto.
  - inv_bind H. inv_bind H. eapply (div_ok x x0); eauto.
  - inv_bind H. inv_bind H. eapply (div_assign_ok x x0); eauto.
  - inv_bind H. inv_bind H. apply chk32_inv in E. destruct E as [-> E]. unfold int_add in H. inv_bind H.
    apply of_int_ok in E1; [|assumption]. eapply (add_ok x0 x); [eauto|tauto|eauto].
  - inv_bind H. inv_bind H. apply chk32_inv in E. destruct E as [-> E]. unfold int_sub in H. inv_bind H.
    apply of_int_ok in E1; [|assumption]. eapply (sub_ok x0 x); [eauto|tauto|eauto].
  - inv_bind H. inv_bind H. apply chk32_inv in E. destruct E as [-> E]. unfold int_mul in H. inv_bind H.
    apply of_int_ok in E1; [|assumption]. eapply (mul_ok x0 x); [eauto|tauto|eauto].
  - inv_bind H. inv_bind H. apply chk32_inv in E. destruct E as [-> E]. unfold int_div in H. inv_bind H.
    apply of_int_ok in E1; [|assumption]. eapply (div_ok x0 x); [eauto|tauto|eauto].
Qed.

Lemma feval_correct e : regular e -> forall f, feval e = Ok f ->
  exists q, qeval e = Some q /\ (fval f == q)%Q.
Proof.
  induction e; cbn [regular]; intros R f H; cbn [feval qeval] in *; try contradiction.
  - exists 0%Q. split; [reflexivity|]. apply (of_int_ok 0 f); [reflexivity|exact H].
  - inv_bind H. apply chk32_inv in E. destruct E as [-> E]. eexists; split; [reflexivity|].
    now apply (of_int_ok n f).
  - inv_bind H. inv_bind H. apply chk32_inv in E, E0. destruct E as [-> E], E0 as [-> E0].
    apply mk_ok in H; try assumption. destruct H as (H1 & H2 & H3).
    destruct (Qeq_bool (inject_Z d) 0) eqn:Eq.
    { apply Qeq_bool_iff in Eq. exfalso. now apply (q_nz d H1). }
    eexists; split; [reflexivity|]. now apply fval_mk.
  - inv_bind H. inv_bind H. destruct R as [R1 R2].
    destruct (IHe1 R1 _ E) as (q1 & -> & Q1). destruct (IHe2 R2 _ E0) as (q2 & -> & Q2).
    eexists; split; [reflexivity|]. rewrite <- Q1, <- Q2. eapply (add_ok x x0); eauto using feval_canonical.
  - inv_bind H. inv_bind H. destruct R as [R1 R2].
    destruct (IHe1 R1 _ E) as (q1 & -> & Q1). destruct (IHe2 R2 _ E0) as (q2 & -> & Q2).
    eexists; split; [reflexivity|]. rewrite <- Q1, <- Q2. eapply (sub_ok x x0); eauto using feval_canonical.
  - inv_bind H. inv_bind H. destruct R as [R1 R2].
    destruct (IHe1 R1 _ E) as (q1 & -> & Q1). destruct (IHe2 R2 _ E0) as (q2 & -> & Q2).
    eexists; split; [reflexivity|]. rewrite <- Q1, <- Q2. eapply (mul_ok x x0); eauto using feval_canonical.
  - inv_bind H. inv_bind H. destruct R as [R1 R2].
    destruct (IHe1 R1 _ E) as (q1 & -> & Q1). destruct (IHe2 R2 _ E0) as (q2 & -> & Q2).
    destruct (div_ok x x0 f) as (_ & Hnz & HV); eauto using feval_canonical.
    destruct (Qeq_bool q2 0) eqn:Eq.
    { apply Qeq_bool_iff in Eq. exfalso. rewrite Eq in Q2. unfold fval in Q2.
      pose proof (feval_canonical _ _ E0) as (C0 & _).
      change 0%Q with (inject_Z 0 / inject_Z 1)%Q in Q2. rewrite qdiv_eq in Q2 by lia. lia. }
    eexists; split; [reflexivity|]. rewrite <- Q1, <- Q2. exact HV.
  - inv_bind H. inv_bind H. apply chk32_inv in E. destruct E as [-> E].
    destruct (IHe R _ E0) as (q1 & -> & Q1). unfold int_add in H. inv_bind H.
    apply of_int_ok in E1; [|assumption]. destruct E1 as [C1 V1]. cbn [option_map].
    eexists; split; [reflexivity|]. rewrite <- Q1, <- V1.
    destruct (add_ok x0 x f) as (_ & ->); eauto using feval_canonical. ring.
  - inv_bind H. inv_bind H. apply chk32_inv in E. destruct E as [-> E].
    destruct (IHe R _ E0) as (q1 & -> & Q1). unfold int_mul in H. inv_bind H.
    apply of_int_ok in E1; [|assumption]. destruct E1 as [C1 V1]. cbn [option_map].
    eexists; split; [reflexivity|]. rewrite <- Q1, <- V1.
    destruct (mul_ok x0 x f) as (_ & ->); eauto using feval_canonical. ring.
Qed.

(** ** comparisons *)
Lemma fval_inj a b : canonical a -> canonical b -> (fval a == fval b)%Q <-> a = b.
Proof.
  intros (A1 & A2 & _) (B1 & B2 & _). unfold fval. rewrite qdiv_eq by lia. split.
  - intros E. assert (den a = den b).
    { apply Z.divide_antisym_nonneg; [lia|lia| |].
      - apply (Z.gauss _ (num a)); [|rewrite Z.gcd_comm; exact A2]. exists (num b). exact E.
      - apply (Z.gauss _ (num b)); [|rewrite Z.gcd_comm; exact B2]. exists (num a). lia. }
    destruct a as [n d], b as [n' d']. cbn in *. subst d'. f_equal. nia.
  - intros ->. reflexivity.
Qed.
Lemma eqF_ok a b : canonical a -> canonical b ->
  (eqF a b = true <-> (fval a == fval b)%Q) /\ neF a b = negb (eqF a b).
Proof.
  intros Ca Cb. split; [|unfold neF, eqF; now rewrite negb_andb].
  rewrite fval_inj by assumption. unfold eqF. destruct a as [n d], b as [n' d']. cbn.
  rewrite andb_true_iff, !Z.eqb_eq. split; [intros [-> ->]; reflexivity|intros H; injection H; auto].
Qed.

Lemma fval_lt a b : canonical a -> canonical b ->
  (fval a < fval b)%Q <-> num a * den b < den a * num b.
Proof.
  intros (A1 & _) (B1 & _). unfold fval.
  assert (PA : (0 < inject_Z (den a))%Q) by (change 0%Q with (inject_Z 0); rewrite <- Zlt_Qlt; lia).
  assert (PB : (0 < inject_Z (den b))%Q) by (change 0%Q with (inject_Z 0); rewrite <- Zlt_Qlt; lia).
  rewrite Zlt_Qlt, !inject_Z_mult.
  assert (PAB : (0 < inject_Z (den a) * inject_Z (den b))%Q) by (apply Qmult_lt_0_compat; assumption).
  rewrite <- (Qmult_lt_r _ _ _ PAB).
  assert (E1 : (inject_Z (num a) / inject_Z (den a) * (inject_Z (den a) * inject_Z (den b))
    == inject_Z (num a) * inject_Z (den b))%Q) by (field; intros Hc; lra).
  assert (E2 : (inject_Z (num b) / inject_Z (den b) * (inject_Z (den a) * inject_Z (den b))
    == inject_Z (den a) * inject_Z (num b))%Q) by (field; intros Hc; lra).
  rewrite E1, E2. reflexivity.
Qed.

Lemma cmp_ok op a b r : cmp op a b = Ok r -> r = op (num a * den b) (den a * num b).
Proof.
  unfold cmp. intros H. inv_bind H. inv_bind H. apply chk32_inv in E, E0.
  destruct E as [-> _], E0 as [-> _]. congruence.
Qed.
Lemma order_ok a b r : canonical a -> canonical b ->
  (ltF a b = Ok r -> (r = true <-> (fval a < fval b)%Q)) /\
  (leF a b = Ok r -> (r = true <-> (fval a <= fval b)%Q)) /\
  (gtF a b = Ok r -> (r = true <-> (fval b < fval a)%Q)) /\
  (geF a b = Ok r -> (r = true <-> (fval b <= fval a)%Q)).
Proof.
  intros Ca Cb. pose proof (fval_lt a b Ca Cb) as L1. pose proof (fval_lt b a Cb Ca) as L2.
  repeat split; intros H'; try (apply cmp_ok in H; subst r).
  - apply L1. now apply Z.ltb_lt in H'.
  - apply Z.ltb_lt. now apply L1.
  - apply Qnot_lt_le. rewrite L2. apply Z.leb_le in H'. lia.
  - apply Z.leb_le. apply Qle_not_lt in H'. rewrite L2 in H'. lia.
  - apply L2. apply Z.gtb_lt in H'. lia.
  - apply Z.gtb_lt. rewrite L2 in H'. lia.
  - apply Qnot_lt_le. rewrite L1. rewrite Z.geb_leb in H'. apply Z.leb_le in H'. lia.
  - rewrite Z.geb_leb. apply Z.leb_le. apply Qle_not_lt in H'. rewrite L1 in H'. lia.
Qed.
Lemma cmp_total op a b : in_int32 (num a * den b) = true -> in_int32 (den a * num b) = true ->
  exists r, cmp op a b = Ok r.
Proof. intros H1 H2. unfold cmp. rewrite !chk32_ok by assumption. cbn [bind]. eauto. Qed.
