(** Property theorems C21-C24 (Fraction). *)
From Coq Require Import QArith.
From Verif Require Import Base NumModel FracModel FracSpec FracProofs.
Local Open Scope Z_scope.

(** C21: whatever public operations produced it, a Fraction is in lowest terms. *)
Theorem C21_fraction_canonical : forall e f, feval e = Ok f -> canonical f.
Proof. exact feval_canonical. Qed.
Print Assumptions C21_fraction_canonical.
Theorem C21_zero_denominator : forall n, mk n 0 = Err.
Proof. exact mk_zero. Qed.
Print Assumptions C21_zero_denominator.
(** construction succeeds for every other pair not involving INT_MIN *)
Theorem C21_construction_total :
  forall n d, fits n -> fits d -> d <> 0 ->
    exists f, mk n d = Ok f /\ (fval f == inject_Z n / inject_Z d)%Q.
Proof.
  intros n d Hn Hd H0. destruct (mk_total n d Hn Hd H0) as [f E]. exists f. split; [assumption|].
  unfold fits in *. destruct (mk_ok n d f) as (H1 & H2 & H3); try (apply in32_iff; lia); [assumption|].
  now apply fval_mk.
Qed.
Print Assumptions C21_construction_total.
Example C21_example :
  feval (EDivAssign (EAdd (EPair 1 (-6)) (EPair 3 4)) (EIntSub 2 (EInt 1))) = Ok (Frac (-7) 12)
  /\ mk (-4) (-6) = Ok (Frac 2 3) /\ mk 0 (-7) = Ok (Frac 0 1).
Proof. repeat split; vm_compute; reflexivity. Qed.

(** C22: an expression over +, -, *, /, +=, -=, *= that returns has the exact value
    (and no division by zero occurs in it). *)
Theorem C22_fraction_arithmetic :
  forall e, regular e -> forall f, feval e = Ok f ->
    exists q, qeval e = Some q /\ (fval f == q)%Q.
Proof. exact feval_correct. Qed.
Print Assumptions C22_fraction_arithmetic.
Theorem C22_no_overflow_returns :
  forall a b, canonical a -> canonical b ->
    (fits (num a * den b) -> fits (den a * num b) -> fits (num a * den b + den a * num b) ->
       fits (den a * den b) -> exists f, add a b = Ok f) /\
    (fits (num a * den b) -> fits (den a * num b) -> fits (num a * den b - den a * num b) ->
       fits (den a * den b) -> exists f, sub a b = Ok f) /\
    (fits (num a * num b) -> fits (den a * den b) -> exists f, mul a b = Ok f) /\
    (num b <> 0 -> fits (num a * den b) -> fits (den a * num b) -> exists f, div a b = Ok f).
Proof.
  intros a b Ha Hb. split; [|split; [|split]]; intros.
  - now apply add_total.
  - now apply sub_total.
  - now apply mul_total.
  - now apply div_total.
Qed.
Print Assumptions C22_no_overflow_returns.
Theorem C22_division_by_zero :
  forall a b, canonical a -> canonical b -> (fval b == 0)%Q -> div a b = Err.
Proof. exact div_by_zero. Qed.
Print Assumptions C22_division_by_zero.
Example C22_example :
  feval (EDiv (ESub (EPair 1 2) (EPair 1 3)) (EIntMul 5 (EPair 2 (-3)))) = Ok (Frac (-1) 20)
  /\ feval (EDiv (EPair 1 2) (ESub (EInt 1) (EInt 1))) = Err.
Proof. repeat split; vm_compute; reflexivity. Qed.

(** C23 *)
Theorem C23_fraction_equality :
  forall a b, canonical a -> canonical b ->
    (eqF a b = true <-> (fval a == fval b)%Q) /\ neF a b = negb (eqF a b).
Proof. exact eqF_ok. Qed.
Print Assumptions C23_fraction_equality.
Theorem C23_fraction_order :
  forall a b r, canonical a -> canonical b ->
    (ltF a b = Ok r -> (r = true <-> (fval a < fval b)%Q)) /\
    (leF a b = Ok r -> (r = true <-> (fval a <= fval b)%Q)) /\
    (gtF a b = Ok r -> (r = true <-> (fval b < fval a)%Q)) /\
    (geF a b = Ok r -> (r = true <-> (fval b <= fval a)%Q)).
Proof. exact order_ok. Qed.
Print Assumptions C23_fraction_order.
Theorem C23_fraction_order_total :
  forall a b, in_int32 (num a * den b) = true -> in_int32 (den a * num b) = true ->
    (exists r, ltF a b = Ok r) /\ (exists r, leF a b = Ok r) /\
    (exists r, gtF a b = Ok r) /\ (exists r, geF a b = Ok r).
Proof.
  intros a b H1 H2. split; [|split; [|split]]; apply cmp_total; assumption.
Qed.
Print Assumptions C23_fraction_order_total.
(** two small but different values whose comparison overflows *)
Theorem C23_comparison_overflow_refuted :
  exists a b, canonical a /\ canonical b /\ ltF a b = UB.
Proof.
  exists (Frac 100000 1), (Frac 1 100003). repeat split; vm_compute; reflexivity.
Qed.
Print Assumptions C23_comparison_overflow_refuted.
Example C23_example :
  ltF (Frac (-1) 2) (Frac 1 3) = Ok true /\ geF (Frac 2 3) (Frac 3 4) = Ok false
  /\ canonical (Frac (-1) 2) /\ canonical (Frac 1 3).
Proof. repeat split; vm_compute; reflexivity. Qed.

(** C24: the deviating operators.  [n - f] is [f - n], [n / f] is [f / n]. *)
Theorem C24_int_minus_fraction :
  forall n f h, in_int32 n = true -> canonical f -> int_sub n f = Ok h ->
    (fval h == fval f - inject_Z n)%Q /\
    ((fval h == inject_Z n - fval f)%Q <-> (fval f == inject_Z n)%Q).
Proof.
  intros n f h Hn Cf H. unfold int_sub in H. apply bind_ok in H. destruct H as (g & Eg & H).
  apply of_int_ok in Eg; [|assumption]. destruct Eg as [Cg Vg].
  destruct (sub_ok f g h Cf Cg H) as [_ V]. rewrite V, Vg. split; [reflexivity|].
  split; intros E.
  - assert (E2 : (fval f + fval f == inject_Z n + inject_Z n)%Q).
    { transitivity (fval f - inject_Z n + (fval f + inject_Z n))%Q; [ring|]. rewrite E. ring. }
    assert (E3 : ((2#1) * fval f == (2#1) * inject_Z n)%Q).
    { transitivity (fval f + fval f)%Q; [ring|]. rewrite E2. ring. }
    apply Qmult_inj_l in E3; [assumption|discriminate].
  - rewrite E. ring.
Qed.
Print Assumptions C24_int_minus_fraction.
Theorem C24_int_div_fraction :
  forall n f h, in_int32 n = true -> canonical f -> int_div n f = Ok h ->
    n <> 0 /\ (fval h == fval f / inject_Z n)%Q.
Proof.
  intros n f h Hn Cf H. unfold int_div in H. apply bind_ok in H. destruct H as (g & Eg & H).
  rewrite of_int_total in Eg by assumption. injection Eg as <-.
  pose proof (of_int_ok n (Frac n 1) Hn (of_int_total n Hn)) as [Cg Vg].
  destruct (div_ok f (Frac n 1) h Cf Cg H) as (_ & Hz & V). split; [exact Hz|]. now rewrite V, Vg.
Qed.
Print Assumptions C24_int_div_fraction.
(** [f /= g] divides numerators and denominators separately, truncating. *)
Theorem C24_div_assign :
  forall a b, canonical a -> canonical b ->
    (num b = 0 -> div_assign a b = UB) /\
    (num b <> 0 -> ~ (num a = int32_min /\ num b = -1) -> den a < den b -> div_assign a b = Err) /\
    (forall f, div_assign a b = Ok f ->
       (fval f == inject_Z (Z.quot (num a) (num b)) / inject_Z (Z.quot (den a) (den b)))%Q /\
       ((num b | num a) -> (den b | den a) -> (fval f == fval a / fval b)%Q)).
Proof.
  intros a b Ca Cb. split; [|split].
  - intros E. unfold div_assign, idiv. rewrite E. reflexivity.
  - intros Hn Hm Hlt. unfold div_assign.
    assert (Ca' := Ca). assert (Cb' := Cb). destruct Ca' as (A1 & _ & A3 & _), Cb' as (B1 & _).
    unfold idiv. destruct (Z.eqb_spec (num b) 0); [contradiction|].
    rewrite NumProofs.chk_ok.
    2:{ apply NumProofs.quot_in; [exact A3|assumption|exact Hm]. }
    cbn [bind]. destruct (Z.eqb_spec (den b) 0); [lia|].
    rewrite Z.quot_small by lia. reflexivity.
  - intros f H. destruct (div_assign_ok a b f Ca Cb H) as (Cf & N1 & N2 & V). split; [exact V|].
    intros [x Hx] [y Hy]. rewrite V. unfold fval.
    destruct Ca as (A1 & _), Cb as (B1 & _).
    rewrite Hx, Hy, !Z.quot_mul by lia. rewrite !inject_Z_mult.
    assert (y <> 0) by (intros ->; lia).
    field. repeat split; apply q_nz; lia.
Qed.
Print Assumptions C24_div_assign.
Theorem C24_natural_claims_refuted :
  (exists n f h, canonical f /\ int_sub n f = Ok h /\ ~ (fval h == inject_Z n - fval f)%Q) /\
  (exists n f h, canonical f /\ int_div n f = Ok h /\ ~ (fval h == inject_Z n / fval f)%Q) /\
  (exists a b h, canonical a /\ canonical b /\ div_assign a b = Ok h /\ ~ (fval h == fval a / fval b)%Q) /\
  (exists a b, canonical a /\ canonical b /\ ~ (fval b == 0)%Q /\ div_assign a b = Err).
Proof.
  split; [|split; [|split]].
  - exists 2, (Frac 1 2), (Frac (-3) 2). split; [repeat split; reflexivity|]. split; [vm_compute; reflexivity|].
    vm_compute. discriminate.
  - exists 2, (Frac 1 2), (Frac 1 4). split; [repeat split; reflexivity|]. split; [vm_compute; reflexivity|].
    vm_compute. discriminate.
  - exists (Frac 7 3), (Frac 2 1), (Frac 1 1). split; [repeat split; reflexivity|]. split; [repeat split; reflexivity|].
    split; [vm_compute; reflexivity|]. vm_compute. discriminate.
  - exists (Frac 1 2), (Frac 1 3). split; [repeat split; reflexivity|]. split; [repeat split; reflexivity|].
    split; [vm_compute; discriminate|]. vm_compute. reflexivity.
Qed.
Print Assumptions C24_natural_claims_refuted.
Example C24_example :
  int_sub 5 (Frac 1 3) = Ok (Frac (-14) 3) /\ int_div 5 (Frac 1 3) = Ok (Frac 1 15)
  /\ div_assign (Frac 6 35) (Frac 2 5) = Ok (Frac 3 7).
Proof. repeat split; vm_compute; reflexivity. Qed.
