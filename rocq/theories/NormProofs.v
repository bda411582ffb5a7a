From Coq Require Import Reals Lra Psatz.
From Coquelicot Require Import Coquelicot.
From Flocq Require Import Core.
From Verif Require Import Base DistRealSpec DistRealProofs NormModel NormSpec.
Local Open Scope R_scope.

(** what a round returns *)
Lemma try_eq a b : let u := 2 * a - 1 in let v := 2 * b - 1 in let s := u * u + v * v in
  norm_try rnorm a b = if Req_bool s 0 || Rlt_bool 1 s then None
    else Some (u * sqrt (-2 * ln s / s), v * sqrt (-2 * ln s / s)).
Proof.
  intros u v s. unfold norm_try, spread, rnorm. cbn [nzero none nneg1 nneg2 nadd nsub nmul ndiv neq ngt nlog nsqrt].
  replace (a * (1 - -1) + -1) with u by (unfold u; ring). replace (b * (1 - -1) + -1) with v by (unfold v; ring). reflexivity.
Qed.
Lemma radius u v s : s = u * u + v * v -> 0 < s <= 1 ->
  let f := sqrt (-2 * ln s / s) in u * f * (u * f) + v * f * (v * f) = -2 * ln s /\ (s < 1 -> 0 < f) /\ (s = 1 -> f = 0).
Proof.
  intros E [P L]. assert (LN : ln s <= 0) by (rewrite <- ln_1; apply ln_le; lra).
  assert (Q : 0 <= -2 * ln s / s) by (apply Rmult_le_pos; [lra|left; now apply Rinv_0_lt_compat]).
  intros f. assert (F : f * f = -2 * ln s / s) by (apply sqrt_sqrt; exact Q).
  split; [|split].
  - replace (u * f * (u * f) + v * f * (v * f)) with ((u * u + v * v) * (f * f)) by ring. rewrite <- E, F. field. lra.
  - intros L1. assert (ln s < 0) by (rewrite <- ln_1; apply ln_increasing; lra). unfold f. apply sqrt_lt_R0.
    apply Rmult_lt_0_compat; [lra|now apply Rinv_0_lt_compat].
  - intros ->. unfold f. rewrite ln_1. replace (-2 * 0 / 1) with 0 by field. apply sqrt_0.
Qed.
(** the event of a sector in terms of (u, v) *)
Definition cone (sx sy alpha RR u v : R) : Prop :=
  0 < sx * u /\ 0 < sy * v /\ Rabs u * cos alpha <= Rabs v * sin alpha /\ u * u + v * v <= RR /\ u * u + v * v < 1.
Lemma sector_iff sx sy alpha rho a b : sx = 1 \/ sx = -1 -> sy = 1 \/ sy = -1 ->
  let u := 2 * a - 1 in let v := 2 * b - 1 in
  match norm_try rnorm a b with Some p => in_sector sx sy alpha rho p | None => false end = true <->
  cone sx sy alpha (exp (- (rho * rho) / 2)) u v.
Proof.
  intros SX SY u v. rewrite try_eq. fold u v. cbv zeta. set (s := u * u + v * v).
  assert (S0 : 0 <= s) by (unfold s; nra). unfold cone. fold s.
  destruct (Req_bool_spec s 0) as [Z|Z]; cbn [orb].
  { split; [discriminate|]. intros (A & B & _). exfalso. assert (u = 0) by (unfold s in Z; nra). rewrite H in A. lra. }
  destruct (Rlt_bool_spec 1 s) as [G|G].
  { split; [discriminate|]. intros (_ & _ & _ & _ & L). lra. }
  destruct (radius u v s eq_refl ltac:(lra)) as (RR & F1 & F2). set (f := sqrt (-2 * ln s / s)) in *.
  unfold in_sector. rewrite !Bool.andb_true_iff.
  assert (LL : rho * rho <= -2 * ln s <-> s <= exp (- (rho * rho) / 2)).
  { split; intros H.
    - rewrite <- (exp_ln s) by lra. apply exp_le. lra.
    - apply ln_le in H; [|lra]. rewrite ln_exp in H. lra. }
  rewrite RR. destruct (Req_dec s 1) as [E1|N1].
  - rewrite (F2 E1). split.
    + intros [[[A _] _] _]. destruct (Rlt_bool_spec 0 (sx * (u * 0))) as [H|H]; [|discriminate]. rewrite Rmult_0_r, Rmult_0_r in H. lra.
    + intros (_ & _ & _ & _ & L). lra.
  - assert (FP : 0 < f) by (apply F1; lra).
    assert (AU : Rabs (u * f) = Rabs u * f) by (rewrite Rabs_mult; now rewrite (Rabs_pos_eq f) by lra).
    assert (AV : Rabs (v * f) = Rabs v * f) by (rewrite Rabs_mult; now rewrite (Rabs_pos_eq f) by lra).
    rewrite AU, AV. split.
    + intros [[[A B] C] D].
      destruct (Rlt_bool_spec 0 (sx * (u * f))) as [A'|]; [|discriminate].
      destruct (Rlt_bool_spec 0 (sy * (v * f))) as [B'|]; [|discriminate].
      destruct (Rle_bool_spec (Rabs u * f * cos alpha) (Rabs v * f * sin alpha)) as [C'|]; [|discriminate].
      destruct (Rle_bool_spec (rho * rho) (-2 * ln s)) as [D'|]; [|discriminate].
      split; [nra|]. split; [nra|]. split; [apply Rmult_le_reg_r with f; lra|]. split; [now apply LL|lra].
    + intros (A & B & C & D & L).
      split; [split; [split|]|].
      * apply Rlt_bool_true. rewrite <- Rmult_assoc. now apply Rmult_lt_0_compat.
      * apply Rlt_bool_true. rewrite <- Rmult_assoc. now apply Rmult_lt_0_compat.
      * apply Rle_bool_true. replace (Rabs u * f * cos alpha) with (Rabs u * cos alpha * f) by ring.
        replace (Rabs v * f * sin alpha) with (Rabs v * sin alpha * f) by ring. apply Rmult_le_compat_r; lra.
      * apply Rle_bool_true. now apply LL.
Qed.

(** the integral of an indicator of an interval *)
Lemma int_interval (g : R -> bool) p q : 0 <= p <= q -> q <= 1 ->
  (forall t, 0 < t < p -> g t = false) -> (forall t, p < t < q -> g t = true) -> (forall t, q < t < 1 -> g t = false) ->
  is_RInt (fun t => chi (g t)) 0 1 (q - p).
Proof.
  intros P Q A B C. replace (q - p) with ((p - 0) * 0 + ((q - p) * 1 + (1 - q) * 0)) by ring.
  apply (chasles _ 0 p 1); [|apply (chasles _ p q 1)].
  - apply (is_ext (fun _ => 0)); [lra| |apply int_const]. intros t T. now rewrite A.
  - apply (is_ext (fun _ => 1)); [lra| |apply int_const]. intros t T. now rewrite B.
  - apply (is_ext (fun _ => 0)); [lra| |apply int_const]. intros t T. now rewrite C.
Qed.
Lemma int_never (g : R -> bool) : (forall t, 0 < t < 1 -> g t = false) -> is_RInt (fun t => chi (g t)) 0 1 0.
Proof. intros A. apply (is_ext (fun _ => 0)); [lra| |apply int_zero]. intros t T. now rewrite A. Qed.

Section Law.
Context (alpha R0 : R) (AL : 0 < alpha <= PI / 2) (RP : 0 < R0 <= 1).
Let k := cos alpha / sin alpha.
Let m := R0 * sin alpha.
(** length of the part of the line at u that lies in the sector *)
Let f (u : R) := sqrt (R0 * R0 - u * u) - u * k.
Lemma sin_pos_alpha : 0 < sin alpha.
Proof. apply sin_gt_0; pose proof PI_RGT_0; lra. Qed.
Lemma cos_nonneg_alpha : 0 <= cos alpha.
Proof. apply cos_ge_0; pose proof PI_RGT_0; lra. Qed.
Lemma k_nonneg : 0 <= k.
Proof. pose proof sin_pos_alpha. pose proof cos_nonneg_alpha. unfold k. apply Rmult_le_pos; [assumption|left; now apply Rinv_0_lt_compat]. Qed.
Lemma m_bound : 0 < m <= R0.
Proof. pose proof sin_pos_alpha. pose proof (SIN_bound alpha). unfold m. split; [now apply Rmult_lt_0_compat|]. nra. Qed.
Lemma square_le x y : 0 <= y -> x * x <= y * y -> x <= y.
Proof. intros. nra. Qed.
(** inside: the line meets the sector, outside it does not *)
Lemma inside u : 0 <= u <= m -> u * k <= sqrt (R0 * R0 - u * u).
Proof.
  intros [U1 U2]. pose proof sin_pos_alpha as S. pose proof k_nonneg as K. pose proof m_bound.
  apply square_le; [apply sqrt_pos|]. rewrite sqrt_sqrt by nra.
  assert (E : u * u * (1 + k * k) <= R0 * R0); [|nra].
  assert (KK : 1 + k * k = / (sin alpha * sin alpha)).
  { pose proof (sin2_cos2 alpha) as SC. unfold Rsqr in SC. assert (KS : k * sin alpha = cos alpha) by (unfold k; field; lra).
    apply Rmult_eq_reg_r with (sin alpha * sin alpha); [|nra]. rewrite Rinv_l by nra.
    replace ((1 + k * k) * (sin alpha * sin alpha)) with (sin alpha * sin alpha + (k * sin alpha) * (k * sin alpha)) by ring.
    rewrite KS. exact SC. }
  rewrite KK. apply Rmult_le_reg_r with (sin alpha * sin alpha); [nra|].
  replace (u * u * / (sin alpha * sin alpha) * (sin alpha * sin alpha)) with (u * u) by (field; lra).
  replace (R0 * R0 * (sin alpha * sin alpha)) with (m * m) by (unfold m; ring). nra.
Qed.
Lemma outside u v : m < u -> 0 < v -> u * cos alpha <= v * sin alpha -> u * u + v * v <= R0 * R0 -> False.
Proof.
  intros U V C D. pose proof sin_pos_alpha as S. pose proof cos_nonneg_alpha as Co. pose proof m_bound as [M _].
  pose proof (sin2_cos2 alpha) as SC. unfold Rsqr in SC.
  assert (C2 : u * u * (cos alpha * cos alpha) <= v * v * (sin alpha * sin alpha)).
  { assert (0 <= u * cos alpha) by (apply Rmult_le_pos; lra).
    replace (u * u * (cos alpha * cos alpha)) with ((u * cos alpha) * (u * cos alpha)) by ring.
    replace (v * v * (sin alpha * sin alpha)) with ((v * sin alpha) * (v * sin alpha)) by ring. apply Rmult_le_compat; assumption. }
  assert (E : u * u <= m * m).
  { unfold m. replace (R0 * sin alpha * (R0 * sin alpha)) with (R0 * R0 * (sin alpha * sin alpha)) by ring.
    apply Rle_trans with ((u * u + v * v) * (sin alpha * sin alpha)); [|apply Rmult_le_compat_r; nra].
    replace (u * u) with (u * u * (sin alpha * sin alpha) + u * u * (cos alpha * cos alpha)) at 1; [lra|].
    rewrite <- Rmult_plus_distr_l, SC. ring. }
  nra.
Qed.
Lemma cone_line sy u v : sy = 1 \/ sy = -1 -> 0 < u -> u <= m -> v <> sy * (u * k) -> v <> sy * sqrt (R0 * R0 - u * u) ->
  0 < sy * v /\ u * cos alpha <= Rabs v * sin alpha /\ u * u + v * v <= R0 * R0 /\ u * u + v * v < 1 <->
  u * k < sy * v < sqrt (R0 * R0 - u * u).
Proof.
  intros SY U1 U2 V1 V2. pose proof sin_pos_alpha as S. pose proof k_nonneg as K. pose proof m_bound as [M1 M2].
  set (w := sy * v). assert (VW : v = sy * w) by (unfold w; destruct SY as [-> | ->]; ring).
  assert (VV : v * v = w * w) by (unfold w; destruct SY as [-> | ->]; ring).
  assert (W1 : w <> u * k) by (intros Q; apply V1; rewrite VW, Q; reflexivity).
  assert (W2 : w <> sqrt (R0 * R0 - u * u)) by (intros Q; apply V2; rewrite VW, Q; reflexivity).
  assert (NN : 0 <= R0 * R0 - u * u) by nra. pose proof (sqrt_pos (R0 * R0 - u * u)) as SP. pose proof (sqrt_sqrt _ NN) as SS.
  set (q := sqrt (R0 * R0 - u * u)) in *. rewrite VV. split.
  - intros (A & B & C & D). assert (AW : Rabs v = w).
    { unfold w. destruct SY as [-> | ->]; [rewrite Rabs_pos_eq by (unfold w in A; lra); ring|rewrite Rabs_left by (unfold w in A; lra); ring]. }
    rewrite AW in B. split.
    + assert (u * k <= w); [|lra]. unfold k. apply Rmult_le_reg_r with (sin alpha); [assumption|].
      replace (u * (cos alpha / sin alpha) * sin alpha) with (u * cos alpha) by (field; lra). exact B.
    + assert (w <= q) by (apply square_le; [assumption|lra]). lra.
  - intros [A B]. assert (WP : 0 < w) by nra. split; [assumption|]. assert (AW : Rabs v = w).
    { unfold w in *. destruct SY as [-> | ->]; [rewrite Rabs_pos_eq by lra; ring|rewrite Rabs_left by lra; ring]. }
    rewrite AW. split.
    + apply Rmult_le_reg_r with (/ sin alpha); [now apply Rinv_0_lt_compat|].
      replace (w * sin alpha * / sin alpha) with w by (field; lra). unfold k, Rdiv in A. lra.
    + assert (w * w < q * q) by nra. assert (R0 * R0 <= 1) by nra. lra.
Qed.

(** the area under f *)
Lemma cont_f x : continuous f x.
Proof.
  unfold f. apply (continuous_minus (V := R_NormedModule) (fun u => sqrt (R0 * R0 - u * u)) (fun u => u * k)).
  - apply (continuous_comp (fun u => R0 * R0 - u * u) sqrt); [apply cdiff; auto_derive; exact I|apply continuous_sqrt].
  - apply cdiff. auto_derive. exact I.
Qed.
Lemma area : is_RInt f 0 m (R0 * R0 * alpha / 2).
Proof.
  pose proof sin_pos_alpha as S.
  assert (EX : ex_RInt f 0 m) by (apply exr; intros; apply cont_f).
  replace (R0 * R0 * alpha / 2) with (RInt f 0 m); [now apply correct|].
  replace (RInt f 0 m) with (RInt f (R0 * sin 0) (R0 * sin alpha)) by (rewrite sin_0, Rmult_0_r; reflexivity).
  rewrite <- (int_comp f (fun t => R0 * sin t) (fun t => R0 * cos t) 0 alpha).
  - rewrite (int_ext _ (fun t => R0 * cos t * (R0 * cos t - R0 * sin t * k))).
    + apply is_RInt_unique.
      replace (R0 * R0 * alpha / 2) with
        ((fun t => R0 * R0 * (t / 2 + sin t * cos t / 2 - k * (sin t * sin t) / 2)) alpha -
         (fun t => R0 * R0 * (t / 2 + sin t * cos t / 2 - k * (sin t * sin t) / 2)) 0).
      * apply (is_RInt_derive (V := R_CompleteNormedModule) (fun t => R0 * R0 * (t / 2 + sin t * cos t / 2 - k * (sin t * sin t) / 2)) (fun t => R0 * cos t * (R0 * cos t - R0 * sin t * k))).
        -- intros t _. auto_derive; [exact I|]. pose proof (sin2_cos2 t) as SC. unfold Rsqr in SC. 
           replace (cos t * cos t) with (1 - sin t * sin t) by lra || idtac. 
           assert (CC : cos t * cos t = 1 - sin t * sin t) by lra.
           transitivity (R0 * R0 * ((1 + (cos t * cos t) - sin t * sin t) / 2 - k * (sin t * cos t))); [field|].
           transitivity (R0 * R0 * (cos t * cos t - k * (sin t * cos t))); [rewrite CC; field|ring].
        -- intros t _. apply cdiff. auto_derive. exact I.
      * cbv beta. rewrite sin_0. unfold k. field. lra.
    + intros t T. rewrite Rmin_left, Rmax_right in T by lra. f_equal. unfold f. f_equal.
      replace (R0 * R0 - R0 * sin t * (R0 * sin t)) with ((R0 * cos t) * (R0 * cos t)).
      2:{ pose proof (sin2_cos2 t) as SC. unfold Rsqr in SC. replace (R0 * cos t * (R0 * cos t)) with (R0 * R0 * (cos t * cos t)) by ring.
          replace (cos t * cos t) with (1 - sin t * sin t) by lra. ring. }
      apply sqrt_square. assert (0 <= cos t) by (apply cos_ge_0; pose proof PI_RGT_0; lra). nra.
  - intros t _. apply cont_f.
  - intros t _. split; [auto_derive; [exact I|ring]|]. apply cdiff. auto_derive. exact I.
Qed.


Lemma int_reflect (g : R -> R) x : is_RInt g 0 1 x -> is_RInt (fun a => g (1 - a)) 0 1 x.
Proof.
  intros H. apply (is_RInt_swap (V := R_NormedModule)) in H.
  pose proof (is_RInt_comp_lin (V := R_NormedModule) g (-1) 1 0 1 (opp x)) as X.
  replace (-1 * 0 + 1) with 1 in X by ring. replace (-1 * 1 + 1) with 0 in X by ring. specialize (X H).
  apply (is_RInt_opp (V := R_NormedModule)) in X. rewrite opp_opp in X. revert X. apply (is_RInt_ext (V := R_NormedModule)).
  intros t _. unfold opp, scal. cbn. unfold mult. cbn. replace (-1 * t + 1) with (1 - t) by ring. ring.
Qed.
(** the inner and the outer integral *)
Definition width (a : R) : R := let u := 2 * a - 1 in if Rlt_bool 0 u then if Rle_bool u m then f u / 2 else 0 else 0.
Lemma outer : is_RInt width 0 1 (R0 * R0 * alpha / 8).
Proof.
  pose proof m_bound as [M1 M2]. replace (R0 * R0 * alpha / 8) with ((1 / 2 - 0) * 0 + (R0 * R0 * alpha / 2 * / 4 + (1 - (1 + m) / 2) * 0)) by field.
  apply (chasles _ 0 (1 / 2) 1); [|apply (chasles _ (1 / 2) ((1 + m) / 2) 1)].
  - apply (is_ext (fun _ => 0)); [lra| |apply int_const]. intros t T. unfold width. rewrite Rlt_bool_false by lra. reflexivity.
  - pose proof area as A. pose proof (is_RInt_comp_lin (V := R_NormedModule) f 2 (-1) (1 / 2) ((1 + m) / 2) (R0 * R0 * alpha / 2)) as X.
    replace (2 * (1 / 2) + -1) with 0 in X by field. replace (2 * ((1 + m) / 2) + -1) with m in X by field. specialize (X A).
    apply (is_RInt_scal (V := R_NormedModule) _ _ _ (/ 4)) in X. rewrite Rmult_comm.
    apply (is_ext (fun y => / 4 * (2 * f (2 * y + -1)))); [lra| |exact X]. intros t T. unfold width.
    rewrite Rlt_bool_true, Rle_bool_true by lra. replace (2 * t + -1) with (2 * t - 1) by ring. field.
  - apply (is_ext (fun _ => 0)); [lra| |apply int_const]. intros t T. unfold width. rewrite Rlt_bool_true by lra. rewrite Rle_bool_false by lra. reflexivity.
Qed.
Lemma inner (g : R -> bool) sx sy a : sx = 1 \/ sx = -1 -> sy = 1 \/ sy = -1 -> 0 < a < 1 ->
  (forall b, g b = true <-> cone sx sy alpha (R0 * R0) (2 * a - 1) (2 * b - 1)) ->
  is_RInt (fun b => chi (g b)) 0 1 (width (if Rlt_bool 0 sx then a else 1 - a)).
Proof.
  intros SX SY A G. pose proof m_bound as [M1 M2]. pose proof k_nonneg as K.
  set (u := 2 * a - 1) in *. set (w := sx * u).
  assert (EW : 2 * (if Rlt_bool 0 sx then a else 1 - a) - 1 = w).
  { unfold w, u. destruct SX as [-> | ->]; [rewrite Rlt_bool_true by lra|rewrite Rlt_bool_false by lra]; ring. }
  assert (UU : u * u = w * w) by (unfold w; destruct SX as [-> | ->]; ring).
  unfold width. rewrite EW. destruct (Rlt_bool_spec 0 w) as [W|W].
  2:{ apply int_never. intros t T. destruct (g t) eqn:Q; [|reflexivity]. apply G in Q. destruct Q as (Q & _). fold w in Q. lra. }
  assert (AU : Rabs u = w) by (unfold w in *; destruct SX as [-> | ->]; [rewrite Rabs_pos_eq by lra; ring|rewrite Rabs_left by lra; ring]).
  destruct (Rle_bool_spec w m) as [L|L].
  2:{ apply int_never. intros t T. destruct (g t) eqn:Q; [|reflexivity]. exfalso. apply G in Q. destruct Q as (_ & Q1 & Q2 & Q3 & _).
      rewrite AU in Q2. rewrite UU in Q3. apply (outside w (Rabs (2 * t - 1))); try assumption.
      - apply Rabs_pos_lt. intros Z. rewrite Z in Q1. lra.
      - rewrite <- Rabs_mult, Rabs_pos_eq by nra. exact Q3. }
  pose proof (inside w ltac:(lra)) as IN. set (q := sqrt (R0 * R0 - w * w)) in *.
  assert (Q1 : q <= 1).
  { apply square_le; [lra|]. unfold q. rewrite sqrt_sqrt by nra. nra. }
  assert (WK : 0 <= w * k) by (apply Rmult_le_pos; lra).
  assert (C : forall t, 2 * t - 1 <> sy * (w * k) -> 2 * t - 1 <> sy * q -> (g t = true <-> w * k < sy * (2 * t - 1) < q)).
  { intros t T1 T2. rewrite G. unfold cone. fold w. rewrite AU, UU. pose proof (cone_line sy w (2 * t - 1) SY W L T1 T2) as CL.
    fold q in CL. split; [intros (_ & H); now apply CL|intros H; split; [assumption|now apply CL]]. }
  assert (NO : forall t, 2 * t - 1 <> sy * (w * k) -> 2 * t - 1 <> sy * q -> ~ (w * k < sy * (2 * t - 1) < q) -> g t = false).
  { intros t T1 T2 H. destruct (g t) eqn:Q; [|reflexivity]. exfalso. apply H. now apply C. }
  destruct SY as [-> | ->].
  - replace (f w / 2) with ((1 + q) / 2 - (1 + w * k) / 2) by (unfold f; fold q; field).
    apply int_interval; [lra|lra| | |].
    + intros t T. apply NO; lra.
    + intros t T. apply C; lra.
    + intros t T. apply NO; lra.
  - replace (f w / 2) with ((1 - w * k) / 2 - (1 - q) / 2) by (unfold f; fold q; field).
    apply int_interval; [lra|lra| | |].
    + intros t T. apply NO; lra.
    + intros t T. apply C; lra.
    + intros t T. apply NO; lra.
Qed.
End Law.

Lemma law alpha rho sx sy : 0 < alpha <= PI / 2 -> 0 <= rho -> sx = 1 \/ sx = -1 -> sy = 1 \/ sy = -1 ->
  is_mean 2 (fun us => chi (match us with [a; b] => match norm_try rnorm a b with Some p => in_sector sx sy alpha rho p | None => false end | _ => false end))
    (alpha * exp (- (rho * rho) / 2) / 8).
Proof.
  intros AL RH SX SY. set (R0 := exp (- (rho * rho) / 4)).
  assert (RP : 0 < R0 <= 1).
  { split; [apply exp_pos|]. rewrite <- exp_0. apply exp_le. assert (0 <= rho * rho) by nra. lra. }
  assert (RR : exp (- (rho * rho) / 2) = R0 * R0) by (unfold R0; rewrite <- exp_plus; f_equal; field).
  exists (fun a => width alpha R0 (if Rlt_bool 0 sx then a else 1 - a)). split.
  - intros a A. cbn [is_mean].
    eexists. split; [intros b B; reflexivity|].
    apply (inner alpha R0 AL RP _ sx sy a SX SY A). intros b. rewrite (sector_iff sx sy alpha rho a b SX SY), RR. reflexivity.
  - pose proof (outer alpha R0 AL RP) as O. replace (alpha * exp (- (rho * rho) / 2) / 8) with (R0 * R0 * alpha / 8) by (rewrite RR; field).
    destruct SX as [-> | ->].
    + rewrite Rlt_bool_true by lra. exact O.
    + rewrite Rlt_bool_false by lra. exact (int_reflect _ _ O).
Qed.

(** how often a round is accepted *)
Definition chord (u : R) : R := sqrt (1 - u * u).
Lemma half_disc : is_RInt chord 0 1 (PI / 4).
Proof.
  pose proof PI_RGT_0 as P. assert (AL : 0 < PI / 2 <= PI / 2) by lra. assert (RP : 0 < 1 <= 1) by lra.
  pose proof (area (PI / 2) 1 AL RP) as A. cbv zeta in A. rewrite sin_PI2, cos_PI2, Rmult_1_r in A.
  replace (1 * (PI / 2) / 2) with (PI / 4) in A by field. revert A. apply (is_RInt_ext (V := R_NormedModule)).
  intros t _. unfold chord. replace (1 * 1) with 1 by ring. change (sqrt (1 - t * t) - t * (0 / 1) = sqrt (1 - t * t)). unfold Rdiv. ring.
Qed.
Lemma disc : is_RInt (fun a => chord (2 * a - 1)) 0 1 (PI / 4).
Proof.
  pose proof half_disc as H.
  assert (RIGHT : is_RInt (fun a => chord (2 * a - 1)) (1 / 2) 1 (PI / 8)).
  { pose proof (is_RInt_comp_lin (V := R_NormedModule) chord 2 (-1) (1 / 2) 1 (PI / 4)) as X.
    replace (2 * (1 / 2) + -1) with 0 in X by field. replace (2 * 1 + -1) with 1 in X by ring. specialize (X H).
    apply (is_RInt_scal (V := R_NormedModule) _ _ _ (/ 2)) in X. replace (PI / 8) with (/ 2 * (PI / 4)) by field. revert X.
    apply (is_RInt_ext (V := R_NormedModule)). intros t _. unfold scal. cbn. unfold mult. cbn. replace (2 * t + -1) with (2 * t - 1) by ring. field. }
  assert (LEFT : is_RInt (fun a => chord (2 * a - 1)) 0 (1 / 2) (PI / 8)).
  { apply (is_RInt_swap (V := R_NormedModule)) in H.
    pose proof (is_RInt_comp_lin (V := R_NormedModule) chord (-2) 1 0 (1 / 2) (opp (PI / 4))) as X.
    replace (-2 * 0 + 1) with 1 in X by ring. replace (-2 * (1 / 2) + 1) with 0 in X by field. specialize (X H).
    apply (is_RInt_scal (V := R_NormedModule) _ _ _ (- / 2)) in X.
    replace (PI / 8) with (scal (- / 2) (opp (PI / 4))) by (unfold scal, opp; cbn; unfold mult; cbn; field). revert X.
    apply (is_RInt_ext (V := R_NormedModule)). intros t _. unfold scal. cbn. unfold mult. cbn. unfold chord.
    replace ((-2 * t + 1) * (-2 * t + 1)) with ((2 * t - 1) * (2 * t - 1)) by ring. field. }
  replace (PI / 4) with (PI / 8 + PI / 8) by field. now apply (chasles _ 0 (1 / 2) 1).
Qed.
Lemma accepted : is_mean 2 (fun us => chi (match us with [a; b] => match norm_try rnorm a b with Some _ => true | None => false end | _ => false end)) (PI / 4).
Proof.
  exists (fun a => chord (2 * a - 1)). split; [|exact disc]. intros a A. eexists. split; [intros b B; reflexivity|].
  set (u := 2 * a - 1). assert (U : u * u < 1) by (unfold u; nra).
  pose proof (sqrt_sqrt (1 - u * u) ltac:(lra)) as SS. pose proof (sqrt_lt_R0 (1 - u * u) ltac:(lra)) as SP.
  unfold chord in *. set (q := sqrt (1 - u * u)) in *. assert (Q1 : q <= 1) by nra.
  replace q with ((1 + q) / 2 - (1 - q) / 2) by field.
  assert (E : forall b, 0 < b < 1 -> b <> 1 / 2 -> match norm_try rnorm a b with Some _ => true | None => false end = Rle_bool (u * u + (2 * b - 1) * (2 * b - 1)) 1).
  { intros b B NB. rewrite try_eq. fold u. cbv zeta. rewrite Req_bool_false by nra. cbn [orb]. unfold Rlt_bool, Rle_bool. rewrite Rcompare_sym. now destruct (Rcompare _ 1). }
  (* the middle point is rejected when u = 0 *)
  assert (H1 : is_RInt (fun b => chi (Rle_bool (u * u + (2 * b - 1) * (2 * b - 1)) 1)) 0 1 ((1 + q) / 2 - (1 - q) / 2)).
  { apply (int_interval (fun b => Rle_bool (u * u + (2 * b - 1) * (2 * b - 1)) 1)); [lra|lra| | |].
    - intros t T. apply Rle_bool_false. nra.
    - intros t T. apply Rle_bool_true. nra.
    - intros t T. apply Rle_bool_false. nra. }
  set (h := fun b => chi (Rle_bool (u * u + (2 * b - 1) * (2 * b - 1)) 1)) in *.
  destruct (Req_dec u 0) as [Z|NZ].
  - assert (Q : q = 1) by (unfold q; rewrite Z; replace (1 - 0 * 0) with 1 by ring; apply sqrt_1). rewrite Q in *.
    replace ((1 + 1) / 2 - (1 - 1) / 2) with (1 / 2 * 1 + 1 / 2 * 1) by field. 
    apply (chasles _ 0 (1 / 2) 1).
    + replace (1 / 2 * 1) with ((1 / 2 - 0) * 1) by ring. apply (is_ext (fun _ => 1)); [lra| |apply int_const]. intros t T. rewrite E by lra. rewrite Rle_bool_true by nra. reflexivity.
    + replace (1 / 2 * 1) with ((1 - 1 / 2) * 1) by field. apply (is_ext (fun _ => 1)); [lra| |apply int_const]. intros t T. rewrite E by lra. rewrite Rle_bool_true by nra. reflexivity.
  - apply (is_ext h); [lra| |exact H1]. intros t T. unfold h. cbv beta.
    destruct (Req_dec t (1 / 2)) as [->|N]; [|now rewrite E].
    rewrite try_eq. fold u. cbv zeta. rewrite Req_bool_false by nra. cbn [orb]. unfold Rlt_bool, Rle_bool. rewrite Rcompare_sym. match goal with |- context [Rcompare ?x ?y] => now destruct (Rcompare x y) end.
Qed.

(** several rounds *)
Lemma mean_plus n : forall f g p q, is_mean n f p -> is_mean n g q -> is_mean n (fun us => f us + g us) (p + q).
Proof.
  induction n as [|n IH]; intros f g p q; [intros <- <-; reflexivity|]. intros (F & F1 & F2) (H & H1 & H2).
  exists (fun u => F u + H u). split; [intros u U; apply IH; auto|]. exact (is_RInt_plus (V := R_NormedModule) F H 0 1 p q F2 H2).
Qed.
Lemma mean_scal n c : forall f p, is_mean n f p -> is_mean n (fun us => c * f us) (c * p).
Proof.
  induction n as [|n IH]; intros f p; [intros <-; reflexivity|]. intros (F & F1 & F2).
  exists (fun u => c * F u). split; [intros u U; apply IH; auto|]. exact (is_RInt_scal (V := R_NormedModule) F 0 1 c p F2).
Qed.
Lemma mean_const n : forall c, is_mean n (fun _ => c) c.
Proof.
  induction n as [|n IH]; intros c; [reflexivity|]. exists (fun _ => c). split; [intros; apply IH|].
  pose proof (int_const 0 1 c) as H. replace ((1 - 0) * c) with c in H by ring. exact H.
Qed.
Lemma mean_two m f h p : (forall a b, is_mean m (fun us => f (a :: b :: us)) (h a b)) ->
  is_mean 2 (fun us => match us with [a; b] => h a b | _ => 0 end) p -> is_mean (S (S m)) f p.
Proof.
  intros H (F & F1 & F2). exists F. split; [|exact F2]. intros a A. destruct (F1 a A) as (K & K1 & K2). exists K. split; [|exact K2].
  intros b B. specialize (K1 b B). cbn in K1. rewrite <- K1. apply H.
Qed.
(** the result of the loop satisfies P, given what one round does *)
Lemma loop_mean (P : R * R -> bool) p q n : q <> 0 ->
  is_mean 2 (fun us => chi (match us with [a; b] => match norm_try rnorm a b with Some z => P z | None => false end | _ => false end)) p ->
  is_mean 2 (fun us => chi (match us with [a; b] => match norm_try rnorm a b with Some _ => true | None => false end | _ => false end)) q ->
  is_mean (2 * n) (fun us => chi (match norm_loop rnorm us with Some (z, _) => P z | None => false end)) (p / q * (1 - (1 - q) ^ n)).
Proof.
  intros Q HP HQ. induction n as [|n IH].
  - cbn. ring.
  - replace (2 * S n)%nat with (S (S (2 * n))) by lia. set (pn := p / q * (1 - (1 - q) ^ n)) in *.
    apply (mean_two _ _ (fun a b => match norm_try rnorm a b with Some z => chi (P z) | None => pn end)).
    + intros a b. cbn [norm_loop]. destruct (norm_try rnorm a b) as [z|]; [apply mean_const|].
      refine (mean_ext _ _ _ _ _ IH). intros us. destruct (norm_loop rnorm us) as [[z k]|]; reflexivity.
    + replace (p / q * (1 - (1 - q) ^ S n)) with (p + (pn + (- pn) * q)).
      2:{ unfold pn. cbn [pow]. field. exact Q. }
      pose proof (mean_plus 2 _ _ _ _ HP (mean_plus 2 _ _ _ _ (mean_const 2 pn) (mean_scal 2 (- pn) _ _ HQ))) as M.
      destruct M as (F & F1 & F2). exists F. split; [|exact F2]. intros a A. destruct (F1 a A) as (K & K1 & K2). exists K. split; [|exact K2].
      intros b B. specialize (K1 b B). cbn in K1 |- *. rewrite <- K1. destruct (norm_try rnorm a b) as [z|]; unfold chi; ring.
Qed.
Lemma law_rounds n alpha rho sx sy : 0 < alpha <= PI / 2 -> 0 <= rho -> sign sx -> sign sy ->
  is_mean (2 * n) (fun us => chi (match norm_loop rnorm us with Some (z, _) => in_sector sx sy alpha rho z | None => false end))
    (alpha / (2 * PI) * exp (- (rho * rho) / 2) * (1 - (1 - PI / 4) ^ n)).
Proof.
  intros A R X Y. pose proof PI_RGT_0 as P. replace (alpha / (2 * PI) * exp (- (rho * rho) / 2)) with (alpha * exp (- (rho * rho) / 2) / 8 / (PI / 4)) by (field; lra).
  apply loop_mean; [lra|now apply law|exact accepted].
Qed.
Lemma accepted_rounds n :
  is_mean (2 * n) (fun us => chi (match norm_loop rnorm us with Some _ => true | None => false end)) (1 - (1 - PI / 4) ^ n).
Proof.
  pose proof PI_RGT_0 as P. pose proof (loop_mean (fun _ => true) (PI / 4) (PI / 4) n ltac:(lra) accepted accepted) as M.
  replace (PI / 4 / (PI / 4) * (1 - (1 - PI / 4) ^ n)) with (1 - (1 - PI / 4) ^ n) in M by (field; lra).
  refine (mean_ext _ _ _ _ _ M). intros us. destruct (norm_loop rnorm us) as [[z k]|]; reflexivity.
Qed.
