From Coq Require Import Reals Lra Psatz.
From Coquelicot Require Import Coquelicot.
From Flocq Require Import Core.
From Verif Require Import Base DistModel DistRealSpec.
Local Open Scope R_scope.

Lemma cdiff (f : R -> R) x : ex_derive f x -> continuous f x.
Proof. exact (ex_derive_continuous (V := R_NormedModule) f x). Qed.
Lemma exr (f : R -> R) a b : (forall x, Rmin a b <= x <= Rmax a b -> continuous f x) -> ex_RInt f a b.
Proof. exact (ex_RInt_continuous (V := R_CompleteNormedModule) f a b). Qed.
Lemma correct (f : R -> R) a b : ex_RInt f a b -> is_RInt f a b (RInt f a b).
Proof. exact (RInt_correct (V := R_CompleteNormedModule) f a b). Qed.
Lemma int_scal (f : R -> R) a b c : ex_RInt f a b -> RInt (fun x => c * f x) a b = c * RInt f a b.
Proof. exact (RInt_scal (V := R_CompleteNormedModule) f a b c). Qed.
Lemma int_opp (f : R -> R) a b : ex_RInt f a b -> RInt (fun x => - f x) a b = - RInt f a b.
Proof. exact (RInt_opp (V := R_CompleteNormedModule) f a b). Qed.
Lemma int_swap (f : R -> R) a b : ex_RInt f a b -> - RInt f a b = RInt f b a.
Proof. exact (opp_RInt_swap (V := R_CompleteNormedModule) f a b). Qed.
Lemma int_comp (f g dg : R -> R) a b : (forall x, Rmin a b <= x <= Rmax a b -> continuous f (g x)) ->
  (forall x, Rmin a b <= x <= Rmax a b -> is_derive g x (dg x) /\ continuous dg x) -> RInt (fun y => dg y * f (g y)) a b = RInt f (g a) (g b).
Proof. exact (RInt_comp (V := R_CompleteNormedModule) f g dg a b). Qed.
Lemma cmult (f g : R -> R) x : continuous f x -> continuous g x -> continuous (fun x => f x * g x) x.
Proof. exact (continuous_mult (K := R_AbsRing) f g x). Qed.
Lemma copp (f : R -> R) x : continuous f x -> continuous (fun x => - f x) x.
Proof. exact (continuous_opp (V := R_NormedModule) f x). Qed.
Lemma int_ext (f g : R -> R) a b : (forall x, Rmin a b < x < Rmax a b -> f x = g x) -> RInt f a b = RInt g a b.
Proof. exact (RInt_ext (V := R_CompleteNormedModule) f g a b). Qed.
Section Real.
Context (d : R) (Hd : 0 < d < 1).
Lemma pow_inv x : 0 < x -> Rpower (Rpower x d) (1 / d) = x.
Proof. intros P. rewrite Rpower_mult. replace (d * (1 / d)) with 1 by (field; lra). now apply Rpower_1. Qed.
Lemma pow_inv' v : 0 < v -> Rpower (Rpower v (1 / d)) d = v.
Proof. intros P. rewrite Rpower_mult. replace (1 / d * d) with 1 by (field; lra). now apply Rpower_1. Qed.
Lemma pow_pos x y : 0 < Rpower x y. Proof. apply exp_pos. Qed.
Lemma pow_le x y a : 0 < a -> 0 < x <= y -> Rpower x a <= Rpower y a.
Proof. intros A [P L]. apply Rle_Rpower_l; lra. Qed.
Lemma exp_le a b : a <= b -> exp a <= exp b.
Proof. intros [L| ->]; [left; now apply exp_increasing|lra]. Qed.
Lemma ln_le a b : 0 < a -> a <= b -> ln a <= ln b.
Proof. intros P [L| ->]; [left; now apply ln_increasing|lra]. Qed.
Lemma pow_one x : 1 <= x -> Rpower x (d - 1) <= 1.
Proof. intros L. unfold Rpower. assert (0 <= ln x) by (rewrite <- ln_1; apply ln_le; lra). apply Rle_trans with (exp 0); [apply exp_le; nra|rewrite exp_0; lra]. Qed.

Definition q := exp 1 / (exp 1 + d).
Lemma try_low u v w : u <= q -> 0 < v ->
  gamma_try real_ops d u v w = if Rle_bool w (exp (- Rpower v (1 / d))) then Some (Rpower v (1 / d)) else None.
Proof.
  intros U V. unfold gamma_try, real_ops. cbn [fle fdiv fe fadd fone fpow fsub fmul flog fexp fneg fgt]. fold q. rewrite Rle_bool_true by exact U. cbn [fst snd].
  set (x := Rpower v (1 / d)). pose proof (pow_pos x (d - 1)) as P. destruct (Rle_bool_spec w (exp (- x))) as [L|L].
  - rewrite Rlt_bool_false; [reflexivity|]. rewrite Rmult_comm. apply Rmult_le_compat_l; lra.
  - rewrite Rlt_bool_true; [reflexivity|]. rewrite (Rmult_comm w). now apply Rmult_lt_compat_l.
Qed.
Lemma try_high u v w : q < u ->
  gamma_try real_ops d u v w = if Rle_bool w (Rpower (1 - ln v) (d - 1)) then Some (1 - ln v) else None.
Proof.
  intros U. unfold gamma_try, real_ops. cbn [fle fdiv fe fadd fone fpow fsub fmul flog fexp fneg fgt]. fold q. rewrite Rle_bool_false by exact U. cbn [fst snd].
  set (x := 1 - ln v). pose proof (exp_pos (- x)) as P. destruct (Rle_bool_spec w (Rpower x (d - 1))) as [L|L].
  - rewrite Rlt_bool_false; [reflexivity|]. apply Rmult_le_compat_r; lra.
  - rewrite Rlt_bool_true; [reflexivity|]. now apply Rmult_lt_compat_r.
Qed.
Lemma low_between v a b : 0 < v -> 0 < a -> 0 < b -> (a <= Rpower v (1 / d) <= b <-> Rpower a d <= v <= Rpower b d).
Proof.
  intros V A B. assert (I : 0 < 1 / d) by (unfold Rdiv; rewrite Rmult_1_l; apply Rinv_0_lt_compat; lra). split; intros [L U]; split.
  - rewrite <- (pow_inv' v V). apply pow_le; lra.
  - rewrite <- (pow_inv' v V). apply pow_le; [lra|]. split; [apply pow_pos|exact U].
  - rewrite <- (pow_inv a A). apply pow_le; [lra|]. split; [apply pow_pos|exact L].
  - rewrite <- (pow_inv b B). apply pow_le; [lra|]. split; [exact V|exact U].
Qed.
Lemma high_between v a b : 0 < v -> (a <= 1 - ln v <= b <-> exp (1 - b) <= v <= exp (1 - a)).
Proof.
  intros V. split; intros [L U]; split.
  - rewrite <- (exp_ln v V). apply exp_le. lra.
  - rewrite <- (exp_ln v V). apply exp_le. lra.
  - apply ln_le in U; [|exact V]. rewrite ln_exp in U. lra.
  - apply ln_le in L; [|apply exp_pos]. rewrite ln_exp in L. lra.
Qed.
Lemma derive_pow y x : 0 < x -> is_derive (fun x => Rpower x y) x (y * Rpower x (y - 1)).
Proof.
  intros P. unfold Rpower. assert (H : is_derive (fun x => exp (y * ln x)) x (y * (/ x) * exp (y * ln x))).
  { auto_derive; [exact P|]. ring. }
  replace (y * exp ((y - 1) * ln x)) with (y * / x * exp (y * ln x)); [exact H|].
  replace ((y - 1) * ln x) with (y * ln x + - ln x) by ring. rewrite exp_plus, exp_Ropp, exp_ln by exact P. ring.
Qed.
Lemma cont_pow y x : 0 < x -> continuous (fun x => Rpower x y) x.
Proof. intros P. apply cdiff. eexists. now apply derive_pow. Qed.
Lemma one_minus_twice (y : R) : y = 1 - (1 - y).
Proof. ring. Qed.
Lemma cont_exp_neg (f : R -> R) x : continuous f x -> continuous (fun x => exp (- f x)) x.
Proof. intros H. apply (continuous_comp (fun x => - f x) exp); [now apply copp|apply continuous_exp]. Qed.
Lemma cont_shape x : 0 < x -> continuous (gamma_shape d) x.
Proof.
  intros P. unfold gamma_shape. apply (cmult (fun x => Rpower x (d - 1)) (fun x => exp (- x))); [now apply cont_pow|].
  apply (cont_exp_neg (fun x => x)). apply continuous_id.
Qed.
Lemma shape_int a b : 0 < a <= b -> ex_RInt (gamma_shape d) a b.
Proof. intros [P L]. apply exr. intros x [X1 X2]. rewrite Rmin_left in X1 by exact L. apply cont_shape. lra. Qed.
Lemma low_mass a b : 0 < a <= b ->
  d * RInt (gamma_shape d) a b = RInt (fun v => exp (- Rpower v (1 / d))) (Rpower a d) (Rpower b d).
Proof.
  intros [P L]. pose proof (shape_int a b (conj P L)) as EX.
  rewrite <- (int_comp (fun v => exp (- Rpower v (1 / d))) (fun x => Rpower x d) (fun x => d * Rpower x (d - 1)) a b).
  - rewrite <- int_scal by exact EX. apply int_ext. intros x [X1 X2]. rewrite Rmin_left in X1 by exact L.
    rewrite pow_inv by lra. unfold gamma_shape. ring.
  - intros x [X1 X2]. rewrite Rmin_left in X1 by exact L. apply (cont_exp_neg (fun v => Rpower v (1 / d))). apply cont_pow. apply pow_pos.
  - intros x [X1 X2]. rewrite Rmin_left in X1 by exact L. split; [apply derive_pow; lra|].
    apply (cmult (fun _ => d) (fun x => Rpower x (d - 1))); [apply continuous_const|apply cont_pow; lra].
Qed.
Lemma high_mass a b : 1 <= a <= b ->
  exp 1 * RInt (gamma_shape d) a b = RInt (fun v => Rpower (1 - ln v) (d - 1)) (exp (1 - b)) (exp (1 - a)).
Proof.
  intros [P L]. pose proof (shape_int a b ltac:(lra)) as EX.
  rewrite <- (int_comp (fun v => Rpower (1 - ln v) (d - 1)) (fun x => exp (1 - x)) (fun x => - exp (1 - x)) b a).
  - assert (EX2 : ex_RInt (fun x => - exp (1 - x) * Rpower (1 - ln (exp (1 - x))) (d - 1)) a b).
    { apply exr. intros x [X1 X2]. rewrite Rmin_left in X1 by exact L. apply (cmult (fun x => - exp (1 - x)) (fun x => Rpower (1 - ln (exp (1 - x))) (d - 1))).
      - apply cdiff. auto_derive. exact I.
      - apply (continuous_ext (fun x => Rpower x (d - 1))); [intros y; rewrite ln_exp; f_equal; change (@eq R y (1 - (1 - y))); apply one_minus_twice|]. apply cont_pow. lra. }
    rewrite <- (int_swap _ _ _ EX2), <- (int_opp _ _ _ EX2). rewrite <- int_scal by exact EX. apply int_ext. intros x [X1 X2].
    rewrite ln_exp. unfold gamma_shape. replace (1 - (1 - x)) with x by ring. replace (1 - x) with (1 + - x) by ring. rewrite exp_plus. ring.
  - intros x [X1 X2]. rewrite Rmin_right in X1 by exact L. apply (continuous_comp (fun v => 1 - ln v) (fun y => Rpower y (d - 1))).
    + apply cdiff. auto_derive. apply exp_pos.
    + rewrite ln_exp. apply cont_pow. lra.
  - intros x _. split; [auto_derive; [exact I|unfold Rminus; ring]|]. apply cdiff. auto_derive. exact I.
Qed.

(** indicators *)
Lemma int_zero a b : is_RInt (fun _ : R => 0) a b 0.
Proof. pose proof (is_RInt_const (V := R_NormedModule) a b 0) as H. replace (scal (b - a) (0 : R_NormedModule)) with (0 : R) in H; [exact H|]. unfold scal. cbn. unfold mult. cbn. ring. Qed.
Lemma int_const a b c : is_RInt (fun _ : R => c) a b ((b - a) * c).
Proof. exact (is_RInt_const (V := R_NormedModule) a b c). Qed.
Lemma chasles (f : R -> R) a b c x y : is_RInt f a b x -> is_RInt f b c y -> is_RInt f a c (x + y).
Proof. exact (is_RInt_Chasles (V := R_NormedModule) f a b c x y). Qed.
Lemma is_ext (f g : R -> R) a b x : a <= b -> (forall t, a < t < b -> f t = g t) -> is_RInt f a b x -> is_RInt g a b x.
Proof. intros L H. apply (is_RInt_ext (V := R_NormedModule)). intros t. rewrite Rmin_left, Rmax_right by exact L. apply H. Qed.
Lemma int_le t : 0 <= t <= 1 -> is_RInt (fun w => chi (Rle_bool w t)) 0 1 t.
Proof.
  intros T. assert (H : is_RInt (fun w => chi (Rle_bool w t)) 0 1 ((t - 0) * 1 + (1 - t) * 0)).
  { apply (chasles _ 0 t 1).
    - apply (is_ext (fun _ => 1)); [lra| |apply int_const]. intros w W. rewrite Rle_bool_true by lra. reflexivity.
    - apply (is_ext (fun _ => 0)); [lra| |apply int_const]. intros w W. rewrite Rle_bool_false by lra. reflexivity. }
  replace ((t - 0) * 1 + (1 - t) * 0) with t in H by ring. exact H.
Qed.
(** the part of [0, 1] between lo and hi *)
Definition clamp (x : R) := Rmax 0 (Rmin 1 x).
Lemma clamp_bound x : 0 <= clamp x <= 1.
Proof. unfold clamp, Rmax, Rmin. repeat destruct (Rle_dec _ _); lra. Qed.
Lemma int_between (h : R -> R) lo hi p : lo <= hi -> is_RInt h (clamp lo) (clamp hi) p ->
  is_RInt (fun v => if within lo hi v then h v else 0) 0 1 p.
Proof.
  intros L H. pose proof (clamp_bound lo) as B1. pose proof (clamp_bound hi) as B2.
  assert (M : clamp lo <= clamp hi) by (unfold clamp, Rmax, Rmin; repeat destruct (Rle_dec _ _); lra).
  replace p with ((0 + p) + 0) by ring. apply (chasles _ 0 (clamp hi) 1); [apply (chasles _ 0 (clamp lo) (clamp hi))|].
  - apply (is_ext (fun _ => 0)); [lra| |apply int_zero]. intros v V. unfold within. rewrite Rle_bool_false; [reflexivity|]. unfold clamp, Rmax, Rmin in *. repeat destruct (Rle_dec _ _); lra.
  - apply (is_ext h); [lra| |exact H]. intros v V. unfold within. rewrite !Rle_bool_true; [reflexivity| |]; unfold clamp, Rmax, Rmin in *; repeat destruct (Rle_dec _ _); lra.
  - apply (is_ext (fun _ => 0)); [lra| |apply int_zero]. intros v V. unfold within. rewrite (Rle_bool_false v hi); [now rewrite andb_false_r|]. unfold clamp, Rmax, Rmin in *. repeat destruct (Rle_dec _ _); lra.
Qed.
Lemma q_range : 0 < q < 1.
Proof. pose proof (exp_pos 1). unfold q. split; [apply Rdiv_lt_0_compat; lra|]. apply Rmult_lt_reg_r with (exp 1 + d); [lra|]. unfold Rdiv. rewrite Rmult_assoc, Rinv_l by lra. lra. Qed.
Lemma pow_1 y : Rpower 1 y = 1. Proof. unfold Rpower. now rewrite ln_1, Rmult_0_r, exp_0. Qed.
Lemma mass a b : 0 < a <= b -> RInt (gamma_shape d) a b = RInt (gamma_shape d) (Rmin 1 a) (Rmin 1 b) + RInt (gamma_shape d) (Rmax 1 a) (Rmax 1 b).
Proof.
  intros [P L]. assert (Z : forall x, RInt (gamma_shape d) x x = 0) by (intros x; exact (RInt_point (V := R_CompleteNormedModule) x (gamma_shape d))).
  unfold Rmin, Rmax. destruct (Rle_dec 1 a), (Rle_dec 1 b); try lra; rewrite ?Z; try lra.
  symmetry. apply (RInt_Chasles (V := R_CompleteNormedModule)); apply shape_int; lra.
Qed.
Definition const := d * exp 1 / (exp 1 + d).
Lemma high_range v : 0 < v < 1 -> 1 <= 1 - ln v.
Proof. intros V. assert (ln v < ln 1) by (apply ln_increasing; lra). rewrite ln_1 in *. lra. Qed.
Definition weight u v := if Rle_bool u q then exp (- Rpower v (1 / d)) else Rpower (1 - ln v) (d - 1).
Definition value u v := if Rle_bool u q then Rpower v (1 / d) else 1 - ln v.
Lemma try_weight u v w : 0 < v -> gamma_try real_ops d u v w = if Rle_bool w (weight u v) then Some (value u v) else None.
Proof. intros V. unfold weight, value. destruct (Rle_bool_spec u q); [now apply try_low|now apply try_high]. Qed.
Lemma weight_range u v : 0 < v < 1 -> 0 <= weight u v <= 1.
Proof.
  intros V. unfold weight. destruct (Rle_bool u q).
  - split; [left; apply exp_pos|]. pose proof (pow_pos v (1 / d)). apply Rle_trans with (exp 0); [apply exp_le; lra|rewrite exp_0; lra].
  - split; [left; apply pow_pos|]. apply pow_one. now apply high_range.
Qed.
Lemma within_eq a b x a' b' x' : (a <= x <= b <-> a' <= x' <= b') -> within a b x = within a' b' x'.
Proof.
  intros H. unfold within. destruct (Rle_bool_spec a x), (Rle_bool_spec x b), (Rle_bool_spec a' x'), (Rle_bool_spec x' b'); cbn; try reflexivity; exfalso; lra.
Qed.
Lemma v_integral u a b : 0 < a <= b ->
  is_RInt (fun v => if within a b (value u v) then weight u v else 0) 0 1
    (if Rle_bool u q then d * RInt (gamma_shape d) (Rmin 1 a) (Rmin 1 b) else exp 1 * RInt (gamma_shape d) (Rmax 1 a) (Rmax 1 b)).
Proof.
  intros [P L]. unfold value, weight. destruct (Rle_bool u q).
  - apply (is_ext (fun v => if within (Rpower a d) (Rpower b d) v then exp (- Rpower v (1 / d)) else 0)); [lra| |].
    { intros v V. rewrite (within_eq a b (Rpower v (1 / d)) (Rpower a d) (Rpower b d) v); [reflexivity|]. apply low_between; lra. }
    assert (C : forall x, 0 < x -> clamp (Rpower x d) = Rpower (Rmin 1 x) d).
    { intros x X. unfold clamp. assert (Rmin 1 (Rpower x d) = Rpower (Rmin 1 x) d).
      { unfold Rmin. destruct (Rle_dec 1 x) as [H|H].
        - assert (Rpower 1 d <= Rpower x d) by (apply pow_le; lra). rewrite pow_1 in *. destruct (Rle_dec 1 (Rpower x d)); lra.
        - assert (Rpower x d <= Rpower 1 d) by (apply pow_le; lra). rewrite pow_1 in *. destruct (Rle_dec 1 (Rpower x d)); lra. }
      rewrite H. apply Rmax_right. left. apply pow_pos. }
    apply int_between; [apply pow_le; lra|]. rewrite !C by lra.
    assert (M : 0 < Rmin 1 a <= Rmin 1 b) by (unfold Rmin; repeat destruct (Rle_dec _ _); lra).
    rewrite low_mass by exact M. apply correct. apply exr. intros x [X _]. apply (cont_exp_neg (fun v => Rpower v (1 / d))). apply cont_pow.
    pose proof (pow_pos (Rmin 1 a) d). pose proof (pow_pos (Rmin 1 b) d). unfold Rmin in X at 1. destruct (Rle_dec _ _); lra.
  - apply (is_ext (fun v => if within (exp (1 - b)) (exp (1 - a)) v then Rpower (1 - ln v) (d - 1) else 0)); [lra| |].
    { intros v V. rewrite (within_eq a b (1 - ln v) (exp (1 - b)) (exp (1 - a)) v); [reflexivity|]. apply high_between; lra. }
    assert (C : forall x, clamp (exp (1 - x)) = exp (1 - Rmax 1 x)).
    { intros x. unfold clamp. assert (H : Rmin 1 (exp (1 - x)) = exp (1 - Rmax 1 x)).
      { unfold Rmax, Rmin. destruct (Rle_dec 1 x) as [H|H].
        - assert (exp (1 - x) <= exp 0) by (apply exp_le; lra). rewrite exp_0 in *. destruct (Rle_dec 1 (exp (1 - x))); lra.
        - assert (exp 0 <= exp (1 - x)) by (apply exp_le; lra). replace (1 - 1) with 0 by ring. rewrite exp_0 in *. destruct (Rle_dec 1 (exp (1 - x))); lra. }
      rewrite H. apply Rmax_right. left. apply exp_pos. }
    apply int_between; [apply exp_le; lra|]. rewrite !C.
    assert (M : 1 <= Rmax 1 a <= Rmax 1 b) by (unfold Rmax; repeat destruct (Rle_dec _ _); lra).
    rewrite high_mass by exact M. apply correct. apply exr. intros x [X1 X2].
    assert (E : exp (1 - Rmax 1 b) <= exp (1 - Rmax 1 a)) by (apply exp_le; lra). rewrite Rmin_left in X1 by exact E. rewrite Rmax_right in X2 by exact E.
    pose proof (exp_pos (1 - Rmax 1 b)). apply (continuous_comp (fun v => 1 - ln v) (fun y => Rpower y (d - 1))).
    + apply cdiff. auto_derive. lra.
    + apply cont_pow. assert (ln x <= ln (exp (1 - Rmax 1 a))) by (apply ln_le; lra). rewrite ln_exp in *. lra.
Qed.
Lemma round_mean a b : 0 < a <= b ->
  is_mean 3 (fun us => chi (match us with [u; v; w] => match gamma_try real_ops d u v w with Some x => within a b x | None => false end | _ => false end)) (const * RInt (gamma_shape d) a b).
Proof.
  intros H. exists (fun u => if Rle_bool u q then d * RInt (gamma_shape d) (Rmin 1 a) (Rmin 1 b) else exp 1 * RInt (gamma_shape d) (Rmax 1 a) (Rmax 1 b)). split.
  - intros u U. exists (fun v => if within a b (value u v) then weight u v else 0). split; [|now apply v_integral].
    intros v V. exists (fun w => if within a b (value u v) then chi (Rle_bool w (weight u v)) else 0). split.
    + intros w W. cbn [is_mean]. rewrite try_weight by lra. destruct (Rle_bool w (weight u v)); destruct (within a b (value u v)); reflexivity.
    + destruct (within a b (value u v)); [apply int_le; now apply weight_range|apply int_zero].
  - pose proof q_range as Q. pose proof (exp_pos 1) as E1. rewrite (mass a b H). set (A := RInt _ (Rmin 1 a) _). set (B := RInt _ (Rmax 1 a) _).
    replace (const * (A + B)) with ((q - 0) * (d * A) + (1 - q) * (exp 1 * B)) by (unfold const, q; field; lra).
    apply (chasles _ 0 q 1).
    + apply (is_ext (fun _ => d * A)); [lra| |apply int_const]. intros u U. rewrite Rle_bool_true by lra. reflexivity.
    + apply (is_ext (fun _ => exp 1 * B)); [lra| |apply int_const]. intros u U. rewrite Rle_bool_false by lra. reflexivity.
Qed.
End Real.

(** integer shape *)
Definition erl (n : nat) (y : R) : R := if Rle_bool 0 y then 1 - exp (- y) * exp_series n y else 0.
(** sum over i < n of (y + ln (1 - u))^(i + 1) / (i + 1)! *)
Fixpoint prim (n : nat) (x : R) : R := match n with O => 0 | S n => prim n x + x ^ (S n) / INR (fact (S n)) end.
Lemma prim_derive n x : is_derive (prim n) x (exp_series n x).
Proof.
  induction n as [|n IH]; cbn [prim exp_series].
  - apply (is_derive_const (K := R_AbsRing) (V := R_NormedModule)).
  - apply (is_derive_plus (K := R_AbsRing) (V := R_NormedModule) (prim n) (fun x => x ^ S n / INR (fact (S n)))); [exact IH|].
    auto_derive; [exact I|]. change (fact n + n * fact n)%nat with (S n * fact n)%nat. rewrite mult_INR. change (match n with 0%nat => 1 | S _ => INR n + 1 end) with (INR (S n)).
    pose proof (INR_fact_neq_0 n). assert (INR (S n) <> 0) by (now apply not_0_INR). field. split; assumption.
Qed.
Lemma prim_series n x : exp_series (S n) x = 1 + prim n x.
Proof. induction n as [|n IH]; [cbn; field|]. change (exp_series (S (S n)) x) with (exp_series (S n) x + x ^ S n / INR (fact (S n))). rewrite IH. cbn [prim]. ring. Qed.
Lemma prim_0 n : prim n 0 = 0.
Proof. induction n as [|n IH]; cbn [prim]; [reflexivity|]. rewrite IH, pow_ne_zero by discriminate. unfold Rdiv. ring. Qed.
(** the complement of a uniform draw is a uniform draw *)
Lemma int_flip (f : R -> R) p : is_RInt f 0 1 p -> is_RInt (fun u => f (1 - u)) 0 1 p.
Proof.
  intros H. apply (is_RInt_swap (V := R_NormedModule)) in H.
  assert (K : is_RInt f (-1 * 0 + 1) (-1 * 1 + 1) (opp p)) by (replace (-1 * 0 + 1) with 1 by ring; replace (-1 * 1 + 1) with 0 by ring; exact H).
  apply (is_RInt_comp_lin (V := R_NormedModule)) in K. apply (is_RInt_opp (V := R_NormedModule)) in K. rewrite opp_opp in K.
  apply (is_ext (fun y => opp (scal (-1) (f (-1 * y + 1))))); [lra| |exact K]. intros t _. unfold opp, scal. cbn. unfold mult. cbn. replace (-1 * t + 1) with (1 - t) by ring. ring.
Qed.
Lemma mean_ext n : forall f g p, (forall us, f us = g us) -> is_mean n f p -> is_mean n g p.
Proof.
  induction n as [|n IH]; intros f g p H; cbn [is_mean]; [now rewrite H|]. intros (F & A & B). exists F. split; [|exact B]. intros u U. apply (IH (fun us => f (u :: us))); [intros us; apply H|now apply A].
Qed.
Lemma mean_flip n : forall f p, is_mean n f p -> is_mean n (fun us => f (map (fun u => 1 - u) us)) p.
Proof.
  induction n as [|n IH]; intros f p; cbn [is_mean map]; [auto|]. intros (F & A & B). exists (fun u => F (1 - u)). split; [|now apply int_flip].
  intros u U. apply (IH (fun us => f ((1 - u) :: us))). apply A. lra.
Qed.
Lemma round_probability d a b : 0 < d < 1 -> 0 < a <= b ->
  is_probability 3 (fun us => match us with [u; v; w] => gamma_try real_ops d (1 - u) (1 - v) (1 - w) | _ => None end) a b (const d * RInt (gamma_shape d) a b).
Proof.
  intros D H. pose proof (mean_flip 3 _ _ (round_mean d D a b H)) as M. unfold is_probability. eapply mean_ext; [|exact M].
  intros [|u [|v [|w [|]]]]; reflexivity.
Qed.
(** one more draw *)
Lemma erl_step n y : is_RInt (fun u => erl n (y + ln u)) 0 1 (erl (S n) y).
Proof.
  unfold erl at 2. destruct (Rle_bool_spec 0 y) as [P|P].
  - assert (E1 : 0 < exp (- y) <= 1) by (split; [apply exp_pos|apply Rle_trans with (exp 0); [apply exp_le; lra|rewrite exp_0; lra]]).
    set (F := fun u => u - exp (- y) * prim n (y + ln u)).
    replace (1 - exp (- y) * exp_series (S n) y) with (0 + (F 1 - F (exp (- y)))).
    2: { unfold F. rewrite prim_series, ln_1, ln_exp, Rplus_0_r. replace (y + - y) with 0 by ring. rewrite prim_0. ring. }
    apply (chasles _ 0 (exp (- y)) 1).
    + apply (is_ext (fun _ => 0)); [lra| |apply int_zero]. intros u U. unfold erl. rewrite Rle_bool_false; [reflexivity|].
      assert (ln u < ln (exp (- y))) by (apply ln_increasing; lra). rewrite ln_exp in *. lra.
    + assert (DF : forall u, 0 < u -> is_derive F u (1 - exp (- (y + ln u)) * exp_series n (y + ln u))).
      { intros u U. assert (H : is_derive (fun u => prim n (y + ln u)) u (/ u * exp_series n (y + ln u))).
        { apply (is_derive_comp (K := R_AbsRing) (V := R_NormedModule) (prim n) (fun u => y + ln u)); [apply prim_derive|]. auto_derive; [exact U|]. field. lra. }
        replace (exp (- (y + ln u))) with (exp (- y) * / u) by (rewrite Ropp_plus_distr, exp_plus, (exp_Ropp (ln u)), exp_ln by exact U; reflexivity).
        unfold F. replace (1 - exp (- y) * / u * exp_series n (y + ln u)) with (minus 1 (exp (- y) * (/ u * exp_series n (y + ln u)))) by (unfold minus, plus, opp; cbn; ring).
        apply (is_derive_minus (K := R_AbsRing) (V := R_NormedModule) (fun u => u) (fun u => exp (- y) * prim n (y + ln u))); [apply (is_derive_id (K := R_AbsRing))|].
        apply is_derive_scal; exact H. }
      apply (is_ext (fun u => 1 - exp (- (y + ln u)) * exp_series n (y + ln u))); [lra| |].
      { intros u U. unfold erl. rewrite Rle_bool_true; [reflexivity|]. assert (ln (exp (- y)) <= ln u) by (apply ln_le; lra). rewrite ln_exp in *. lra. }
      apply (is_RInt_derive (V := R_CompleteNormedModule) F); intros u U; rewrite Rmin_left, Rmax_right in U by lra; [apply DF; lra|].
      apply cdiff. assert (U0 : 0 < u) by lra. clear -U0. assert (S1 : forall x, ex_derive (exp_series n) x).
      { intros x. induction n as [|n IH]; cbn [exp_series]; [apply ex_derive_const|]. apply (ex_derive_plus (K := R_AbsRing) (V := R_NormedModule) (exp_series n) (fun x => x ^ n / INR (fact n))); [exact IH|]. auto_derive. exact I. }
      auto_derive. split; [exact U0|]. split; [apply S1|]. split; [exact U0|exact I].
  - apply (is_ext (fun _ => 0)); [lra| |apply int_zero]. intros u U. unfold erl. rewrite Rle_bool_false; [reflexivity|]. assert (ln u < ln 1) by (apply ln_increasing; lra). rewrite ln_1 in *. lra.
Qed.
Lemma sum_mean theta x n : 0 < theta -> forall acc,
  is_mean n (fun us => chi (Rle_bool (theta * - fold_left (fun s u => s + ln u) us acc) x)) (erl n (x / theta + acc)).
Proof.
  intros T. induction n as [|n IH]; intros acc; cbn [is_mean fold_left].
  - unfold erl. cbn [exp_series]. rewrite Rmult_0_r, Rminus_0_r. assert (E : theta * - acc <= x <-> 0 <= x / theta + acc).
    { split; intros H.
      - apply Rmult_le_reg_l with theta; [exact T|]. replace (theta * (x / theta + acc)) with (x - theta * - acc) by (field; lra). lra.
      - apply Rmult_le_compat_l with (r := theta) in H; [|lra]. replace (theta * (x / theta + acc)) with (x - theta * - acc) in H by (field; lra). lra. }
    destruct (Rle_bool_spec (theta * - acc) x), (Rle_bool_spec 0 (x / theta + acc)); try reflexivity; exfalso; lra.
  - exists (fun u => erl n (x / theta + acc + ln u)). split; [|apply erl_step]. intros u U. rewrite Rplus_assoc. apply IH.
Qed.
Lemma gamma_distribution n theta x : 0 < theta ->
  is_mean n (fun us => chi (Rle_bool (gamma_of_draws real_ops theta us) x)) (gamma_cdf n theta x).
Proof.
  intros T. pose proof (mean_flip n _ _ (sum_mean theta x n T 0)) as M. rewrite Rplus_0_r in M.
  assert (C : gamma_cdf n theta x = erl n (x / theta)).
  { unfold gamma_cdf, erl. assert (E : 0 <= x <-> 0 <= x / theta).
    { split; intros H; [apply Rmult_le_reg_l with theta; [exact T|]; replace (theta * (x / theta)) with x by (field; lra); lra|].
      apply Rmult_le_compat_l with (r := theta) in H; [|lra]. replace (theta * (x / theta)) with x in H by (field; lra). lra. }
    destruct (Rle_bool_spec 0 x), (Rle_bool_spec 0 (x / theta)); try reflexivity; exfalso; lra. }
  rewrite C. eapply mean_ext; [|exact M]. intros us. cbv beta. unfold gamma_of_draws, real_ops. cbn [fmul fneg fadd fzero flog fsub fone].
  do 3 f_equal. generalize 0 as a. induction us as [|u us IH]; intros a; cbn; [reflexivity|]. apply IH.
Qed.
Lemma mean_unique n : forall f p q, is_mean n f p -> is_mean n f q -> p = q.
Proof.
  induction n as [|n IH]; intros f p q; cbn [is_mean]; [congruence|]. intros (F1 & A1 & B1) (F2 & A2 & B2).
  assert (B3 : is_RInt F2 0 1 p). { apply (is_ext F1); [lra| |exact B1]. intros t T. apply (IH _ _ _ (A1 t T) (A2 t T)). }
  rewrite <- (is_RInt_unique (V := R_CompleteNormedModule) _ _ _ _ B3). apply (is_RInt_unique (V := R_CompleteNormedModule)). exact B2.
Qed.
