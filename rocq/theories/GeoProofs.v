From Coq Require Import Reals Lra Floats.SpecFloat.
From Flocq Require Import Core IEEE754.BinarySingleNaN.
From Verif Require Import Base Float FloatProofs GeoModel GeoSpec.
Local Open Scope R_scope.

(** lines in exact arithmetic *)
Lemma cross_exact v w : cross exactR v w = fst v * snd w - snd v * fst w. Proof. reflexivity. Qed.
Lemma intersection_on l1 l2 : ~ parallel (dir l1) (dir l2) ->
  on_line (origin l1) (dir l1) (getIntersection exactR l1 l2) /\ on_line (origin l2) (dir l2) (getIntersection exactR l1 l2).
Proof.
  destruct l1 as [[x1 y1] [a1 b1]], l2 as [[x2 y2] [a2 b2]]. unfold parallel, getIntersection, on_line, at_param, padd, pscale, psub, cross.
  cbn [origin dir fst snd nadd nsub nmul ndiv exactR]. intros H. assert (D : a1 * b2 - b1 * a2 <> 0) by lra. split.
  - exists ((a2 * (y1 - y2) - b2 * (x1 - x2)) / (a1 * b2 - b1 * a2)). f_equal; ring.
  - exists ((a1 * (y1 - y2) - b1 * (x1 - x2)) / (a1 * b2 - b1 * a2)). f_equal; field; assumption.
Qed.
Lemma intersection_unique l1 l2 p q : ~ parallel (dir l1) (dir l2) -> on_line (origin l1) (dir l1) p -> on_line (origin l2) (dir l2) p ->
  on_line (origin l1) (dir l1) q -> on_line (origin l2) (dir l2) q -> p = q.
Proof.
  destruct l1 as [[x1 y1] [a1 b1]], l2 as [[x2 y2] [a2 b2]]. unfold parallel, on_line, at_param. cbn [origin dir fst snd].
  intros H [t1 ->] [s1 E1] [t2 ->] [s2 E2]. injection E1 as E1x E1y. injection E2 as E2x E2y.
  assert (D : a1 * b2 - b1 * a2 <> 0) by lra.
  assert (X : (t1 - t2) * (a1 * b2 - b1 * a2) = 0).
  { assert (a1 * (t1 - t2) = a2 * (s1 - s2)) as Ea by lra. assert (b1 * (t1 - t2) = b2 * (s1 - s2)) as Eb by lra.
    transitivity (b2 * (a1 * (t1 - t2)) - a2 * (b1 * (t1 - t2))); [ring|]. rewrite Ea, Eb. ring. }
  apply Rmult_integral in X. destruct X as [X|X]; [|contradiction]. assert (t1 = t2) as -> by lra. reflexivity.
Qed.

(** distances *)
Lemma len_exact v : plen exactR v = sqrt (fst v * fst v + snd v * snd v).
Proof. destruct v as [a b]. unfold plen, len, dot. cbn. f_equal. ring. Qed.
Lemma dot_exact v w : pdot exactR v w = fst v * fst w + snd v * snd w.
Proof. destruct v, w. unfold pdot, dot. cbn. ring. Qed.
Lemma sq_nz v : v <> (0, 0) -> 0 < fst v * fst v + snd v * snd v.
Proof.
  destruct v as [a b]. cbn [fst snd]. intros H. destruct (Req_dec a 0) as [-> |A].
  - destruct (Req_dec b 0) as [-> |B]; [now destruct H|]. nra.
  - assert (0 < a * a) by nra. nra.
Qed.
Lemma line_distance_sqrt c n : 0 < n -> Rabs (c / sqrt n) = sqrt (c * c / n).
Proof.
  intros H. assert (S : 0 < sqrt n) by now apply sqrt_lt_R0. rewrite <- (sqrt_Rsqr_abs (c / sqrt n)). f_equal. unfold Rsqr.
  replace n with (sqrt n * sqrt n) at 3 by (apply sqrt_sqrt; lra). field. lra.
Qed.
Lemma lagrange o v p t : let w := (fst p - fst o, snd p - snd o) in let c := fst v * snd w - snd v * fst w in
  0 < fst v * fst v + snd v * snd v ->
  let q := at_param o v t in
  (fst p - fst q) * (fst p - fst q) + (snd p - snd q) * (snd p - snd q) =
  c * c / (fst v * fst v + snd v * snd v) + (along o v p - t * (fst v * fst v + snd v * snd v)) * (along o v p - t * (fst v * fst v + snd v * snd v)) / (fst v * fst v + snd v * snd v).
Proof.
  destruct o as [x y], v as [a b], p as [px py]. unfold at_param, along. cbn. intros H. field. lra.
Qed.
Lemma sq_le_div a b : 0 < b -> 0 <= a * a / b.
Proof. intros H. apply Rmult_le_pos; [apply Rle_0_sqr|apply Rlt_le, Rinv_0_lt_compat, H]. Qed.
Lemma toLine_le p l t : dir l <> (0, 0) -> disToLine exactR p l <= distance p (at_param (origin l) (dir l) t).
Proof.
  intros H. apply sq_nz in H. destruct l as [o v]. cbn [dir origin] in *. unfold disToLine. cbn [dir origin]. cbv zeta.
  cbn [nabs ndiv exactR]. rewrite len_exact, line_distance_sqrt by assumption. unfold distance. apply sqrt_le_1_alt. rewrite lagrange by assumption.
  unfold psub. cbn [nsub exactR fst snd]. rewrite cross_exact. cbn [fst snd].
  pose proof (sq_le_div (along o v p - t * (fst v * fst v + snd v * snd v)) _ H). lra.
Qed.
Lemma toLine_eq p l : dir l <> (0, 0) -> disToLine exactR p l =
  distance p (at_param (origin l) (dir l) (along (origin l) (dir l) p / (fst (dir l) * fst (dir l) + snd (dir l) * snd (dir l)))).
Proof.
  intros H. apply sq_nz in H. destruct l as [o v]. cbn [dir origin] in *. unfold disToLine. cbn [dir origin]. cbv zeta.
  cbn [nabs ndiv exactR]. rewrite len_exact, line_distance_sqrt by assumption. unfold distance. f_equal. rewrite lagrange by assumption.
  unfold psub. cbn [nsub exactR fst snd]. rewrite cross_exact. cbn [fst snd].
  replace (along o v p - along o v p / (fst v * fst v + snd v * snd v) * (fst v * fst v + snd v * snd v)) with 0 by (field; lra).
  unfold Rdiv. ring.
Qed.
Definition eps : R := 1 / 1000000.
Lemma dcmp_exact x : ((dcmp exactR x <? 0)%Z = true <-> x <= - eps) /\ ((0 <? dcmp exactR x)%Z = true <-> eps <= x).
Proof.
  unfold dcmp. cbn [nlt nabs neps nzero exactR]. fold eps. assert (E : 0 < eps) by (unfold eps; lra).
  destruct (Rlt_bool_spec (Rabs x) eps) as [L|L].
  - apply Rabs_def2 in L. split; split; intros; try discriminate; lra.
  - destruct (Rlt_bool_spec 0 x) as [P|P].
    + rewrite Rabs_pos_eq in L by lra. split; split; intros; try discriminate; try reflexivity; lra.
    + rewrite Rabs_left1 in L by lra. split; split; intros; try discriminate; try reflexivity; lra.
Qed.
Lemma distance_sq p q r : (fst p - fst q) * (fst p - fst q) + (snd p - snd q) * (snd p - snd q) <= (fst p - fst r) * (fst p - fst r) + (snd p - snd r) * (snd p - snd r) ->
  distance p q <= distance p r.
Proof. apply sqrt_le_1_alt. Qed.
Definition unit_interval t := 0 <= t <= 1.
(** which of the three branches is taken, and what it returns *)
Lemma toSegment_cases p l : 
  (along (origin l) (dir l) p <= - eps -> disToSegment exactR p l = distance p (at_param (origin l) (dir l) 0)) /\
  (- eps < along (origin l) (dir l) p -> eps <= along (origin l) (dir l) p - (fst (dir l) * fst (dir l) + snd (dir l) * snd (dir l)) ->
     disToSegment exactR p l = distance p (at_param (origin l) (dir l) 1)) /\
  (- eps < along (origin l) (dir l) p -> along (origin l) (dir l) p - (fst (dir l) * fst (dir l) + snd (dir l) * snd (dir l)) < eps ->
     disToSegment exactR p l = disToLine exactR p l).
Proof.
  destruct l as [[x y] [a b]], p as [px py]. unfold disToSegment, disToLine. cbn [origin dir]. cbv zeta. rewrite !dot_exact, !len_exact. unfold psub, along. cbn [fst snd nsub exactR].
  destruct (dcmp_exact (a * (px - x) + b * (py - y))) as [N1 _]. destruct (dcmp_exact (a * (px - x - a) + b * (py - y - b))) as [_ P1].
  assert (E : a * (px - x - a) + b * (py - y - b) = a * (px - x) + b * (py - y) - (a * a + b * b)) by ring. rewrite <- E.
  split; [|split].
  - intros H. apply N1 in H. rewrite H. unfold distance, at_param. cbn [fst snd]. f_equal. ring.
  - intros H1 H2. destruct (dcmp exactR (a * (px - x) + b * (py - y))%R <? 0)%Z eqn:C; [pose proof (proj1 N1 eq_refl); lra|]. apply P1 in H2. rewrite H2.
    unfold distance, at_param. cbn [fst snd]. f_equal. ring.
  - intros H1 H2. destruct (dcmp exactR (a * (px - x) + b * (py - y))%R <? 0)%Z eqn:C; [pose proof (proj1 N1 eq_refl); lra|].
    destruct (0 <? dcmp exactR (a * (px - x - a) + b * (py - y - b))%R)%Z eqn:C2; [pose proof (proj1 P1 eq_refl); lra|]. reflexivity.
Qed.
Lemma before_start o v p t : along o v p <= 0 -> 0 <= t -> distance p (at_param o v 0) <= distance p (at_param o v t).
Proof.
  destruct o as [x y], v as [a b], p as [px py]. unfold along. cbn [fst snd]. intros H T. apply distance_sq. unfold at_param. cbn [fst snd].
  assert (0 <= t * - (a * (px - x) + b * (py - y))) by (apply Rmult_le_pos; lra). assert (0 <= (t * a) * (t * a)) by apply Rle_0_sqr. assert (0 <= (t * b) * (t * b)) by apply Rle_0_sqr. nra.
Qed.
Lemma after_end o v p t : 0 <= along o v p - (fst v * fst v + snd v * snd v) -> t <= 1 -> distance p (at_param o v 1) <= distance p (at_param o v t).
Proof.
  destruct o as [x y], v as [a b], p as [px py]. unfold along. cbn [fst snd]. intros H T. apply distance_sq. unfold at_param. cbn [fst snd].
  assert (0 <= (1 - t) * (a * (px - x) + b * (py - y) - (a * a + b * b))) by (apply Rmult_le_pos; lra).
  assert (0 <= ((1 - t) * a) * ((1 - t) * a)) by apply Rle_0_sqr. assert (0 <= ((1 - t) * b) * ((1 - t) * b)) by apply Rle_0_sqr. nra.
Qed.

(** compound assignment *)
Section Assign.
Context {N : Type} (A : num N).
Lemma nth_ext_len (p q : list N) d : length p = length q -> (forall i, (i < length p)%nat -> nth i p d = nth i q d) -> p = q.
Proof. intros L H. now apply (nth_ext p q d d L). Qed.
Lemma combine_loop_spec f q : forall n i (p : list N), length p = (i + n)%nat -> (match q with Some q => length q = length p | None => True end) ->
  combine_loop A n i f q p = firstn i p ++ zip f (skipn i p) (skipn i (match q with Some q => q | None => p end)).
Proof.
  induction n as [|n IH]; intros i p L Q; cbn [combine_loop].
  - rewrite (skipn_all2 p) by lia. cbn [zip]. rewrite app_nil_r. now rewrite firstn_all2 by lia.
  - set (o := match q with Some q => q | None => p end).
    assert (Lo : length o = length p) by (unfold o; destruct q; auto).
    assert (X : forall (l : list N) x, (i < length l)%nat -> skipn i l = nth i l x :: skipn (S i) l).
    { intros l x. revert l. clear. induction i as [|i IH]; intros [|h t] H; cbn [length] in H; try lia; [reflexivity|]. cbn [skipn nth]. rewrite IH by lia. reflexivity. }
    rewrite IH.
    + rewrite (X p (nzero A)), (X o (nzero A)) by lia. cbn [zip].
      set (v := f (nth i p (nzero A)) (nth i o (nzero A))).
      assert (F : firstn (S i) (upd p i v) = firstn i p ++ [v]).
      { clearbody v. clear - L. revert p L. induction i as [|i IH]; intros [|h t] L; cbn [length] in L; try lia; [reflexivity|]. cbn [upd]. change (firstn (S (S i)) (h :: upd t i v)) with (h :: firstn (S i) (upd t i v)). rewrite IH by lia. reflexivity. }
      assert (K : forall (l : list N) x, skipn (S i) (upd l i x) = skipn (S i) l).
      { clear. induction i as [|i IH]; intros [|h t] x; try reflexivity. cbn [upd]. exact (IH t x). }
      match goal with |- context [upd p i ?w] => change w with v end. rewrite F, K, <- app_assoc. cbn [app]. f_equal. f_equal. f_equal. unfold o. destruct q as [q|]; [reflexivity|]. apply K.
    + rewrite upd_length. lia.
    + destruct q; [now rewrite upd_length|exact I].
Qed.
Lemma add_assign_spec p q : length p = length q -> add_assign A p (Some q) = point_add A p q /\ sub_assign A p (Some q) = point_sub A p q.
Proof. intros L. unfold add_assign, sub_assign. split; rewrite combine_loop_spec by (cbn; congruence); reflexivity. Qed.
Lemma add_assign_self p : add_assign A p None = point_add A p p /\ sub_assign A p None = point_sub A p p.
Proof. unfold add_assign, sub_assign. split; rewrite combine_loop_spec by (cbn; auto); reflexivity. Qed.
Lemma assign_loop_spec f c : forall n i (p : list N), length p = (i + n)%nat ->
  assign_loop A n i f (Val c) p = firstn i p ++ map (fun a => f a c) (skipn i p).
Proof.
  induction n as [|n IH]; intros i p L; cbn [assign_loop].
  - rewrite (skipn_all2 p) by lia. cbn [map]. rewrite app_nil_r. now rewrite firstn_all2 by lia.
  - rewrite IH by (rewrite upd_length; lia). cbn [deref]. set (v := f (nth i p (nzero A)) c).
    assert (X : skipn i p = nth i p (nzero A) :: skipn (S i) p).
    { revert p L v. clear. induction i as [|i IH]; intros [|h t] H _; cbn [length] in H; try lia; [reflexivity|]. cbn [skipn nth]. rewrite IH by lia. reflexivity. }
    assert (F : firstn (S i) (upd p i v) = firstn i p ++ [v]).
    { clearbody v. clear - L. revert p L. induction i as [|i IH]; intros [|h t] L; cbn [length] in L; try lia; [reflexivity|]. cbn [upd]. change (firstn (S (S i)) (h :: upd t i v)) with (h :: firstn (S i) (upd t i v)). rewrite IH by lia. reflexivity. }
    assert (K : forall (l : list N) x, skipn (S i) (upd l i x) = skipn (S i) l).
    { clear. induction i as [|i IH]; intros [|h t] x; try reflexivity. cbn [upd]. exact (IH t x). }
    rewrite F, K, X, <- app_assoc. reflexivity.
Qed.
Lemma scale_assign_spec p c : scale_assign A p (Val c) = point_scale A p c /\ quot_assign A p (Val c) = point_quot A p c.
Proof. unfold scale_assign, quot_assign. split; rewrite assign_loop_spec by reflexivity; reflexivity. Qed.
(** p *= p[i]: elements up to index i are scaled by p[i], the later ones by the new p[i] *)
Lemma assign_loop_own f j : forall n i (p : list N), length p = (i + n)%nat -> forall k, (i <= k < i + n)%nat -> forall d,
  nth k (assign_loop A n i f (Own j) p) d =
    f (nth k p (nzero A)) (if (k <=? j)%nat then nth j p (nzero A) else if (j <? i)%nat then nth j p (nzero A) else f (nth j p (nzero A)) (nth j p (nzero A))).
Proof.
  assert (Keep : forall n i (p : list N) k d, (k < i)%nat -> nth k (assign_loop A n i f (Own j) p) d = nth k p d).
  { induction n as [|n IH]; intros i p k d K; cbn [assign_loop]; [reflexivity|]. rewrite IH by lia. apply nth_upd_neq. lia. }
  induction n as [|n IH]; intros i p L k K d; [lia|]. cbn [assign_loop deref].
  destruct (Nat.eq_dec k i) as [-> |Nk].
  - rewrite Keep by lia. rewrite nth_upd_eq by lia. destruct (Nat.leb_spec i j); [reflexivity|]. destruct (Nat.ltb_spec j i); [reflexivity|lia].
  - rewrite IH by (try rewrite upd_length; lia). rewrite nth_upd_neq by lia. f_equal.
    destruct (Nat.leb_spec k j).
    + rewrite nth_upd_neq by lia. reflexivity.
    + destruct (Nat.ltb_spec j (S i)), (Nat.ltb_spec j i); try lia.
      * rewrite nth_upd_neq by lia. reflexivity.
      * assert (j = i) as -> by lia. rewrite nth_upd_eq by lia. reflexivity.
      * rewrite nth_upd_neq by lia. reflexivity.
Qed.
End Assign.

(** comparisons of double points *)
Lemma deqb_spec x y : dvalid x = true -> dvalid y = true -> dfinite x = true -> dfinite y = true -> deqb x y = Req_bool (real x) (real y).
Proof.
  intros Vx Vy. destruct (to_bf x Vx) as [a ->], (to_bf y Vy) as [b ->]. rewrite !finite_bf, !real_bf. intros Fx Fy. exact (Beqb_correct _ _ a b Fx Fy).
Qed.
Definition finite_point (p : list double) : Prop := Forall (fun x => dvalid x = true /\ dfinite x = true) p.
Lemma compare_lt p : forall q, length p = length q -> finite_point p -> finite_point q ->
  (point_lt ieee p q = true <-> lex_lt (map real p) (map real q)).
Proof.
  induction p as [|a p IH]; intros [|b q] L P Q; try discriminate; unfold point_lt; cbn [compare_loop map].
  - split; [discriminate|]. intros H. inversion H.
  - inversion P as [|? ? [Va Fa] P']; subst. inversion Q as [|? ? [Vb Fb] Q']; subst. cbn [nne nlt ieee]. rewrite deqb_spec, dltb_spec by assumption.
    destruct (Req_bool_spec (real a) (real b)) as [E|E]; cbn [negb].
    + rewrite E. destruct (IH q) as [I1 I2]; [cbn in L; lia|assumption|assumption|]. split; [intros H; constructor 2; exact (I1 H)|]. intros H. apply I2. inversion H; subst; [lra|assumption].
    + destruct (Rlt_bool_spec (real a) (real b)); split; intros H'; try discriminate; try reflexivity; [now constructor|]. inversion H'; subst; lra.
Qed.
Lemma compare_le p : forall q, length p = length q -> finite_point p -> finite_point q ->
  (point_le ieee p q = true <-> lex_lt (map real p) (map real q) \/ map real p = map real q).
Proof.
  induction p as [|a p IH]; intros [|b q] L P Q; try discriminate; unfold point_le; cbn [compare_loop map].
  - split; [now right|reflexivity].
  - inversion P as [|? ? [Va Fa] P']; subst. inversion Q as [|? ? [Vb Fb] Q']; subst. cbn [nne nlt ieee]. rewrite deqb_spec, dltb_spec by assumption.
    destruct (Req_bool_spec (real a) (real b)) as [E|E]; cbn [negb].
    + rewrite E. destruct (IH q) as [I1 I2]; [cbn in L; lia|assumption|assumption|]. split.
      * intros H. destruct (I1 H) as [H'| ->]; [left; now constructor 2|now right].
      * intros [H|H]; apply I2; [inversion H; subst; [lra|now left]|right; congruence].
    + destruct (Rlt_bool_spec (real a) (real b)); split; intros H'; try discriminate; try reflexivity; [left; now constructor|].
      destruct H' as [H'|H']; [inversion H'; subst; lra|]. injection H' as H' _. lra.
Qed.
Lemma deqb_sym x y : deqb x y = deqb y x.
Proof.
  unfold deqb, SFeqb. destruct x as [[]|[]| |[] m e], y as [[]|[]| |[] m' e']; try reflexivity; cbn [SFcompare];
    rewrite (Z.compare_antisym e e'); destruct (e ?= e')%Z; cbn [CompOpp]; try reflexivity;
    change (Pos.compare_cont Eq m' m) with (Pos.compare m' m); change (Pos.compare_cont Eq m m') with (Pos.compare m m'); rewrite (Pos.compare_antisym m m'); destruct (Pos.compare m m'); reflexivity.
Qed.
Lemma compare_gt p : forall q, point_gt ieee p q = point_lt ieee q p.
Proof. induction p as [|a p IH]; intros [|b q]; try reflexivity. unfold point_gt, point_lt. cbn [compare_loop nne ieee]. rewrite (deqb_sym b a). destruct (negb (deqb a b)); [reflexivity|]. apply IH. Qed.
Lemma compare_ge p : forall q, point_ge ieee p q = point_le ieee q p.
Proof. induction p as [|a p IH]; intros [|b q]; try reflexivity. unfold point_ge, point_le. cbn [compare_loop nne ieee]. rewrite (deqb_sym b a). destruct (negb (deqb a b)); [reflexivity|]. apply IH. Qed.
Lemma lex_irrefl p : ~ lex_lt p p.
Proof. induction p as [|a p IH]; intros H; inversion H; subst; [lra|auto]. Qed.
Lemma lex_trans p q r : lex_lt p q -> lex_lt q r -> lex_lt p r.
Proof.
  intros H. revert r. induction H as [a b p q L|a p q L IH]; intros r H2; inversion H2; subst.
  - constructor. lra.
  - now constructor.
  - now constructor.
  - constructor 2. auto.
Qed.
Lemma lex_total p : forall q, length p = length q -> lex_lt p q \/ p = q \/ lex_lt q p.
Proof.
  induction p as [|a p IH]; intros [|b q] L; try discriminate; [now right; left|]. destruct (Rtotal_order a b) as [H|[-> |H]].
  - left. now constructor.
  - destruct (IH q) as [H|[-> |H]]; [cbn in L; lia| | |]; [left; now constructor 2|now right; left|right; right; now constructor 2].
  - right; right. constructor. lra.
Qed.

(** tolerant equality in binary64 *)
Lemma dabs_real x : dvalid x = true -> dvalid (dabs x) = true /\ dfinite (dabs x) = dfinite x /\ real (dabs x) = Rabs (real x).
Proof.
  destruct x as [s|s| |s m e]; cbn; intros V; repeat split; auto; try (now rewrite Rabs_R0).
  unfold real, SF2R. rewrite <- F2R_Zabs. now destruct s.
Qed.
Lemma rnd_opp a : rnd (- a) = - rnd a.
Proof. unfold rnd. apply round_NE_opp. Qed.
Lemma rnd_abs a : rnd (Rabs a) = Rabs (rnd a).
Proof. unfold rnd. apply round_NE_abs. typeclasses eauto. Qed.
Definition eps64 : double := neps ieee.
Lemma small_lt_big r a : Rabs r <= a -> a < big -> Rlt_bool (Rabs r) big = true.
Proof. intros. apply Rlt_bool_true. lra. Qed.
Lemma eps64_spec : dvalid eps64 = true /\ dfinite eps64 = true /\ real eps64 = rnd (1 / 1000000) /\ 0 <= rnd (1 / 1000000) <= 1.
Proof.
  assert (O : rnd 1 = 1) by (apply (rnd_pow 0); lia).
  assert (B : 0 <= rnd (1 / 1000000) <= 1).
  { split; [rewrite <- rnd_0|rewrite <- O]; apply rnd_le; lra. }
  assert (V1 : dvalid (dof 1) = true) by (vm_compute; reflexivity). assert (V2 : dvalid (dof 1000000) = true) by (vm_compute; reflexivity).
  assert (R1 : real (dof 1) = 1).
  { replace (dof 1) with (S754_finite false 4503599627370496 (-52)) by (vm_compute; reflexivity). unfold real, SF2R, F2R. cbn [Fnum Fexp cond_Zopp].
    change (-52)%Z with (- (52))%Z. rewrite bpow_opp. rewrite <- (IZR_Zpower radix2 52) by lia. change (Zpower radix2 52) with 4503599627370496%Z. field. }
  assert (R2 : real (dof 1000000) = 1000000).
  { replace (dof 1000000) with (S754_finite false 8589934592000000 (-33)) by (vm_compute; reflexivity). unfold real, SF2R, F2R. cbn [Fnum Fexp cond_Zopp].
    change (-33)%Z with (- (33))%Z. rewrite bpow_opp. rewrite <- (IZR_Zpower radix2 33) by lia. change (Zpower radix2 33) with 8589934592%Z. field. }
  destruct (ddiv_spec (dof 1) (dof 1000000)) as [V S]; [exact V1|exact V2|vm_compute; reflexivity|rewrite R2; lra|].
  rewrite R1, R2 in S. rewrite (small_lt_big _ 1) in S; [|rewrite Rabs_pos_eq; lra|change 1 with (bpow radix2 0); apply bpow_lt; lia].
  split; [exact V|]. destruct S as [S1 S2]. split; [exact S2|]. split; [exact S1|exact B].
Qed.
Lemma tolerant_one a b : dvalid a = true -> dvalid b = true -> dfinite a = true -> dfinite b = true ->
  dltb eps64 (dabs (dsub a b)) = Rlt_bool (rnd (1 / 1000000)) (rnd (Rabs (real a - real b))).
Proof.
  intros Va Vb Fa Fb. destruct eps64_spec as (Ve & Fe & Ee & Be). destruct (dsub_spec a b) as [V S]; try assumption.
  rewrite rnd_abs. destruct (Rlt_bool_spec (Rabs (rnd (real a - real b))) big) as [L|L].
  - destruct S as [S1 S2]. destruct (dabs_real _ V) as (V' & F' & R'). rewrite dltb_spec by (try assumption; congruence). now rewrite Ee, R', S1.
  - destruct S as [s ->]. assert (1 < big) by (change 1 with (bpow radix2 0); apply bpow_lt; lia). rewrite Rlt_bool_true by lra.
    vm_compute. reflexivity.
Qed.
Lemma tolerant_eq p : forall q, length p = length q -> finite_point p -> finite_point q ->
  (point_eq ieee p q = true <-> Forall2 (fun a b => rnd (Rabs (real a - real b)) <= rnd (1 / 1000000)) p q).
Proof.
  induction p as [|a p IH]; intros [|b q] L P Q; try discriminate; cbn [point_eq].
  - split; [constructor|reflexivity].
  - inversion P as [|? ? [Va Fa] P']; subst. inversion Q as [|? ? [Vb Fb] Q']; subst.
    pose proof (tolerant_one a b Va Vb Fa Fb) as T. change (neps ieee) with eps64. cbn [nlt nabs nsub ieee]. rewrite T.
    destruct (IH q) as [I1 I2]; [cbn in L; lia|assumption|assumption|].
    destruct (Rlt_bool_spec (rnd (1 / 1000000)) (rnd (Rabs (real a - real b)))) as [H|H]; split; intros X.
    + discriminate.
    + inversion X; subst. lra.
    + constructor; auto.
    + inversion X; subst. auto.
Qed.
Lemma dabs_sub_sym a b : dvalid a = true -> dvalid b = true -> dabs (dsub a b) = dabs (dsub b a).
Proof.
  intros Va Vb. destruct (dfinite a) eqn:Fa, (dfinite b) eqn:Fb.
  - destruct (dsub_spec a b) as [V S]; try assumption. destruct (dsub_spec b a) as [V' S']; try assumption.
    assert (E : real b - real a = - (real a - real b)) by ring. rewrite E, rnd_opp, Rabs_Ropp in S'.
    destruct (Rlt_bool_spec (Rabs (rnd (real a - real b))) big) as [L|L].
    + destruct S as [S1 S2], S' as [S1' S2']. destruct (dabs_real _ V) as (W1 & W2 & W3). destruct (dabs_real _ V') as (W1' & W2' & W3').
      destruct (Req_dec (rnd (real a - real b)) 0) as [Z|Z].
      * assert (Zero : forall x, dvalid x = true -> dfinite x = true -> real x = 0 -> dabs x = S754_zero false).
        { intros x Vx Fx Rx. destruct x as [s|s| |s m e]; try discriminate; [reflexivity|]. exfalso. unfold real, SF2R in Rx.
          apply eq_0_F2R in Rx. destruct s; discriminate. }
        rewrite (Zero (dsub a b)), (Zero (dsub b a)); auto; try congruence. rewrite S1', Z. ring.
      * destruct (to_bf _ W1) as [c Ec], (to_bf _ W1') as [d Ed]. rewrite Ec, Ed in *. f_equal. rewrite finite_bf in *. rewrite real_bf in *.
        assert (St : forall b : bf, is_finite b = true -> B2R b <> 0 -> is_finite_strict b = true) by (intros [ | | | ]; cbn; try congruence; tauto).
        assert (NZ : B2R c <> 0) by (rewrite W3, S1; now apply Rabs_no_R0).
        assert (EQ : B2R c = B2R d) by (rewrite W3, W3', S1, S1', Rabs_Ropp; reflexivity).
        apply B2R_inj; [apply St; congruence|apply St; congruence|assumption].
    + destruct S as [s ->], S' as [s' ->]. reflexivity.
  - destruct a, b; try discriminate; reflexivity.
  - destruct a, b; try discriminate; reflexivity.
  - destruct a as [[]|[]| |], b as [[]|[]| |]; try discriminate; reflexivity.
Qed.
Definition valid_point (p : list double) : Prop := Forall (fun x => dvalid x = true) p.
Lemma tolerant_sym p : forall q, valid_point p -> valid_point q -> point_eq ieee p q = point_eq ieee q p.
Proof.
  induction p as [|a p IH]; intros [|b q] P Q; try reflexivity. cbn [point_eq]. inversion P; subst. inversion Q; subst.
  cbn [nsub nabs ieee]. rewrite (dabs_sub_sym a b) by assumption. destruct (nlt _ _ _); [reflexivity|]. now apply IH.
Qed.
Lemma tolerant_refl p : valid_point p -> point_eq ieee p p = true.
Proof.
  induction p as [|a p IH]; intros P; [reflexivity|]. inversion P as [|? ? Va P']; subst. cbn [point_eq].
  assert (H : nlt ieee (neps ieee) (nabs ieee (nsub ieee a a)) = false).
  { destruct (dfinite a) eqn:F.
    - pose proof (tolerant_one a a Va Va F F) as T. change (neps ieee) with eps64. cbn [nlt nabs nsub ieee]. rewrite T. apply Rlt_bool_false.
      replace (real a - real a) with 0 by ring. rewrite Rabs_R0, rnd_0. destruct eps64_spec as (_ & _ & _ & B). lra.
    - destruct a as [|[]| |]; try discriminate; vm_compute; reflexivity. }
  rewrite H. auto.
Qed.

(** lines in binary64 *)
Lemma div_zero_bad x s : dfinite (ddiv x (S754_zero s)) = false.
Proof. destruct x as [[]|[]| |[] ? ?], s; reflexivity. Qed.
Lemma mul_bad x y : dfinite y = false -> dfinite (dmul x y) = false.
Proof. destruct x as [[]|[]| |[] ? ?], y as [[]|[]| |[] ? ?]; intros H; try discriminate; reflexivity. Qed.
Lemma add_bad x y : dfinite y = false -> dfinite (dadd x y) = false.
Proof. destruct x as [[]|[]| |[] ? ?], y as [[]|[]| |[] ? ?]; intros H; try discriminate; reflexivity. Qed.
Lemma parallel_bad l1 l2 s : cross ieee (dir l1) (dir l2) = S754_zero s ->
  dfinite (fst (getIntersection ieee l1 l2)) = false /\ dfinite (snd (getIntersection ieee l1 l2)) = false.
Proof.
  intros H. unfold getIntersection. rewrite H. cbn [padd pscale fst snd nadd nmul ndiv ieee].
  split; apply add_bad, mul_bad, div_zero_bad.
Qed.
Lemma zero_mul_cases s y : dmul (S754_zero s) y = S754_nan \/ exists s', dmul (S754_zero s) y = S754_zero s'.
Proof. destruct y; cbn; eauto. Qed.
Lemma degenerate_nan s1 s2 o p : disToLine ieee p (Line o (S754_zero s1, S754_zero s2)) = S754_nan.
Proof.
  unfold disToLine. cbn [dir origin fst snd]. cbv zeta. set (w := psub ieee p o). clearbody w. destruct w as [wx wy].
  unfold cross. cbn [fst snd nmul nsub nabs ndiv ieee].
  assert (L : plen ieee (S754_zero s1, S754_zero s2) = S754_zero false) by (destruct s1, s2; reflexivity). rewrite L.
  destruct (zero_mul_cases s1 wy) as [-> | [t1 ->]]; [reflexivity|]. destruct (zero_mul_cases s2 wx) as [-> | [t2 ->]]; [reflexivity|].
  destruct t1, t2; reflexivity.
Qed.
Lemma zero_dot s1 s2 wx wy : dfinite wx = true -> dfinite wy = true -> exists s, pdot ieee (S754_zero s1, S754_zero s2) (wx, wy) = S754_zero s.
Proof.
  intros F1 F2. unfold pdot, dot. cbn [dot_from fst snd nadd nmul nzero ieee].
  destruct (zero_mul_cases s1 wx) as [H | [t1 H1]]; [destruct wx; discriminate|]. destruct (zero_mul_cases s2 wy) as [H | [t2 H2]]; [destruct wy; discriminate|].
  rewrite H1, H2. destruct t1, t2; eexists; reflexivity.
Qed.
Lemma degenerate_segment_nan s1 s2 o p : dfinite (fst (psub ieee p o)) = true -> dfinite (snd (psub ieee p o)) = true ->
  disToSegment ieee p (Line o (S754_zero s1, S754_zero s2)) = S754_nan.
Proof.
  intros F1 F2. pose proof (degenerate_nan s1 s2 o p) as D. unfold disToLine in D. unfold disToSegment. cbn [dir origin] in *. cbv zeta in *.
  destruct (psub ieee p o) as [wx wy]. cbn [fst snd] in F1, F2.
  destruct (zero_dot s1 s2 wx wy F1 F2) as [t ->]. replace (dcmp ieee (S754_zero t)) with 0%Z by (destruct t; vm_compute; reflexivity). cbn [Z.ltb Z.compare].
  destruct (zero_dot s1 s2 (dsub wx (S754_zero s1)) (dsub wy (S754_zero s2))) as [t' E'].
  - destruct wx as [[]|[]| |], s1; try discriminate; reflexivity.
  - destruct wy as [[]|[]| |], s2; try discriminate; reflexivity.
  - unfold psub. cbn [fst snd nsub ieee]. rewrite E'. replace (dcmp ieee (S754_zero t')) with 0%Z by (destruct t'; vm_compute; reflexivity). exact D.
Qed.

(** len and normalize in exact arithmetic *)
Definition sqsum (p : list R) : R := fold_right (fun a s => a * a + s) 0 p.
Lemma dot_from_exact p : forall acc, dot_from exactR acc p p = acc + sqsum p.
Proof. induction p as [|a p IH]; intros acc; cbn [dot_from sqsum fold_right]; [ring|]. rewrite IH. cbn [nadd nmul exactR]. unfold sqsum. ring. Qed.
Lemma sqsum_scale p c : sqsum (map (fun a => a / c) p) = sqsum p / (c * c).
Proof.
  destruct (Req_dec c 0) as [-> | C].
  - unfold Rdiv. induction p as [|a p IH]; cbn [map sqsum fold_right] in *; [ring|]. unfold sqsum in IH. rewrite IH. rewrite !Rmult_0_l, Rinv_0. ring.
  - induction p as [|a p IH]; cbn [map sqsum fold_right] in *; [field; assumption|]. unfold sqsum in IH. rewrite IH. field. assumption.
Qed.
Lemma sqsum_nonneg p : 0 <= sqsum p.
Proof. induction p as [|a p IH]; cbn [sqsum fold_right]; [lra|]. unfold sqsum in IH. pose proof (Rle_0_sqr a). unfold Rsqr in *. lra. Qed.
Lemma sqsum_pos p : (exists a, In a p /\ a <> 0) -> 0 < sqsum p.
Proof.
  intros (a & I & N). induction p as [|b p IH]; [destruct I|]. cbn [sqsum fold_right]. fold (sqsum p). pose proof (sqsum_nonneg p). pose proof (Rle_0_sqr b). unfold Rsqr in *.
  destruct I as [-> | I]; [assert (0 < a * a) by nra; lra|]. specialize (IH I). lra.
Qed.
Lemma len_R p : len exactR p = sqrt (sqsum p).
Proof. unfold len, dot. cbn [nsqrt nzero exactR]. rewrite dot_from_exact. f_equal. ring. Qed.
Lemma normalize_R p : (exists a, In a p /\ a <> 0) -> len exactR (normalize exactR p) = 1 /\ point_scale exactR (normalize exactR p) (len exactR p) = p.
Proof.
  intros H. pose proof (sqsum_pos p H) as P. assert (S : 0 < sqrt (sqsum p)) by now apply sqrt_lt_R0. unfold normalize. rewrite !len_R. unfold point_quot, point_scale. cbn [ndiv nmul exactR]. split.
  - rewrite sqsum_scale, sqrt_sqrt by lra. replace (sqsum p / sqsum p) with 1 by (field; lra). apply sqrt_1.
  - rewrite map_map. rewrite <- (map_id p) at 2. apply map_ext. intros a. field. lra.
Qed.
(** pi *)
Lemma PI_bounds : 3.1415926 < PI < 3.1415927.
Proof.
  pose proof (PI_2_3_7_ineq 4) as H. 
  assert (E : forall n, tg_alt PI_2_3_7_tg n = (-1) ^ n * (2 * ((1 / 3) ^ (2 * n + 1) / INR (2 * n + 1)) + (1 / 7) ^ (2 * n + 1) / INR (2 * n + 1))).
  { intros n. unfold tg_alt, PI_2_3_7_tg, Ratan_seq. replace (1 / 3) with (/ 3) by field. replace (1 / 7) with (/ 7) by field. reflexivity. }
  cbn [Nat.mul Nat.add sum_f_R0] in H. rewrite !E in H. rewrite !INR_IZR_INZ in H. 
  cbn [Nat.mul Nat.add Z.of_nat Pos.of_succ_nat Pos.succ pow] in H. split; lra.
Qed.
