(** Property theorems C68-C70, C72, C73 (geometry). *)
From Coq Require Import Reals Lra Floats.SpecFloat.
From Flocq Require Import Core.
From Verif Require Import Base Float FloatProofs GeoModel GeoSpec GeoProofs.
Local Open Scope R_scope.

(** C68 *)
Theorem C68_intersection :
  forall l1 l2, ~ parallel (dir l1) (dir l2) ->
    forall p, on_line (origin l1) (dir l1) p /\ on_line (origin l2) (dir l2) p <-> p = getIntersection exactR l1 l2.
Proof.
  intros l1 l2 H p. destruct (intersection_on l1 l2 H) as [I1 I2]. split.
  - intros [P1 P2]. now apply (intersection_unique l1 l2).
  - intros ->. now split.
Qed.
Print Assumptions C68_intersection.
Theorem C68_intersection_symmetric :
  forall l1 l2, ~ parallel (dir l1) (dir l2) -> getIntersection exactR l1 l2 = getIntersection exactR l2 l1.
Proof.
  intros l1 l2 H. assert (H' : ~ parallel (dir l2) (dir l1)) by (unfold parallel in *; lra).
  apply C68_intersection; [assumption|]. destruct (intersection_on l1 l2 H). now split.
Qed.
Print Assumptions C68_intersection_symmetric.
(** in binary64: if the computed cross product is zero, both coordinates are infinite or NaN *)
Theorem C68_parallel_not_finite :
  forall l1 l2 s, cross ieee (dir l1) (dir l2) = S754_zero s ->
    dfinite (fst (getIntersection ieee l1 l2)) = false /\ dfinite (snd (getIntersection ieee l1 l2)) = false.
Proof. exact parallel_bad. Qed.
Print Assumptions C68_parallel_not_finite.
Definition dpair (a b : Z) : double * double := (dof a, dof b).
(** lines that are not parallel but whose cross product underflows to zero in binary64 *)
Theorem C68_not_parallel_not_finite_refuted :
  exists l1 l2 : line, fst (dir l1) = dmake 1 (-600) /\ snd (dir l1) = dzero /\ fst (dir l2) = dzero /\ snd (dir l2) = dmake 1 (-600) /\
    dfinite (fst (getIntersection ieee l1 l2)) = false.
Proof.
  exists (Line (dpair 0 0) (dmake 1 (-600), dzero)), (Line (dpair 1 1) (dzero, dmake 1 (-600))). repeat split; vm_compute; reflexivity.
Qed.
Print Assumptions C68_not_parallel_not_finite_refuted.
Example C68_example :
  ~ parallel (1, 1) (1, -1) /\ getIntersection exactR (Line (0, 0) (1, 1)) (Line (0, 2) (1, -1)) = (1, 1) /\
  getIntersection ieee (Line (dpair 0 0) (dpair 1 1)) (Line (dpair 0 2) (dpair 1 (-1))) = dpair 1 1 /\
  getIntersection ieee (Line (dpair 0 0) (dpair 1 1)) (Line (dpair 0 2) (dpair 2 2)) = (dneg dinf, dneg dinf).
Proof.
  split; [unfold parallel; cbn; lra|]. split; [|split; vm_compute; reflexivity].
  unfold getIntersection, padd, pscale, psub, cross. cbn. f_equal; field.
Qed.

(** C69: points of finite doubles; < <= > >= are the lexicographic order of the coordinates *)
Theorem C69_order_is_lexicographic :
  forall p q, length p = length q -> finite_point p -> finite_point q ->
    (point_lt ieee p q = true <-> lex_lt (map real p) (map real q)) /\
    (point_gt ieee p q = true <-> lex_lt (map real q) (map real p)) /\
    (point_le ieee p q = true <-> lex_lt (map real p) (map real q) \/ map real p = map real q) /\
    (point_ge ieee p q = true <-> lex_lt (map real q) (map real p) \/ map real p = map real q).
Proof.
  intros p q L P Q. split; [now apply compare_lt|]. split; [rewrite compare_gt; now apply compare_lt|]. split; [now apply compare_le|].
  rewrite compare_ge, compare_le by auto. split; intros [|]; auto.
Qed.
Print Assumptions C69_order_is_lexicographic.
Theorem C69_order_total :
  forall p q r, length p = length q -> length q = length r -> finite_point p -> finite_point q -> finite_point r ->
    point_lt ieee p p = false /\
    (point_lt ieee p q = true -> point_lt ieee q r = true -> point_lt ieee p r = true) /\
    point_lt ieee p q = negb (point_ge ieee p q) /\ point_gt ieee p q = negb (point_le ieee p q).
Proof.
  intros p q r L1 L2 P Q R.
  assert (I : forall p, finite_point p -> point_lt ieee p p = false).
  { intros p' P'. destruct (point_lt ieee p' p') eqn:E; [|reflexivity]. apply compare_lt in E; auto. now apply lex_irrefl in E. }
  assert (X : forall p q, length p = length q -> finite_point p -> finite_point q -> point_lt ieee p q = negb (point_ge ieee p q)).
  { intros p' q' L P' Q'. destruct (C69_order_is_lexicographic p' q' L P' Q') as (A & _ & _ & B).
    destruct (lex_total (map real p') (map real q')) as [H|[H|H]]; [now rewrite !map_length| | |].
    - rewrite (proj2 A H). destruct (point_ge ieee p' q') eqn:G; [|reflexivity]. exfalso. destruct (proj1 B eq_refl) as [G'|G'].
      + apply (lex_irrefl (map real p')). eapply lex_trans; eassumption.
      + rewrite G' in H. now apply lex_irrefl in H.
    - rewrite (proj2 B (or_intror H)). destruct (point_lt ieee p' q') eqn:G; [|reflexivity]. exfalso. pose proof (proj1 A eq_refl) as G'. rewrite H in G'. now apply lex_irrefl in G'.
    - rewrite (proj2 B (or_introl H)). destruct (point_lt ieee p' q') eqn:G; [|reflexivity]. exfalso. pose proof (proj1 A eq_refl) as G'.
      apply (lex_irrefl (map real p')). eapply lex_trans; eassumption. }
  split; [now apply I|]. split; [|split; [now apply X|]].
  - intros H1 H2. apply compare_lt in H1, H2; auto; try congruence. apply compare_lt; auto; try congruence. eapply lex_trans; eassumption.
  - rewrite compare_gt, X, compare_ge by auto. reflexivity.
Qed.
Print Assumptions C69_order_total.
(** == tolerates a difference of 1e-6 (after rounding) in every coordinate *)
Theorem C69_tolerant_equality :
  forall p q, length p = length q -> finite_point p -> finite_point q ->
    (point_eq ieee p q = true <-> Forall2 (fun a b => rnd (Rabs (real a - real b)) <= rnd (1 / 1000000)) p q) /\
    point_ne ieee p q = negb (point_eq ieee p q).
Proof. intros p q L P Q. split; [now apply tolerant_eq|reflexivity]. Qed.
Print Assumptions C69_tolerant_equality.
(** for all doubles including infinities and NaN *)
Theorem C69_equality_reflexive_symmetric :
  forall p q, valid_point p -> valid_point q -> point_eq ieee p p = true /\ point_eq ieee p q = point_eq ieee q p.
Proof. intros p q P Q. split; [now apply tolerant_refl|now apply tolerant_sym]. Qed.
Print Assumptions C69_equality_reflexive_symmetric.
Theorem C69_equality_transitive_refuted :
  exists p q r, finite_point p /\ finite_point q /\ finite_point r /\
    point_eq ieee p q = true /\ point_eq ieee q r = true /\ point_eq ieee p r = false.
Proof.
  exists [dzero; dzero], [dmake 1 (-20); dzero], [dmake 1 (-19); dzero].
  repeat first [apply conj | apply Forall_cons | apply Forall_nil]; vm_compute; reflexivity.
Qed.
Print Assumptions C69_equality_transitive_refuted.
(** p < q and p == q together *)
Theorem C69_equality_consistent_with_order_refuted :
  exists p q, finite_point p /\ finite_point q /\ point_lt ieee p q = true /\ point_eq ieee p q = true /\ point_ge ieee p q = false.
Proof.
  exists [dzero; dzero], [dmake 1 (-20); dzero].
  repeat first [apply conj | apply Forall_cons | apply Forall_nil]; vm_compute; reflexivity.
Qed.
Print Assumptions C69_equality_consistent_with_order_refuted.
(** a NaN coordinate is equal to everything, and compares false both ways *)
Theorem C69_nan_equals_everything :
  forall p q x, point_eq ieee (dnan :: p) (x :: q) = point_eq ieee p q /\
    point_lt ieee (dnan :: p) (x :: q) = false /\ point_lt ieee (x :: q) (dnan :: p) = false.
Proof. intros p q x. repeat split; destruct x as [[]|[]| |[] ? ?]; reflexivity. Qed.
Print Assumptions C69_nan_equals_everything.
Example C69_example :
  finite_point [dof 1; dof 2] /\ point_lt ieee [dof 1; dof 2] [dof 1; dof 3] = true /\ point_lt ieee [dof 1; dof 2] [dof 0; dof 3] = false
  /\ point_le ieee [dof 1; dzero] [dof 1; S754_zero true] = true /\ point_eq ieee [dof 1; dof 2] [dof 1; dof 3] = false.
Proof. repeat first [apply conj | apply Forall_cons | apply Forall_nil]; vm_compute; reflexivity. Qed.

(** C70 *)
Theorem C70_distance_to_line :
  forall p l, dir l <> (0, 0) -> least_distance (fun _ => True) (origin l) (dir l) p (disToLine exactR p l).
Proof.
  intros p l H. split.
  - eexists. split; [exact I|]. symmetry. now apply toLine_eq.
  - intros t _. now apply toLine_le.
Qed.
Print Assumptions C70_distance_to_line.
(** the segment from A to A + v: correct unless the foot of the perpendicular is outside
    the segment by less than 1e-6 / |v| *)
Theorem C70_distance_to_segment :
  forall p l, dir l <> (0, 0) ->
    let s := along (origin l) (dir l) p in
    let n := fst (dir l) * fst (dir l) + snd (dir l) * snd (dir l) in
    ~ (- (1 / 1000000) < s < 0) -> ~ (0 < s - n < 1 / 1000000) ->
    least_distance (fun t => 0 <= t <= 1) (origin l) (dir l) p (disToSegment exactR p l).
Proof.
  intros p l H s n G1 G2. pose proof (sq_nz _ H) as N. fold n in N. destruct (toSegment_cases p l) as (C1 & C2 & C3). fold s n in C1, C2, C3. unfold eps in *.
  destruct (Rle_lt_dec s (- (1 / 1000000))) as [S1|S1].
  - rewrite C1 by assumption. split.
    + exists 0. split; [lra|reflexivity].
    + intros t T. apply before_start; [fold s; lra|lra].
  - destruct (Rle_lt_dec (1 / 1000000) (s - n)) as [S2|S2].
    + rewrite C2 by assumption. split.
      * exists 1. split; [lra|reflexivity].
      * intros t T. apply after_end; [fold s n; lra|lra].
    + rewrite C3 by assumption. split.
      * rewrite toLine_eq by assumption. fold s n. exists (s / n). split; [|reflexivity].
        assert (0 <= s <= n) by lra. split.
        -- apply Rmult_le_pos; [lra|]. apply Rlt_le, Rinv_0_lt_compat. assumption.
        -- apply Rmult_le_reg_r with n; [assumption|]. unfold Rdiv. rewrite Rmult_assoc, Rinv_l by lra. lra.
      * intros t T. now apply toLine_le.
Qed.
Print Assumptions C70_distance_to_segment.
(** in the excluded band the result is the distance to the whole line: too small *)
Theorem C70_distance_to_segment_band :
  forall p l, dir l <> (0, 0) ->
    let s := along (origin l) (dir l) p in
    let n := fst (dir l) * fst (dir l) + snd (dir l) * snd (dir l) in
    - (1 / 1000000) < s < 0 \/ (0 < s - n < 1 / 1000000) ->
    disToSegment exactR p l = disToLine exactR p l /\ forall t, 0 <= t <= 1 -> disToSegment exactR p l < distance p (at_param (origin l) (dir l) t).
Proof.
  intros p l H s n G. pose proof (sq_nz _ H) as N. fold n in N. destruct (toSegment_cases p l) as (_ & _ & C3). fold s n in C3. unfold eps in *.
  assert (E : disToSegment exactR p l = disToLine exactR p l) by (apply C3; lra). split; [exact E|]. intros t T. rewrite E.
  destruct l as [o v]. cbn [origin dir] in *. unfold disToLine. cbn [dir origin]. cbv zeta. cbn [nabs ndiv exactR]. rewrite len_exact, line_distance_sqrt by assumption.
  unfold distance. rewrite lagrange by assumption. fold s n. unfold psub. cbn [nsub exactR fst snd]. rewrite cross_exact. cbn [fst snd].
  apply sqrt_lt_1_alt. set (c := fst v * (snd p - snd o) - snd v * (fst p - fst o)). pose proof (sq_le_div c n N). split; [assumption|].
  assert (0 < (s - t * n) * (s - t * n) / n); [|lra]. apply Rmult_lt_0_compat; [|now apply Rinv_0_lt_compat].
  assert (s - t * n <> 0) by (destruct G as [G|G]; nra). nra.
Qed.
Print Assumptions C70_distance_to_segment_band.
(** the error is unbounded: result 0 at distance D from a very short segment *)
Theorem C70_distance_to_segment_refuted :
  forall D, 1 <= D -> exists p l, dir l <> (0, 0) /\ disToSegment exactR p l = 0 /\
    forall t, 0 <= t <= 1 -> D <= distance p (at_param (origin l) (dir l) t).
Proof.
  intros D HD. set (e := / (2000000 * D)). assert (E : 0 < e) by (apply Rinv_0_lt_compat; lra).
  exists (- D, 0), (Line (0, 0) (e, 0)). cbn [origin dir].
  assert (V : (e, 0) <> (0, 0)) by (intros X; injection X; lra). split; [exact V|]. split.
  - destruct (C70_distance_to_segment_band (- D, 0) (Line (0, 0) (e, 0)) V) as [-> _].
    + left. cbn [origin dir]. unfold along. cbn [fst snd]. assert (ED : e * D = / 2000000) by (unfold e; field; lra). lra.
    + unfold disToLine. cbn [dir origin]. cbv zeta. cbn [nabs ndiv exactR]. rewrite cross_exact. unfold psub. cbn [nsub exactR fst snd].
      replace (e * (0 - 0) - 0 * (- D - 0)) with 0 by ring. unfold Rdiv. rewrite Rmult_0_l. apply Rabs_R0.
  - intros t T. unfold distance, at_param. cbn [fst snd]. rewrite <- (sqrt_square D) at 1 by lra. apply sqrt_le_1_alt.
    assert (0 <= t * e) by (apply Rmult_le_pos; lra). nra.
Qed.
Print Assumptions C70_distance_to_segment_refuted.
(** in binary64: a degenerate line or segment (direction zero) gives NaN *)
Theorem C70_degenerate_nan :
  forall s1 s2 o p, disToLine ieee p (Line o (S754_zero s1, S754_zero s2)) = dnan /\
    (dfinite (fst (psub ieee p o)) = true -> dfinite (snd (psub ieee p o)) = true -> disToSegment ieee p (Line o (S754_zero s1, S754_zero s2)) = dnan).
Proof. intros s1 s2 o p. split; [apply degenerate_nan|apply degenerate_segment_nan]. Qed.
Print Assumptions C70_degenerate_nan.
Example C70_example :
  (let l := Line (0, 0) (2, 0) in let p := (1, 3) in
   dir l <> (0, 0) /\ ~ (- (1 / 1000000) < along (origin l) (dir l) p < 0) /\ disToLine exactR p l = 3) /\
  disToSegment ieee (dpair 5 4) (Line (dpair 0 0) (dpair 2 0)) = dof 5 /\ disToSegment ieee (dpair 1 4) (Line (dpair 0 0) (dpair 2 0)) = dof 4 /\
  disToSegment ieee (dpair (-100) 0) (Line (dpair 0 0) (dmake 1 (-30), dzero)) = dzero.
Proof.
  split; [|repeat split; vm_compute; reflexivity]. cbn [origin dir]. split; [intros X; injection X; lra|]. split; [unfold along; cbn; lra|].
  unfold disToLine, psub, plen, len, dot, cross. cbn. rewrite !Rplus_0_l. replace (2 * 2 + 0 * 0) with (2 * 2) by ring. rewrite sqrt_square by lra.
  rewrite Rabs_pos_eq; lra.
Qed.

(** C72: compound assignments, for any arithmetic *)
Theorem C72_compound_assignment :
  forall (N : Type) (A : num N) (p q : list N) (c : N), length p = length q ->
    add_assign A p (Some q) = point_add A p q /\ sub_assign A p (Some q) = point_sub A p q /\
    add_assign A p None = point_add A p p /\ sub_assign A p None = point_sub A p p /\
    scale_assign A p (Val c) = point_scale A p c /\ quot_assign A p (Val c) = point_quot A p c.
Proof.
  intros N A p q c L. destruct (add_assign_spec A p q L), (add_assign_self A p), (scale_assign_spec A p c). repeat split; assumption.
Qed.
Print Assumptions C72_compound_assignment.
(** p *= p[j]: the elements behind index j are multiplied by the square of the old p[j] *)
Theorem C72_scale_by_own_element :
  forall p j k, (j < length p)%nat -> (k < length p)%nat ->
    nth k (scale_assign exactR p (Own j)) 0 = nth k p 0 * (if (k <=? j)%nat then nth j p 0 else nth j p 0 * nth j p 0).
Proof.
  intros p j k J K. unfold scale_assign. rewrite assign_loop_own by (auto; lia). cbn [nmul nzero exactR]. destruct (Nat.leb_spec k j); [reflexivity|].
  replace (j <? 0)%nat with false by (symmetry; apply Nat.ltb_ge; lia). reflexivity.
Qed.
Print Assumptions C72_scale_by_own_element.
Theorem C72_scale_by_own_element_refuted :
  exists p, scale_assign ieee p (Own 0) <> point_scale ieee p (nth 0 p dzero) /\ quot_assign ieee p (Own 0) <> point_quot ieee p (nth 0 p dzero).
Proof. exists [dof 2; dof 3]. split; vm_compute; discriminate. Qed.
Print Assumptions C72_scale_by_own_element_refuted.
(** normalize gives a vector of length 1 in the same direction *)
Theorem C72_normalize :
  forall p, (exists a, In a p /\ a <> 0) ->
    len exactR (normalize exactR p) = 1 /\ point_scale exactR (normalize exactR p) (len exactR p) = p.
Proof. exact normalize_R. Qed.
Print Assumptions C72_normalize.
(** normalizing the zero vector gives NaN in every coordinate *)
Theorem C72_normalize_zero_refuted : forall n, normalize ieee (point_zero ieee n) = repeat dnan n.
Proof.
  intros n. assert (L : len ieee (point_zero ieee n) = dzero).
  { unfold len, dot. assert (E : forall m, dot_from ieee dzero (point_zero ieee m) (point_zero ieee m) = dzero) by (induction m as [|m IH]; [reflexivity|exact IH]).
    change (nzero ieee) with dzero. rewrite E. reflexivity. }
  unfold normalize. rewrite L. unfold point_quot, point_zero. induction n as [|n IH]; [reflexivity|]. cbn [repeat map]. f_equal. apply IH.
  clear - L. unfold len, dot in *. assert (E : forall m, dot_from ieee dzero (point_zero ieee m) (point_zero ieee m) = dzero) by (induction m as [|m IH]; [reflexivity|exact IH]).
  change (nzero ieee) with dzero. rewrite E. reflexivity.
Qed.
Print Assumptions C72_normalize_zero_refuted.
Example C72_example :
  scale_assign ieee [dof 2; dof 3] (Own 0) = [dof 4; dof 12] /\ quot_assign ieee [dof 2; dof 3] (Own 0) = [dof 1; dof 3] /\
  scale_assign ieee [dof 2; dof 3] (Own 1) = [dof 6; dof 9] /\ normalize ieee [dof 3; dof 4] = [ddiv (dof 3) (dof 5); ddiv (dof 4) (dof 5)].
Proof. repeat split; vm_compute; reflexivity. Qed.

(** C73 *)
Theorem C73_circle_points :
  forall o r rad, distance o (getPoint exactR cos sin o r rad) = Rabs r.
Proof.
  intros [x y] r rad. unfold distance, getPoint, padd. cbn [fst snd nadd nmul exactR]. rewrite <- sqrt_Rsqr_abs. f_equal. unfold Rsqr.
  pose proof (sin2_cos2 rad) as E. unfold Rsqr in E.
  replace ((x - (x + r * cos rad)) * (x - (x + r * cos rad)) + (y - (y + r * sin rad)) * (y - (y + r * sin rad))) with (r * r * (sin rad * sin rad + cos rad * cos rad)) by ring.
  rewrite E. ring.
Qed.
Print Assumptions C73_circle_points.
(** the constant 3.1415926 is below pi: area and perimeter are too small, by less than 3.2e-8 relative *)
Theorem C73_circle_area_perimeter :
  forall r, 0 < r ->
    PI * (r * r) * (1 - 32 / 1000000000) < getArea exactR r < PI * (r * r) /\
    2 * PI * r * (1 - 32 / 1000000000) < getPerimeter exactR r < 2 * PI * r.
Proof.
  intros r R. pose proof PI_bounds as [L U]. unfold getArea, getPerimeter. cbn [nmul npi ntwo exactR]. assert (0 < r * r) by nra.
  assert (31415926 / 10000000 < PI /\ PI * (1 - 32 / 1000000000) < 31415926 / 10000000) as [A B] by lra.
  repeat split; nra.
Qed.
Print Assumptions C73_circle_area_perimeter.
Example C73_example : getArea ieee (dof 2) = dmul (dmul (ddiv (dof 31415926) (dof 10000000)) (dof 2)) (dof 2) /\ getArea exactR 2 = 125663704 / 10000000.
Proof. split; [vm_compute; reflexivity|]. unfold getArea. cbn. lra. Qed.
