(** Property theorems C98 and C99 (geometry on binary64 coordinates). *)
From Coq Require Import Reals Lra Floats.SpecFloat.
From Flocq Require Import Core.
From Verif Require Import Base Float FloatProofs DistNumSpec StatProofs DistAccProofs GeoModel GeoSpec GeoProofs GeoFloatSpec GeoWholeProofs GeoFloatProofs.
Local Open Scope R_scope.

(** C98: integer coordinates.  Cross and dot products are exact. *)
Theorem C98_cross_exact :
  forall v w, whole_point (2 ^ 26) v -> whole_point (2 ^ 26) w ->
    number (cross ieee v w) /\ real (cross ieee v w) = real (fst v) * real (snd w) - real (snd v) * real (fst w).
Proof.
  intros v w V W. destruct (whole_holds _ _ V) as (a & HA & BA), (whole_holds _ _ W) as (b & HB & BB).
  destruct (cross_holds a b v w (2 ^ 26) (2 ^ 26) HA HB BA BB ltac:(lia)) as [N E]. split; [exact N|].
  destruct HA as [[_ E1] [_ E2]], HB as [[_ E3] [_ E4]]. rewrite E, E1, E2, E3, E4. unfold zcross. now rewrite minus_IZR, !mult_IZR.
Qed.
Print Assumptions C98_cross_exact.
Theorem C98_dot_exact :
  forall b p q, Forall (whole b) p -> Forall (whole b) q -> length p = length q -> (Z.of_nat (length p) * (b * b) <= 2 ^ 53)%Z ->
    number (dot ieee p q) /\ real (dot ieee p q) = rdot (map real p) (map real q).
Proof.
  intros b p q P Q L H. destruct p as [|x p].
  - destruct q; [|discriminate]. split; [split; reflexivity|reflexivity].
  - assert (B : (0 <= b)%Z) by (inversion P as [|? ? (_ & z & _ & Z) _]; subst; lia).
    destruct (dot_whole b (x :: p) q B P Q L dzero 0%Z zero_holds) as [N E]; [lia|]. split; [exact N|]. change (dot ieee (x :: p) q) with (dot_from ieee dzero (x :: p) q). rewrite E. ring.
Qed.
Print Assumptions C98_dot_exact.
(** one bit more: vectors that are not parallel whose cross product is computed as zero *)
Theorem C98_cross_exact_refuted :
  exists v w, whole_point (2 ^ 27 + 1) v /\ whole_point (2 ^ 27 + 1) w /\ ~ parallel (rpair v) (rpair w) /\ cross ieee v w = dzero.
Proof.
  exists (dof (2 ^ 27 + 1), dof (2 ^ 27)), (dof (2 ^ 27), dof (2 ^ 27 - 1)).
  destruct (dof_exact (2 ^ 27 + 1) ltac:(lia)) as (A1 & A2 & A3). destruct (dof_exact (2 ^ 27) ltac:(lia)) as (B1 & B2 & B3). destruct (dof_exact (2 ^ 27 - 1) ltac:(lia)) as (C1 & C2 & C3).
  split; [split; (split; [split; assumption|]); eexists; (split; [eassumption|lia])|].
  split; [split; (split; [split; assumption|]); eexists; (split; [eassumption|lia])|]. split; [|vm_compute; reflexivity].
  unfold parallel, rpair. cbn [fst snd]. rewrite A3, B3, C3, <- !mult_IZR. intros E. apply eq_IZR in E. lia.
Qed.
Print Assumptions C98_cross_exact_refuted.
(** == on integer coordinates is exact equality *)
Theorem C98_equality :
  forall p q, Forall (whole (2 ^ 52)) p -> Forall (whole (2 ^ 52)) q -> length p = length q -> point_eq ieee p q = true <-> map real p = map real q.
Proof. intros p q. apply eq_whole. lia. Qed.
Print Assumptions C98_equality.
Theorem C98_line :
  forall p l, whole_point (2 ^ 24) p -> whole_point (2 ^ 24) (origin l) -> whole_point (2 ^ 24) (dir l) -> rpair (dir l) <> (0, 0) ->
    number (disToLine ieee p l) /\
    exists d, least_distance (fun _ => True) (rpair (origin l)) (rpair (dir l)) (rpair p) d /\ close 3 d (real (disToLine ieee p l)) d.
Proof.
  intros p l P O D N. destruct (whole_holds _ _ P) as (zp & HP & BP), (whole_holds _ _ O) as (zo & HO & BO), (whole_holds _ _ D) as (zd & HD & BD).
  destruct (line_whole p l zp zo zd (2 ^ 24) HP HO HD BP BO BD ltac:(lia)) as (X & _ & C).
  - intros ->. apply N. exact (holds_real _ _ HD).
  - split; [exact X|]. eexists. split; [|exact C]. assert (Nd : dir (rline l) <> (0, 0)) by exact N. split.
    + eexists. split; [exact I|]. symmetry. exact (toLine_eq _ _ Nd).
    + intros t _. exact (toLine_le _ _ t Nd).
Qed.
Print Assumptions C98_line.
(** the band of wrong answers of C70 contains no integer coordinates *)
Theorem C98_segment :
  forall p l, whole_point (2 ^ 24) p -> whole_point (2 ^ 24) (origin l) -> whole_point (2 ^ 24) (dir l) -> rpair (dir l) <> (0, 0) ->
    number (disToSegment ieee p l) /\
    exists d, least_distance (fun t => 0 <= t <= 1) (rpair (origin l)) (rpair (dir l)) (rpair p) d /\ close 3 d (real (disToSegment ieee p l)) d.
Proof. intros p l P O D N. apply (segment_whole p l (2 ^ 24)); try assumption. lia. Qed.
Print Assumptions C98_segment.
Theorem C98_intersection :
  forall l1 l2, whole_point (2 ^ 24) (origin l1) -> whole_point (2 ^ 24) (dir l1) -> whole_point (2 ^ 24) (origin l2) -> whole_point (2 ^ 24) (dir l2) ->
    ~ parallel (rpair (dir l1)) (rpair (dir l2)) ->
    let q := getIntersection ieee l1 l2 in
    number (fst q) /\ number (snd q) /\
    exists p, on_line (rpair (origin l1)) (rpair (dir l1)) p /\ on_line (rpair (origin l2)) (rpair (dir l2)) p /\
      close 4 (Rabs (real (fst (origin l1))) + Rabs (fst p - real (fst (origin l1)))) (real (fst q)) (fst p) /\
      close 4 (Rabs (real (snd (origin l1))) + Rabs (snd p - real (snd (origin l1)))) (real (snd q)) (snd p).
Proof. intros l1 l2 A B C D N. apply (intersection_whole l1 l2 (2 ^ 24)); try assumption. lia. Qed.
Print Assumptions C98_intersection.
Theorem C98_parallel :
  forall l1 l2, whole_point (2 ^ 24) (origin l1) -> whole_point (2 ^ 24) (dir l1) -> whole_point (2 ^ 24) (origin l2) -> whole_point (2 ^ 24) (dir l2) ->
    (parallel (rpair (dir l1)) (rpair (dir l2)) <-> dfinite (fst (getIntersection ieee l1 l2)) = false).
Proof.
  intros l1 l2 A B C D. split.
  - intros P. destruct (parallel_whole l1 l2 (2 ^ 24) B D ltac:(lia) P) as [s E]. exact (proj1 (parallel_bad l1 l2 s E)).
  - intros F. assert (X : {parallel (rpair (dir l1)) (rpair (dir l2))} + {~ parallel (rpair (dir l1)) (rpair (dir l2))}) by apply Req_EM_T.
    destruct X as [X|X]; [exact X|]. destruct (C98_intersection l1 l2 A B C D X) as [[_ N] _]. congruence.
Qed.
Print Assumptions C98_parallel.
Example C98_example :
  (forall z, (Z.abs z <= 2 ^ 24)%Z -> whole (2 ^ 24) (dof z)) /\
  cross ieee (dof 3, dof 4) (dof 5, dof (-6)) = dof (-38) /\
  disToSegment ieee (dof 0, dof 5) (Line (dof 0, dof 0) (dof 3, dof 4)) = dof 3 /\
  disToSegment ieee (dof (-3), dof (-4)) (Line (dof 0, dof 0) (dof 3, dof 4)) = dof 5 /\
  disToSegment ieee (dof 6, dof 8) (Line (dof 0, dof 0) (dof 3, dof 4)) = dof 5 /\
  point_eq ieee [dof 3; dof 4] [dof 3; dof 5] = false /\
  dfinite (fst (getIntersection ieee (Line (dof 1, dof 2) (dof 3, dof 6)) (Line (dof 1, dof 3) (dof (-1), dof (-2))))) = false /\
  getIntersection ieee (Line (dof 0, dof 0) (dof 1, dof 1)) (Line (dof 0, dof 3) (dof 2, dof (-1))) = (dof 2, dof 2).
Proof.
  split; [intros z Z; destruct (dof_exact z ltac:(lia)) as (A & B & C); split; [now split|]; exists z; now split|]. repeat split; vm_compute; reflexivity.
Qed.

(** C99: any finite coordinates.  + and the dot product are commutative to the last bit,
    the cross product changes its sign *)
Theorem C99_commutative :
  forall p q, point_add ieee p q = point_add ieee q p /\ dot ieee p q = dot ieee q p.
Proof. intros p q. split; [apply zip_comm; exact dadd_comm|apply dot_comm]. Qed.
Print Assumptions C99_commutative.
Theorem C99_cross_antisymmetric :
  forall v w, cross ieee w v = dneg (cross ieee v w) \/
    (exists s t, cross ieee v w = S754_zero s /\ cross ieee w v = S754_zero t).
Proof. intros v w. destruct (cross_anti v w) as [E|[[s S] [t T]]]; [now left|right; now exists s, t]. Qed.
Print Assumptions C99_cross_antisymmetric.
Theorem C99_cross_error :
  forall v w, number (fst v) -> number (snd v) -> number (fst w) -> number (snd w) ->
    Rabs (real (fst v) * real (snd w)) <= bpow radix2 1020 -> Rabs (real (snd v) * real (fst w)) <= bpow radix2 1020 ->
    number (cross ieee v w) /\
    Rabs (real (cross ieee v w) - (real (fst v) * real (snd w) - real (snd v) * real (fst w))) <=
      3 * bpow radix2 (-53) * (Rabs (real (fst v) * real (snd w)) + Rabs (real (snd v) * real (fst w))) + bpow radix2 (-1073).
Proof.
  intros v w A B C D E F. destruct (cross_error v w A B C D E F) as [N X]. split; [exact N|]. unfold u, eta in X.
  replace (bpow radix2 (-1073)) with (4 * bpow radix2 (-1075)); [exact X|]. change (-1073)%Z with (2 + -1075)%Z. rewrite bpow_plus. reflexivity.
Qed.
Print Assumptions C99_cross_error.
Theorem C99_length :
  forall p, Forall (moderate 500) p -> (Z.of_nat (length p) <= 2 ^ 20)%Z ->
    number (len ieee p) /\ close (INR (length p) + 3) (norm (map real p)) (real (len ieee p)) (norm (map real p)).
Proof.
  intros p M C. apply IZR_le in C. rewrite <- INR_IZR_INZ in C. destruct (len_rel p M C) as (N & R & _ & _). split; [exact N|].
  assert (K : INR (length p + 2) <= bpow radix2 26). { rewrite plus_INR. change (INR 2) with (1 + 1). change (IZR (2 ^ 20)) with 1048576 in C. change (bpow radix2 26) with 67108864. lra. }
  pose proof (rel_close _ _ _ K R) as CL. unfold close in *. rewrite plus_INR in CL. change (INR 2) with (1 + 1) in CL.
  rewrite (Rabs_pos_eq (norm (map real p))) in CL by apply sqrt_pos. replace (INR (length p) + 3) with (INR (length p) + (1 + 1) + 1) by ring. exact CL.
Qed.
Print Assumptions C99_length.
Theorem C99_normalize :
  forall p, Forall (moderate 500) p -> (Z.of_nat (length p) <= 2 ^ 20)%Z -> (exists a, In a p /\ real a <> 0) ->
    Forall2 (fun q a => number q /\ close (INR (length p) + 4) (Rabs (real a / norm (map real p))) (real q) (real a / norm (map real p))) (normalize ieee p) p /\
    close (INR (length p) + 4) 1 (norm (map real (normalize ieee p))) 1.
Proof.
  intros p M C (a & I & Z). apply IZR_le in C. rewrite <- INR_IZR_INZ in C.
  assert (N : norm (map real p) <> 0) by (apply norm_zero; exists (real a); split; [now apply in_map|exact Z]).
  assert (K : INR (length p + 3) <= bpow radix2 26). { rewrite plus_INR. change (INR 3) with (1 + 1 + 1). change (IZR (2 ^ 20)) with 1048576 in C. change (bpow radix2 26) with 67108864. lra. }
  assert (K4 : INR (length p + 3) + 1 = INR (length p) + 4) by (rewrite plus_INR; change (INR 3) with (1 + 1 + 1); ring). split.
  - pose proof (normalize_rel p M C N p (fun a I => I)) as F. unfold normalize. set (q := point_quot ieee p (len ieee p)) in *. clearbody q. revert K K4 F. generalize (length p + 3)%nat, (INR (length p) + 4), (norm (map real p)). clear.
    intros k m n K K4. induction 1 as [|x y q p [X R] F IH]; constructor; [|exact IH]. split; [exact X|]. rewrite <- K4. now apply rel_close.
  - pose proof (rel_close _ _ _ K (normalize_norm p M C N)) as CL. rewrite K4, Rabs_R1 in CL. exact CL.
Qed.
Print Assumptions C99_normalize.
(** outside the range the squares overflow or underflow: the length of (2^600, 0) is
    infinite and its normalization the zero vector; (2^-600, 0) has length zero and
    is normalized to an infinite vector *)
Theorem C99_length_refuted :
  len ieee [dmake 1 600; dzero] = dinf /\ normalize ieee [dmake 1 600; dzero] = [dzero; dzero] /\
  len ieee [dmake 1 (-600); dzero] = dzero /\ normalize ieee [dmake 1 (-600); dzero] = [dinf; dnan].
Proof. repeat split; vm_compute; reflexivity. Qed.
Print Assumptions C99_length_refuted.
Theorem C99_line :
  forall p l, number (fst p) -> number (snd p) -> number (fst (origin l)) -> number (snd (origin l)) ->
    moderate 500 (fst (dir l)) -> moderate 500 (snd (dir l)) -> rpair (dir l) <> (0, 0) ->
    distance (rpair p) (rpair (origin l)) <= bpow radix2 500 ->
    number (disToLine ieee p l) /\
    exists d, least_distance (fun _ => True) (rpair (origin l)) (rpair (dir l)) (rpair p) d /\
      Rabs (real (disToLine ieee p l) - d) <= bpow radix2 (-49) * distance (rpair p) (rpair (origin l)) + bpow radix2 (-500).
Proof.
  intros p l A B C D E F N W. destruct (line_general p l A B C D E F N W) as [X Y]. split; [exact X|]. eexists. split; [|exact Y].
  assert (Nd : dir (rline l) <> (0, 0)) by exact N. split.
  - eexists. split; [exact I|]. symmetry. exact (toLine_eq _ _ Nd).
  - intros t _. exact (toLine_le _ _ t Nd).
Qed.
Print Assumptions C99_line.
(** the error can exceed the distance itself: a point at distance 0.31 from a line is
    reported to lie on it *)
Theorem C99_line_relative_refuted :
  exists p l, whole_point (2 ^ 54) p /\ whole_point 3 (dir l) /\ whole_point 0 (origin l) /\ disToLine ieee p l = dzero /\
    forall t, 3 / 10 <= distance (rpair p) (at_param (rpair (origin l)) (rpair (dir l)) t).
Proof.
  exists (dof (3 * 2 ^ 52 + 4), dof (2 ^ 52 + 1)), (Line (dof 0, dof 0) (dof 3, dof 1)).
  assert (W : forall b z, whole b (dof z) -> whole b (dof z)) by auto.
  assert (H : holds (3 * 2 ^ 52 + 4) (dof (3 * 2 ^ 52 + 4))).
  { replace (dof (3 * 2 ^ 52 + 4)) with (dadd (dof (2 ^ 53)) (dof (2 ^ 52 + 4))) by (vm_compute; reflexivity).
    destruct (dof_exact (2 ^ 53) ltac:(lia)) as (A1 & A2 & A3). destruct (dof_exact (2 ^ 52 + 4) ltac:(lia)) as (B1 & B2 & B3).
    destruct (dadd_ok (dof (2 ^ 53)) (dof (2 ^ 52 + 4)) 54 A1 B1 A2 B2 (exp_ok 54 eq_refl)) as (V & F & E).
    - rewrite A3, B3, <- plus_IZR, <- abs_IZR. change (bpow radix2 54) with (IZR (2 ^ 54)). apply IZR_le. lia.
    - split; [now split|]. rewrite E, A3, B3, <- plus_IZR. change (3 * 2 ^ 52 + 4)%Z with ((2 ^ 51 + 2 ^ 50 + 1) * 4)%Z. change (2 ^ 53 + (2 ^ 52 + 4))%Z with ((2 ^ 51 + 2 ^ 50 + 1) * 4)%Z.
      unfold rnd. apply round_generic; [typeclasses eauto|]. rewrite mult_IZR. change 4 with (bpow radix2 2). change (IZR (2 ^ 51 + 2 ^ 50 + 1) * bpow radix2 2) with (F2R (Float radix2 (2 ^ 51 + 2 ^ 50 + 1) 2)).
      apply generic_format_F2R. intros _. unfold cexp. rewrite (mag_unique_pos radix2 _ 54).
      + unfold SpecFloat.fexp, SpecFloat.emin. lia.
      + unfold F2R. cbn [Fnum Fexp]. change (bpow radix2 2) with (IZR 4). rewrite <- mult_IZR. change (bpow radix2 (54 - 1)) with (IZR (2 ^ 53)). change (bpow radix2 54) with (IZR (2 ^ 54)).
        split; [apply IZR_le|apply IZR_lt]; lia. }
  destruct H as [HN HE]. destruct (dof_exact (2 ^ 52 + 1) ltac:(lia)) as (B1 & B2 & B3). destruct (dof_exact 0 ltac:(lia)) as (C1 & C2 & C3).
  destruct (dof_exact 3 ltac:(lia)) as (D1 & D2 & D3). destruct (dof_exact 1 ltac:(lia)) as (E1 & E2 & E3). cbn [origin dir].
  split; [split; (split; [first [assumption|split; assumption]|]); eexists; (split; [eassumption|lia])|].
  split; [split; (split; [split; assumption|]); eexists; (split; [eassumption|lia])|].
  split; [split; (split; [split; assumption|]); eexists; (split; [eassumption|lia])|].
  split; [vm_compute; reflexivity|]. intros t.
  assert (N : dir (Line (rpair (dof 0, dof 0)) (rpair (dof 3, dof 1))) <> (0, 0)) by (cbn [dir]; unfold rpair; cbn [fst snd]; rewrite D3, E3; intros X; injection X; lra).
  eapply Rle_trans; [|exact (toLine_le (rpair (dof (3 * 2 ^ 52 + 4), dof (2 ^ 52 + 1))) _ t N)].
  unfold disToLine. cbn [dir origin]. cbv zeta. cbn [nabs ndiv exactR]. rewrite len_exact, cross_exact. unfold psub, rpair. cbn [nsub exactR fst snd]. rewrite HE, B3, C3, D3, E3.
  rewrite <- !minus_IZR, <- !mult_IZR, <- plus_IZR, <- minus_IZR. match goal with |- context [IZR ?a / sqrt (IZR ?b)] => change a with (-1)%Z; change b with 10%Z end.
  rewrite line_distance_sqrt by lra. rewrite <- (sqrt_square (3 / 10)) by lra. apply sqrt_le_1_alt. lra.
Qed.
Print Assumptions C99_line_relative_refuted.
Example C99_example :
  Forall (moderate 500) [dof 3; dof 4] /\ len ieee [dof 3; dof 4] = dof 5 /\ cross ieee (dof 1, dof 2) (dof 3, dof 4) = dof (-2) /\ cross ieee (dof 3, dof 4) (dof 1, dof 2) = dof 2 /\
  cross ieee (dof 1, dof 2) (dof 2, dof 4) = dzero /\ rpair (dof 3, dof 4) <> (0, 0) /\ distance (rpair (dof 3, dof 4)) (rpair (dof 0, dof 0)) <= bpow radix2 500.
Proof.
  destruct (dof_exact 3 ltac:(lia)) as (A1 & A2 & A3). destruct (dof_exact 4 ltac:(lia)) as (B1 & B2 & B3). destruct (dof_exact 0 ltac:(lia)) as (C1 & C2 & C3).
  assert (L : bpow radix2 (- (500)) <= 1) by (change 1 with (bpow radix2 0); apply bpow_le; lia). assert (U : 8 <= bpow radix2 500) by (change 8 with (bpow radix2 3); apply bpow_le; lia).
  split; [constructor; [|constructor; [|constructor]]; (split; [now split|right]); [rewrite A3|rewrite B3]; rewrite Rabs_pos_eq by lra; split; lra|].
  split; [vm_compute; reflexivity|]. split; [vm_compute; reflexivity|]. split; [vm_compute; reflexivity|]. split; [vm_compute; reflexivity|].
  unfold distance, rpair. cbn [fst snd]. rewrite A3, B3, C3. split; [intros X; injection X; lra|].
  replace ((3 - 0) * (3 - 0) + (4 - 0) * (4 - 0)) with (5 * 5) by ring. rewrite sqrt_square by lra. lra.
Qed.
