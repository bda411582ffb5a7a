From Coq Require Import Reals Lra Floats.SpecFloat Psatz.
From Flocq Require Import Core Sterbenz IEEE754.BinarySingleNaN.
From Verif Require Import Base Float FloatProofs NumModel RandModel RandSpec RandDoubleProofs RandSamplerProofs StatProofs StatErrProofs DistModel DistNumSpec DistNumProofs.
Local Open Scope Z_scope.

(** floor and truncation *)
Lemma floorZ_spec x : dvalid x = true -> dfinite x = true -> floorZ x = Zfloor (real x).
Proof.
  intros V F. destruct x as [s|s| |s m e]; try discriminate. { cbn. change (real (S754_zero s)) with (IZR 0). now rewrite Zfloor_IZR. }
  rewrite real_finite. unfold floorZ. set (z := if s then Z.neg m else Z.pos m). destruct (Z.leb_spec 0 e).
  - rewrite big_IZR, <- mult_IZR, Zfloor_IZR by lia. reflexivity.
  - replace e with (- (- e)) at 2 by lia. rewrite bpow_opp, big_IZR by lia. fold (IZR z / IZR (2 ^ (- e)))%R. rewrite Zfloor_div; [reflexivity|]. pose proof (Z.pow_pos_nonneg 2 (- e) ltac:(lia) ltac:(lia)). lia.
Qed.
Lemma floor_range k : (0 < real k)%R -> 0 <= Zfloor (real k).
Proof. intros P. apply Zfloor_lub. cbn. lra. Qed.
Lemma to_int_spec k : number k -> (0 < real k)%R -> to_int k = if Rlt_bool (real k) (IZR (2 ^ 31)) then Ok (Zfloor (real k)) else UB.
Proof.
  intros [V F] P. pose proof (floor_range k P) as F0. destruct k as [s|s| |s m e]; try discriminate. { change (real (S754_zero s)) with 0%R in P. lra. }
  destruct s; [destruct (real_sign m e); lra|]. unfold to_int. rewrite floorZ_spec by assumption. set (k := S754_finite false m e) in *.
  unfold chk32, in_int32, int32_min, int32_max. destruct (Rlt_bool_spec (real k) (IZR (2 ^ 31))) as [L|L].
  - assert (Zfloor (real k) < 2 ^ 31). { apply lt_IZR. eapply Rle_lt_trans; [apply Zfloor_lb|exact L]. } destruct (Z.leb_spec (-2147483648) (Zfloor (real k))); [|lia]. now destruct (Z.leb_spec (Zfloor (real k)) 2147483647); [|lia].
  - assert (2 ^ 31 <= Zfloor (real k)) by (apply Zfloor_lub; exact L). destruct (Z.leb_spec (-2147483648) (Zfloor (real k))); [|lia]. now destruct (Z.leb_spec (Zfloor (real k)) 2147483647); [lia|].
Qed.
(** the fractional part is computed exactly *)
Lemma delta_spec k : number k -> (0 < real k < IZR (2 ^ 31))%R ->
  number (dsub k (dfloor k)) /\ real (dsub k (dfloor k)) = (real k - IZR (Zfloor (real k)))%R /\ (0 <= real (dsub k (dfloor k)) < 1)%R.
Proof.
  intros [V F] P. pose proof (floor_range k (proj1 P)) as F0.
  assert (FU : Zfloor (real k) < 2 ^ 31) by (apply lt_IZR; eapply Rle_lt_trans; [apply Zfloor_lb|apply P]).
  assert (D : dfloor k = dof (Zfloor (real k))). { destruct k as [s|s| |s m e]; try discriminate; [change (real (S754_zero s)) with 0%R in P; lra|]. unfold dfloor. now rewrite floorZ_spec. }
  rewrite D. destruct (dof_exact (Zfloor (real k)) ltac:(lia)) as (Vf & Ff & Rf). pose proof (Zfloor_lb (real k)) as LB. pose proof (Zfloor_ub (real k)) as UB.
  assert (FR : generic_format radix2 (FLT_exp (-1074) 53) (real k - IZR (Zfloor (real k)))).
  { destruct (Z.eq_dec (Zfloor (real k)) 0) as [->|NZ]; [rewrite Rminus_0_r; now apply format_real|]. apply sterbenz; [typeclasses eauto|typeclasses eauto|now apply format_real|rewrite <- Rf; now apply format_real|].
    assert (1 <= IZR (Zfloor (real k)))%R by (apply IZR_le; lia). lra. }
  assert (RE : rnd (real k - IZR (Zfloor (real k))) = (real k - IZR (Zfloor (real k)))%R) by (unfold rnd; apply round_generic; [typeclasses eauto|exact FR]).
  destruct (dsub_ok k (dof (Zfloor (real k))) 0 V Vf F Ff ltac:(lia)) as (A & B & C). { rewrite Rf. change (bpow radix2 0) with 1%R. rewrite Rabs_pos_eq; lra. }
  rewrite Rf, RE in C. split; [now split|]. rewrite C. split; [reflexivity|lra].
Qed.
Lemma neg_spec x : number x -> number (dneg x) /\ real (dneg x) = (- real x)%R.
Proof.
  intros [V F]. split; [split; destruct x; assumption|]. destruct x as [s|s| |s m e]; try discriminate.
  - change (real (S754_zero s)) with 0%R. change (real (dneg (S754_zero s))) with 0%R. lra.
  - change (dneg (S754_finite s m e)) with (S754_finite (negb s) m e). rewrite !real_finite, Ropp_mult_distr_l, <- opp_IZR. destruct s; reflexivity.
Qed.

(** the logarithm of libm on (0, 1] *)
Section Log.
Context {G : Type} (E : engine G) (log exp : double -> double) (pow : double -> double -> double).
Context (L0 : forall s, log (S754_zero s) = S754_infinity true).
Context (L1 : forall x, dvalid x = true -> dfinite x = true -> (0 < real x <= 1)%R -> dvalid (log x) = true /\ dfinite (log x) = true /\ (-1000 <= real (log x) <= 0)%R).

Lemma draw_spec g : output (fst (gen E g)) -> exists u, draw E g = Ok (u, snd (gen E g)) /\ nextDouble (fst (gen E g)) = Ok u /\ number u /\ (0 <= real u <= 1)%R /\
  (u = done <-> 2 ^ 64 - 1024 <= fst (gen E g)).
Proof.
  intros X. unfold draw. destruct (gen E g) as [x g']. cbn [fst snd] in *. destruct (nextDouble_spec x X) as (u & H & Vu & Fu & Eu & Bu). exists u. rewrite H. cbn [bind].
  pose proof (draw_one x u X H) as D. split; [reflexivity|]. split; [reflexivity|]. split; [now split|]. split; [exact Bu|exact D].
Qed.
(** 1 - u, and its logarithm: minus infinity or a number in [-1000, 0] *)
Definition nonpos (b : R) (x : double) : Prop := x = S754_infinity true \/ number x /\ (- b <= real x <= 0)%R.
Lemma complement u : number u -> (0 <= real u <= 1)%R -> (u = done /\ dsub done u = S754_zero false) \/ (u <> done /\ number (dsub done u) /\ (0 < real (dsub done u) <= 1)%R).
Proof.
  intros [V F] B. destruct (Req_dec (real u) 1) as [O|O].
  - left. destruct valid_one as [V1 F1]. assert (u = done) as -> by (apply real_inj; try assumption; [lra|now rewrite real_one]). split; [reflexivity|]. vm_compute. reflexivity.
  - right. assert (N : u <> done) by (intros ->; rewrite real_one in O; lra). split; [exact N|]. destruct (one_minus u V F B N) as (A & C & D). split; [now split|exact D].
Qed.
Lemma log_complement u : number u -> (0 <= real u <= 1)%R -> (u = done /\ log (dsub done u) = S754_infinity true) \/ (u <> done /\ number (log (dsub done u)) /\ (-1000 <= real (log (dsub done u)) <= 0)%R).
Proof.
  intros N B. destruct (complement u N B) as [[O Z]|(O & [V F] & C)]; [left; split; [exact O|]; rewrite Z; apply L0|right]. split; [exact O|]. destruct (L1 _ V F C) as (A & D & H). split; [now split|exact H].
Qed.
Lemma rnd_neg_int a z : 0 <= z <= 2 ^ 53 -> (IZR (- z) <= a)%R -> (a <= 0)%R -> (IZR (- z) <= rnd a <= 0)%R.
Proof.
  intros Z L U. split; [rewrite <- (rnd_int (- z)) by lia; now apply rnd_le|rewrite <- rnd_0; now apply rnd_le].
Qed.
Lemma dadd_neg_inf x : x = S754_infinity true \/ dfinite x = true -> dadd (S754_infinity true) x = S754_infinity true /\ dadd x (S754_infinity true) = S754_infinity true.
Proof. intros [->|F]; [split; reflexivity|]. destruct x; try discriminate; split; reflexivity. Qed.
Lemma gamma_sum_spec n : forall i acc g, Forall output (outputs E n g) -> i + Z.of_nat n <= 2 ^ 31 -> 0 <= i ->
  (number acc /\ (IZR (- (1000 * i)) <= real acc <= 0)%R ->
     exists r, gamma_sum E log n acc g = Ok (r, after E n g) /\
       ((Exists (fun x => 2 ^ 64 - 1024 <= x) (outputs E n g) /\ r = S754_infinity true) \/
        (Forall (fun x => x < 2 ^ 64 - 1024) (outputs E n g) /\ number r /\ (IZR (- (1000 * (i + Z.of_nat n))) <= real r <= 0)%R))) /\
  (acc = S754_infinity true -> gamma_sum E log n acc g = Ok (S754_infinity true, after E n g)).
Proof.
  induction n as [|n IH]; intros i acc g X L I.
  { split; [|intros ->; reflexivity]. intros [N B]. exists acc. split; [reflexivity|]. right. split; [constructor|]. split; [exact N|]. now rewrite Z.add_0_r. }
  cbn [outputs] in X |- *. inversion X as [|? ? X1 X2]; subst. destruct (draw_spec g X1) as (u & _ & H & Nu & Bu & D).
  assert (ST : gamma_sum E log (S n) acc g = gamma_sum E log n (dadd acc (log (dsub done u))) (snd (gen E g))). { cbn [gamma_sum]. destruct (gen E g) as [x g']. cbn [fst snd] in *. rewrite H. reflexivity. }
  rewrite ST. cbn [after]. split.
  - intros [[Va Fa] B]. destruct (log_complement u Nu Bu) as [[O LG]|(O & [Vl Fl] & LG)].
    + rewrite LG. destruct (dadd_neg_inf acc (or_intror Fa)) as [_ ->]. destruct (IH (i + 1) (S754_infinity true) _ X2 ltac:(lia) ltac:(lia)) as [_ J]. rewrite (J eq_refl). eexists. split; [reflexivity|]. left. split; [|reflexivity]. left. now apply D.
    + assert (ND : fst (gen E g) < 2 ^ 64 - 1024) by (destruct (Z.lt_ge_cases (fst (gen E g)) (2 ^ 64 - 1024)) as [T|T]; [exact T|elim O; now apply D]).
      set (l := log (dsub done u)) in *. assert (B' : (IZR (- (1000 * (i + 1))) <= real acc + real l <= 0)%R).
      { replace (- (1000 * (i + 1))) with (- (1000 * i) + -1000) by lia. rewrite plus_IZR. lra. }
      destruct (dadd_ok acc l 53 Va Vl Fa Fl ltac:(lia)) as (A1 & A2 & A3).
      { rewrite Rabs_left1 by lra. change (bpow radix2 53) with (IZR (2 ^ 53)). rewrite opp_IZR in B'. assert (IZR (1000 * (i + 1)) <= IZR (2 ^ 53))%R by (apply IZR_le; lia). lra. }
      destruct (IH (i + 1) (dadd acc l) (snd (gen E g)) X2 ltac:(lia) ltac:(lia)) as [J _]. destruct J as (r & R1 & R2).
      { split; [now split|]. rewrite A3. apply rnd_neg_int; [lia|apply B'|apply B']. }
      exists r. split; [exact R1|]. destruct R2 as [[R2 R3]|(R2 & R3 & R4)]; [left; split; [now right|exact R3]|right]. split; [now constructor|]. split; [exact R3|].
      replace (i + Z.of_nat (S n)) with (i + 1 + Z.of_nat n) by lia. exact R4.
  - intros ->. assert (dadd (S754_infinity true) (log (dsub done u)) = S754_infinity true) as ->.
    { destruct (log_complement u Nu Bu) as [[O LG]|(O & [Vl Fl] & LG)]; [rewrite LG; reflexivity|]. now destruct (dadd_neg_inf _ (or_intror Fl)). }
    destruct (IH (i + 1) (S754_infinity true) _ X2 ltac:(lia) ltac:(lia)) as [_ J]. exact (J eq_refl).
Qed.
Lemma inf_times theta : number theta -> (0 < real theta)%R -> dmul theta dinf = dinf.
Proof.
  intros [V F] P. destruct theta as [s|s| |s m e]; try discriminate; [change (real (S754_zero s)) with 0%R in P; lra|]. destruct s; [destruct (real_sign m e); lra|reflexivity].
Qed.
Lemma scale_spec theta x : number theta -> (0 < real theta <= IZR (2 ^ 900))%R -> number x -> (0 <= real x <= bpow radix2 60)%R ->
  number (dmul theta x) /\ (0 <= real (dmul theta x))%R.
Proof.
  intros [Vt Ft] Bt [V F] B. assert (B' : (0 <= real theta * real x <= bpow radix2 960)%R).
  { split; [apply Rmult_le_pos; lra|]. rewrite <- big_IZR in Bt by lia. replace 960 with (900 + 60) by reflexivity. rewrite bpow_plus. apply Rmult_le_compat; lra. }
  destruct (dmul_ok theta x 960 Vt V Ft F ltac:(lia)) as (A1 & A2 & A3); [rewrite Rabs_pos_eq; lra|]. split; [now split|]. rewrite A3. apply rnd_pos. lra.
Qed.

(** integer shape *)
Lemma gamma_integer fuel k theta n g : number k -> real k = IZR (Z.of_nat n) -> 0 < Z.of_nat n < 2 ^ 31 -> number theta -> (0 < real theta <= IZR (2 ^ 900))%R -> Forall output (outputs E n g) ->
  exists r, gamma_draw E log exp pow fuel k theta g = Ok (r, after E n g) /\
    (Exists (fun x => 2 ^ 64 - 1024 <= x) (outputs E n g) /\ r = dinf \/
     Forall (fun x => x < 2 ^ 64 - 1024) (outputs E n g) /\ number r /\ (0 <= real r)%R).
Proof.
  intros Nk Rk Bn Nt Bt X. assert (P : (0 < real k < IZR (2 ^ 31))%R) by (rewrite Rk; split; apply IZR_lt; lia).
  unfold gamma_draw. rewrite to_int_spec by (tauto || lra). rewrite Rlt_bool_true by apply P. cbn [bind]. rewrite Rk, Zfloor_IZR, Nat2Z.id.
  destruct (gamma_sum_spec n 0 dzero g X ltac:(lia) ltac:(lia)) as [J _]. destruct J as (r & R1 & R2). { split; [split; reflexivity|]. change (real dzero) with 0%R. cbn. lra. }
  rewrite R1. cbn [bind]. destruct (delta_spec k Nk P) as ([Vd Fd] & Rd & _). rewrite Rk, Zfloor_IZR, Rminus_diag_eq in Rd by reflexivity. rewrite deqb_zero, Rd, Req_bool_true by (assumption || reflexivity).
  eexists. split; [reflexivity|]. destruct R2 as [[R2 ->]|(R2 & R3 & R4)].
  - left. split; [exact R2|]. apply (inf_times theta Nt). lra.
  - right. split; [exact R2|]. destruct (neg_spec r R3) as [N1 N2]. apply (scale_spec theta (dneg r) Nt Bt N1). rewrite N2.
    assert (IZR (1000 * (0 + Z.of_nat n)) <= bpow radix2 60)%R by (rewrite big_IZR by lia; apply IZR_le; lia). rewrite opp_IZR in R4. lra.
Qed.
(** what the loop returns *)
Context (P1 : forall v y, number v -> (0 <= real v <= 1)%R -> dvalid y = true -> y = dinf \/ dfinite y = true /\ (1 <= real y)%R -> number (pow v y) /\ (0 <= real (pow v y) <= 1)%R).
Lemma inv_delta d : number d -> (0 < real d < 1)%R -> dvalid (ddiv done d) = true /\ (ddiv done d = dinf \/ dfinite (ddiv done d) = true /\ (1 <= real (ddiv done d))%R).
Proof.
  intros [V F] B. destruct valid_one as [V1 F1]. destruct (ddiv_spec done d V1 V F1 ltac:(lra)) as [Vq S]. split; [exact Vq|]. destruct (Rlt_bool _ _).
  - right. destruct S as [R Fq]. split; [exact Fq|]. rewrite R, real_one. replace 1%R with (rnd 1) at 1 by (apply (rnd_pow 0); lia). apply rnd_le. unfold Rdiv. rewrite Rmult_1_l. rewrite <- Rinv_1 at 1. apply Rinv_le; lra.
  - left. destruct S as [b S]. rewrite S. f_equal. pose proof (ddiv_inf done d b V1 V F1 ltac:(lra) S ltac:(rewrite real_one; lra)) as I. unfold dinf. f_equal. apply I. lra.
Qed.
Lemma gamma_try_spec d u v w ksi : number d -> (0 < real d < 1)%R -> (v = S754_zero false \/ number v /\ (0 < real v <= 1)%R) ->
  gamma_try (double_ops log exp pow) d u v w = Some ksi -> ksi = dinf \/ number ksi /\ (0 <= real ksi <= 1001)%R.
Proof.
  intros Nd Bd Hv. unfold gamma_try, double_ops. cbn [fle fdiv fe fadd fone fpow fsub fmul flog fexp fneg fgt].
  assert (K1 : number (pow v (ddiv done d)) /\ (0 <= real (pow v (ddiv done d)) <= 1)%R).
  { destruct (inv_delta d Nd Bd) as [A B]. destruct Hv as [->|[Nv Bv]]; apply P1; try assumption; try (split; reflexivity); [change (real (S754_zero false)) with 0%R; lra|lra]. }
  assert (K2 : dsub done (log v) = dinf \/ number (dsub done (log v)) /\ (0 <= real (dsub done (log v)) <= 1001)%R).
  { destruct Hv as [->|[[Vv Fv] Bv]]; [left; rewrite L0; reflexivity|right]. destruct (L1 v Vv Fv Bv) as (A & B & C). destruct valid_one as [V1 F1].
    destruct (dsub_ok done (log v) 10 V1 A F1 B ltac:(lia)) as (Q1 & Q2 & Q3); rewrite ?real_one in *; [change (bpow radix2 10) with 1024%R; rewrite Rabs_pos_eq; lra|]. split; [now split|]. rewrite Q3. split; [apply rnd_pos; lra|].
    replace 1001%R with (rnd 1001) by (apply rnd_int; lia). apply rnd_le. lra. }
  assert (SI : forall a b : double, Some a = Some b -> a = b) by congruence.
  destruct (dleb u _); [destruct (dltb _ _); [discriminate|]; intros Q; apply SI in Q; subst ksi; right; split; [apply K1|lra]|]. destruct (dltb _ _); [discriminate|]. intros Q. apply SI in Q. subst ksi. exact K2.
Qed.
Lemma gamma_reject_spec fuel : forall d g ksi g', number d -> (0 < real d < 1)%R -> (forall g, output (fst (gen E g))) -> gamma_reject E log exp pow fuel d g = Ok (ksi, g') ->
  ksi = dinf \/ number ksi /\ (0 <= real ksi <= 1001)%R.
Proof.
  induction fuel as [|fuel IH]; intros d g ksi g' Nd Bd X H; [discriminate|]. cbn [gamma_reject] in H.
  destruct (draw_spec g (X g)) as (u & D1 & _). rewrite D1 in H. cbn [bind] in H. destruct (draw_spec _ (X (snd (gen E g)))) as (v & D2 & _ & Nv & Bv & _). rewrite D2 in H. cbn [bind] in H.
  destruct (draw_spec _ (X (snd (gen E (snd (gen E g)))))) as (w & D3 & _). rewrite D3 in H. cbn [bind] in H.
  destruct (gamma_try _ d (dsub done u) (dsub done v) (dsub done w)) as [k|] eqn:T; [|exact (IH d _ ksi g' Nd Bd X H)]. injection H as <- <-.
  apply (gamma_try_spec d _ (dsub done v) _ k Nd Bd) in T; [exact T|]. destruct (complement v Nv Bv) as [[_ Z]|(_ & N & B)]; [left; exact Z|right; now split].
Qed.
Lemma outputs_all n : forall g, (forall g, output (fst (gen E g))) -> Forall output (outputs E n g).
Proof. induction n as [|n IH]; intros g X; cbn; constructor; auto. Qed.
Lemma gamma_any fuel k theta g r g' : number k -> (0 < real k)%R -> number theta -> (0 < real theta <= IZR (2 ^ 900))%R -> (forall g, output (fst (gen E g))) ->
  gamma_draw E log exp pow fuel k theta g = Ok (r, g') -> r = dinf \/ number r /\ (0 <= real r)%R.
Proof.
  intros Nk Pk Nt Bt X H. unfold gamma_draw in H. rewrite to_int_spec in H by assumption. destruct (Rlt_bool_spec (real k) (IZR (2 ^ 31))) as [L|L]; [|discriminate]. cbn [bind] in H.
  pose proof (floor_range k Pk) as F0. assert (FU : Zfloor (real k) < 2 ^ 31) by (apply lt_IZR; eapply Rle_lt_trans; [apply Zfloor_lb|exact L]).
  set (n := Z.to_nat (Zfloor (real k))) in *. destruct (gamma_sum_spec n 0 dzero g (outputs_all n g X) ltac:(lia) ltac:(lia)) as [J _]. destruct J as (s & R1 & R2). { split; [split; reflexivity|]. change (real dzero) with 0%R. cbn. lra. }
  rewrite R1 in H. cbn [bind] in H. destruct (delta_spec k Nk (conj Pk L)) as (Nd & Rd & Bd).
  assert (S : s = S754_infinity true \/ number s /\ (- bpow radix2 50 <= real s <= 0)%R).
  { destruct R2 as [[_ R2]|(_ & R2 & R3)]; [now left|right]. split; [exact R2|]. assert (IZR (1000 * (0 + Z.of_nat n)) <= bpow radix2 50)%R by (rewrite big_IZR by lia; apply IZR_le; lia). rewrite opp_IZR in R3. lra. }
  assert (PW : (bpow radix2 50 + 1001 <= bpow radix2 60)%R) by (rewrite !big_IZR by lia; rewrite <- plus_IZR; apply IZR_le; lia).
  destruct (deqb (dsub k (dfloor k)) dzero) eqn:DE.
  - injection H as <- <-. destruct S as [->|[Ns Bs]]; [left; apply (inf_times theta Nt); lra|right]. destruct (neg_spec s Ns) as [N1 N2]. apply (scale_spec theta (dneg s) Nt Bt N1). rewrite N2. lra.
  - assert (PD : (0 < real (dsub k (dfloor k)) < 1)%R). { rewrite deqb_zero in DE by apply Nd. destruct (Req_bool_spec (real (dsub k (dfloor k))) 0); [discriminate|]. lra. }
    destruct (gamma_reject E log exp pow fuel (dsub k (dfloor k)) (after E n g)) as [[ksi g1]| | |] eqn:RJ; try discriminate. cbn in H. injection H as <- <-.
    pose proof (gamma_reject_spec fuel _ _ _ _ Nd PD X RJ) as K.
    destruct S as [->|[[Vs Fs] Bs]].
    + left. assert (dsub ksi (S754_infinity true) = dinf) as -> by (destruct K as [->|[[_ Fk] _]]; [reflexivity|destruct ksi; try discriminate; reflexivity]). apply (inf_times theta Nt). lra.
    + destruct K as [->|[[Vk Fk] Bk]].
      * left. assert (dsub dinf s = dinf) as -> by (destruct s; try discriminate; reflexivity). apply (inf_times theta Nt). lra.
      * right. destruct (dsub_ok ksi s 60 Vk Vs Fk Fs ltac:(lia)) as (A1 & A2 & A3); [rewrite Rabs_pos_eq; lra|]. apply (scale_spec theta _ Nt Bt (conj A1 A2)). rewrite A3. split; [apply rnd_pos; lra|].
        rewrite <- (rnd_pow 60) by lia. apply rnd_le. lra.
Qed.
End Log.

(** Student's t for r = 2 and one of the 1025 smallest outputs in the chi-squared sample *)
Lemma one_minus_small u : number u -> (0 <= real u <= bpow radix2 (-54))%R -> dsub done u = done.
Proof.
  intros [V F] B. destruct valid_one as [V1 F1]. destruct (dsub_ok done u 1 V1 V F1 F ltac:(lia)) as (A1 & A2 & A3).
  { rewrite real_one. change (bpow radix2 1) with 2%R. assert (bpow radix2 (-54) <= bpow radix2 0)%R by (apply bpow_le; lia). change (bpow radix2 0) with 1%R in *. rewrite Rabs_pos_eq; lra. }
  assert (H : rnd (1 - bpow radix2 (-54)) = 1%R).
  { assert (Vt : dvalid (dmake 1 (-54)) = true) by (vm_compute; reflexivity). assert (Ft : dfinite (dmake 1 (-54)) = true) by (vm_compute; reflexivity).
    assert (Rt : real (dmake 1 (-54)) = bpow radix2 (-54)). { destruct (dmake_spec 1 (-54)) as [_ S]. rewrite Rmult_1_l, rnd_pow in S by lia. rewrite Rlt_bool_true in S; [apply S|]. rewrite Rabs_pos_eq by apply bpow_ge_0. apply bpow_lt. lia. }
    destruct (dsub_ok done (dmake 1 (-54)) 1 V1 Vt F1 Ft ltac:(lia)) as (_ & _ & C).
    { rewrite real_one, Rt. change (bpow radix2 1) with 2%R. assert (bpow radix2 (-54) <= bpow radix2 0)%R by (apply bpow_le; lia). pose proof (bpow_ge_0 radix2 (-54)). change (bpow radix2 0) with 1%R in *. rewrite Rabs_pos_eq; lra. }
    rewrite Rt, real_one in C. rewrite <- C. replace (dsub done (dmake 1 (-54))) with done by (vm_compute; reflexivity). apply real_one. }
  assert (R : real (dsub done u) = 1%R).
  { rewrite A3, real_one. apply Rle_antisym; [replace 1%R with (rnd 1) at 2 by (apply (rnd_pow 0); lia); apply rnd_le; lra|]. rewrite <- H. apply rnd_le. lra. }
  apply real_inj; try assumption; [lra|]. now rewrite real_one.
Qed.
Lemma student_nan {G} (E : engine G) log exp pow fuel g d g' : log done = dzero -> output (fst (gen E g)) -> fst (gen E g) <= 1024 ->
  student_draw E log exp pow false fuel (dof 2) g = Ok (d, g') -> d = dnan.
Proof.
  intros L X B H. unfold student_draw, gamma_init in H. replace (ddiv (dof 2) (dof 2)) with done in H by (vm_compute; reflexivity).
  change (dleb done dzero) with false in H. change (dleb (dof 2) dzero) with false in H. cbn [orb bind] in H.
  unfold gamma_draw in H. replace (to_int done) with (Ok 1) in H by (vm_compute; reflexivity). cbn [bind] in H. change (Z.to_nat 1) with 1%nat in H. cbn [gamma_sum] in H.
  destruct (gen E g) as [x g1]. cbn [fst] in *. destruct (nextDouble_spec x X) as (u & NU & Vu & Fu & Eu & Bu). rewrite NU in H. cbn [bind] in H.
  assert (U : (real u <= bpow radix2 (-54))%R).
  { destruct (unit_spec x X) as (_ & _ & Q & _). rewrite Eu. eapply Rle_trans; [apply Rmult_le_compat_r; [|apply rnd_le; apply (IZR_le x 1024); lia]|]; try (apply Rlt_le, Rinv_0_lt_compat; unfold two64; apply bpow_gt_0).
    rewrite rnd_int by lia. unfold two64. rewrite <- bpow_opp. change 1024%R with (bpow radix2 10). rewrite <- bpow_plus. apply bpow_le. lia. }
  rewrite (one_minus_small u) in H by (split; [assumption..|lra] || (split; assumption) || lra). rewrite L in H.
  replace (dsub done (dfloor done)) with dzero in H by (vm_compute; reflexivity). replace (deqb dzero dzero) with true in H by reflexivity. cbn [bind] in H.
  destruct (normal_next E log fuel dzero done (false, dzero) g1) as [[[z st] g2]| | |]; try discriminate. cbn [bind] in H. injection H as <- _.
  replace (dsqrt (ddiv (dof 2) (dmul (dof 2) (dneg (dadd dzero dzero))))) with dnan by (vm_compute; reflexivity). destruct z; reflexivity.
Qed.
