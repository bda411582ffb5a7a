From Verif Require Import Base NumSpec IntTyModel IntTySpec IntTyProofs IntTyFunProofs.
From Verif Require NumModel NumProofs NumBinProofs.
Import NumBinProofs.
Local Open Scope Z_scope.

(** ** binomial *)
Lemma for_loop_hits {S} (body : Z -> S -> outcome S) (K : Z) : forall n i s,
  i <= K < i + Z.of_nat n ->
  (forall k x, body k x = UB \/ exists y, body k x = Ok y) -> (forall x, body K x = UB) ->
  for_loop n i body s = UB.
Proof.
  induction n as [|n IH]; intros i s Hi H1 H2; [lia|]. cbn [for_loop].
  destruct (Z.eq_dec i K) as [->|N]; [now rewrite H2|].
  destruct (H1 i s) as [->|(y & ->)]; [reflexivity|]. cbn [bind]. apply IH; [lia|assumption|assumption].
Qed.
Lemma for_loop_ub_ok {S} (body : Z -> S -> outcome S) : forall n i s,
  (forall k x, body k x = UB \/ exists y, body k x = Ok y) ->
  for_loop n i body s = UB \/ exists y, for_loop n i body s = Ok y.
Proof.
  induction n as [|n IH]; intros i s H; cbn [for_loop]; [eauto|].
  destruct (H i s) as [->|(y & ->)]; [now left|]. cbn [bind]. now apply IH.
Qed.

Lemma aget_ub_ok {A} (l : list A) i : aget l i = UB \/ exists y, aget l i = Ok y.
Proof. unfold aget. destruct (i <? 0); [now left|]. destruct (nth_error l (Z.to_nat i)); eauto. Qed.
Lemma aset_ub_ok {A} (l : list A) i x : aset l i x = UB \/ exists y, aset l i x = Ok y.
Proof. unfold aset. repeat match goal with |- context [if ?b then _ else _] => destruct b end; eauto. Qed.
Lemma addassign_ub_ok t1 t2 x y : addassign t1 t2 x y = UB \/ exists z, addassign t1 t2 x y = Ok z.
Proof.
  unfold addassign, opassign, arith. destruct (sgn (common t1 t2)); [|right; eexists; reflexivity].
  destruct (has (common t1 t2) _); [right; eexists; reflexivity|now left].
Qed.
Lemma binom_row_ub_ok t r c : binom_row t r c = UB \/ exists y, binom_row t r c = Ok y.
Proof.
  apply for_loop_ub_ok. intros k x. unfold chk32. destruct (in_int32 (k + 1)); [|now left]. cbn [bind].
  destruct (k =? 0).
  - destruct (aget_ub_ok x k) as [->|(v & ->)]; [now left|]. cbn [bind].
    destruct (addassign_ub_ok t i32 v 1) as [->|(w & ->)]; [now left|]. cbn [bind]. apply aset_ub_ok.
  - destruct (aget_ub_ok x k) as [->|(v & ->)]; [now left|]. cbn [bind].
    destruct (aget_ub_ok x (k - 1)) as [->|(v' & ->)]; [now left|]. cbn [bind].
    destruct (addassign_ub_ok t t v v') as [->|(w & ->)]; [now left|]. cbn [bind]. apply aset_ub_ok.
Qed.
Lemma chk32_max : chk32 (int32_max + 1) = UB. Proof. reflexivity. Qed.

Lemma binom_body_counter t n r : int32_max < n - r -> binom_body t n r = UB.
Proof.
  intros H. unfold binom_body. rewrite (for_loop_hits _ int32_max); [reflexivity| | |].
  - unfold int32_max in *. lia.
  - intros k x. unfold chk32. destruct (in_int32 (k + 1)); [|now left]. cbn [bind]. apply binom_row_ub_ok.
  - intros x. now rewrite chk32_max.
Qed.

Lemma add_wide t x y : 32 <= bits t -> (checked t -> inty t x /\ inty t y) ->
  addassign t t (conv t x) (conv t y) =
    if sgn t then (if has t (x + y) then Ok (x + y) else UB) else Ok (conv t (x + y)).
Proof.
  intros W H. destruct (sgn t) eqn:S.
  - assert (C : checked t) by (now split). destruct (H C) as [Hx Hy].
    rewrite (conv_id t x), (conv_id t y) by assumption. now apply add_checked.
  - rewrite add_wrap; [|intros [C _]; congruence|apply conv_inty|apply conv_inty].
    rewrite conv_add, Z.add_comm, conv_add, Z.add_comm. reflexivity.
Qed.

Section Binom.
Variables (t : ty) (n r : Z).
Hypothesis W : 32 <= bits t.
Hypothesis Hr : 1 <= r.
Hypothesis Hrn : r <= n - r.
Hypothesis Hn : n - r <= int32_max.

Definition ibad : Prop := checked t /\ ~ inty t (GZ (n - r) r).
Lemma GZ_ibad a b : 0 <= a <= n - r -> 0 <= b <= r -> checked t -> ~ inty t (GZ a b) -> ibad.
Proof.
  intros Ha Hb C E. split; [assumption|]. intros E2. apply E.
  rewrite inty_iff in *. pose proof (tmin_le t). unfold GZ in *.
  pose proof (G_pos (Z.to_nat a) (Z.to_nat b)).
  pose proof (G_mono (Z.to_nat a) (Z.to_nat b) (Z.to_nat (n - r)) (Z.to_nat r)). lia.
Qed.

Definition irow (i j : Z) (c : list Z) : Prop :=
  Z.of_nat (length c) = r /\
  forall k, 0 <= k < r ->
    let v := if k <? j then GZ (i + 1) (k + 1) else GZ i (k + 1) in
    aget c k = Ok (conv t v) /\ (checked t -> inty t v).

Lemma ibinom_row_ok i c : 0 <= i < n - r -> irow i 0 c ->
  (binom_row t r c = UB /\ ibad) \/ exists c', binom_row t r c = Ok c' /\ irow (i + 1) 0 c'.
Proof.
  intros Hi Hc. unfold binom_row.
  match goal with |- (for_loop _ _ ?b _ = _ /\ _) \/ _ => set (body := b) end.
  destruct (for_loop_inv_bad ibad (irow i) body (Z.to_nat r) 0 c) as [H|(c' & E & HI)].
  - assumption.
  - intros j x Hj [HL HX]. replace (0 + Z.of_nat (Z.to_nat r)) with r in Hj by lia.
    unfold body.
    assert (E32 : chk32 (j + 1) = Ok (j + 1)).
    { unfold chk32. now replace (in_int32 (j + 1)) with true by (unfold in_int32, int32_min, int32_max in *; lia). }
    rewrite E32. cbn [bind].
    assert (Step : forall u w, u + w = GZ (i + 1) (j + 1) -> (checked t -> inty t u /\ inty t w) ->
      (v0 <- addassign t t (conv t u) (conv t w) ;; aset x j v0) = UB /\ ibad
      \/ exists x', (v0 <- addassign t t (conv t u) (conv t w) ;; aset x j v0) = Ok x' /\ irow i (j + 1) x').
    { intros u w Euw Huw. rewrite add_wide by assumption. rewrite Euw.
      assert (Good : (checked t -> inty t (GZ (i + 1) (j + 1))) ->
        exists x', aset x j (conv t (GZ (i + 1) (j + 1))) = Ok x' /\ irow i (j + 1) x').
      { intros HG. destruct (aset_spec x j (conv t (GZ (i + 1) (j + 1)))) as (x' & Ex & Lx & Gx); [lia|].
        exists x'. split; [assumption|]. split; [congruence|].
        intros k Hk. rewrite Gx. specialize (HX k Hk). cbv zeta in HX |- *.
        destruct (Z.eqb_spec k j) as [->|Hne].
        + destruct (Z.ltb_spec j (j + 1)); [|lia]. now split.
        + destruct (Z.ltb_spec k (j + 1)), (Z.ltb_spec k j); try lia; assumption. }
      destruct (sgn t) eqn:S.
      - destruct (has t (GZ (i + 1) (j + 1))) eqn:Ev; cbn [bind].
        + right. apply has_iff in Ev. destruct (Good (fun _ => Ev)) as (x' & Ex & Ix). rewrite conv_id in Ex by assumption. eauto.
        + left. split; [reflexivity|]. apply (GZ_ibad (i + 1) (j + 1)); [lia|lia|now split|].
          intros X. apply has_iff in X. congruence.
      - right. cbn [bind]. apply Good. intros [C _]. congruence. }
    destruct (HX j Hj) as [Ej Rj]. cbv zeta in Ej, Rj. destruct (Z.ltb_spec j j); [lia|].
    rewrite Ej. cbn [bind].
    destruct (Z.eqb_spec j 0) as [->|Hj0].
    + assert (E1 : forall v, inty t v -> addassign t i32 v 1 = addassign t t v (conv t 1)).
      { intros v Hv. rewrite (conv_id t 1) by (apply inty_small; lia).
        unfold addassign, opassign. rewrite common_int_same by assumption.
        rewrite common_self, promote_wide by assumption. reflexivity. }
      rewrite E1 by apply conv_inty. apply Step.
      * unfold GZ. change (Z.to_nat (0 + 1)) with 1%nat.
        replace (Z.to_nat (i + 1)) with (S (Z.to_nat i)) by lia. rewrite (G_SS (Z.to_nat i) 0), G_0_r. lia.
      * intros C. split; [auto|apply inty_small; lia].
    + destruct (HX (j - 1) ltac:(lia)) as [Ej1 Rj1]. cbv zeta in Ej1, Rj1.
      destruct (Z.ltb_spec (j - 1) j); [|lia]. rewrite Ej1. cbn [bind]. apply Step.
      * replace (j - 1 + 1) with j by lia. apply GZ_step; lia.
      * intros C. split; auto.
  - left; assumption.
  - right. exists c'. split; [assumption|]. destruct HI as [HL HX].
    split; [assumption|]. intros k Hk. specialize (HX k Hk). cbv zeta in HX |- *.
    destruct (Z.ltb_spec k (0 + Z.of_nat (Z.to_nat r))); [|lia].
    destruct (Z.ltb_spec k 0); [lia|]. assumption.
Qed.

Lemma ibinom_body_ok : (binom_body t n r = UB /\ ibad) \/
  (binom_body t n r = Ok (conv t (GZ (n - r) r)) /\ (checked t -> inty t (GZ (n - r) r))).
Proof.
  unfold binom_body.
  match goal with |- (bind (for_loop _ _ ?b _) _ = _ /\ _) \/ _ => set (body := b) end.
  destruct (for_loop_inv_bad ibad (fun i => irow i 0) body (Z.to_nat (n - r)) 0 (repeat 1 (Z.to_nat r)))
    as [[E B]|(c' & E & [HL HX])].
  - split; [rewrite repeat_length; lia|]. intros k Hk. cbv zeta.
    destruct (Z.ltb_spec k 0); [lia|]. unfold GZ. change (Z.to_nat 0) with O. rewrite G_0_l.
    split; [|intros _; apply inty_small; lia]. rewrite conv_id by (apply inty_small; lia).
    apply aget_nth_error; [lia|]. rewrite nth_error_repeat by lia. reflexivity.
  - intros i x Hi HX. replace (0 + Z.of_nat (Z.to_nat (n - r))) with (n - r) in Hi by lia.
    unfold body, chk32.
    assert (E32 : in_int32 (i + 1) = true) by (unfold in_int32, int32_min, int32_max in *; lia).
    rewrite E32. cbn [bind]. now apply ibinom_row_ok.
  - left. rewrite E. now split.
  - right. rewrite E. cbn [bind]. destruct (HX (r - 1) ltac:(lia)) as [-> R]. cbv zeta in *.
    destruct (Z.ltb_spec (r - 1) 0); [lia|].
    replace (0 + Z.of_nat (Z.to_nat (n - r))) with (n - r) in * by lia.
    replace (r - 1 + 1) with r in * by lia. now split.
Qed.
End Binom.

Lemma GZ_sym n r : 0 <= r <= n -> GZ (n - r) r = GZ (n - (n - r)) (n - r).
Proof.
  intros Hr. unfold GZ. replace (n - (n - r)) with r by lia.
  pose proof (G_fact (Z.to_nat (n - r)) (Z.to_nat r)) as F1.
  pose proof (G_fact (Z.to_nat r) (Z.to_nat (n - r))) as F2.
  rewrite Nat.add_comm in F2. rewrite <- F1 in F2.
  pose proof (zfact_ge1 (Z.to_nat r)). pose proof (zfact_ge1 (Z.to_nat (n - r))).
  assert (zfact (Z.to_nat r) * zfact (Z.to_nat (n - r)) <> 0) by nia.
  apply (Z.mul_reg_r _ _ (zfact (Z.to_nat r) * zfact (Z.to_nat (n - r)))); [assumption|].
  rewrite <- !Z.mul_assoc in F2. rewrite F2. ring.
Qed.

(** the call, reduced to the case r <= n - r *)
Lemma binomial_cases t n r : 0 <= r <= n ->
  exists r', (r' = r \/ r' = n - r) /\ r' <= n - r' /\ GZ (n - r') r' = GZ (n - r) r /\
    binomial t n r = if r' =? 0 then Ok 1 else binom_body t n r'.
Proof.
  intros Hr. unfold binomial.
  destruct (Z.ltb_spec n 0); [lia|]. destruct (Z.ltb_spec r 0); [lia|].
  destruct (Z.ltb_spec n r); [lia|]. cbn [orb].
  rewrite Z.quot_div_nonneg by lia.
  assert (D : 2 * (n / 2) <= n < 2 * (n / 2) + 2).
  { pose proof (Z.div_mod n 2). pose proof (Z.mod_pos_bound n 2). lia. }
  destruct (Z.eqb_spec r 0) as [->|Hr0].
  { exists 0. repeat split; auto; lia. }
  destruct (Z.ltb_spec (n / 2) r) as [Hq|Hq].
  - exists (n - r). split; [now right|]. split; [lia|]. split; [symmetry; apply GZ_sym; lia|].
    destruct (Z.ltb_spec (n - r) 0); [lia|]. destruct (Z.ltb_spec n (n - r)); [lia|]. cbn [orb].
    destruct (Z.eqb_spec (n - r) 0); [reflexivity|]. destruct (Z.ltb_spec (n / 2) (n - r)); [lia|reflexivity].
  - exists r. split; [now left|]. split; [lia|]. split; [reflexivity|].
    destruct (Z.eqb_spec r 0); [contradiction|reflexivity].
Qed.
Lemma binomial_value t n r : 32 <= bits t -> 0 <= r <= n -> r <= int32_max -> n - r <= int32_max ->
  binomial t n r = if sgn t then (if has t (GZ (n - r) r) then Ok (GZ (n - r) r) else UB) else Ok (conv t (GZ (n - r) r)).
Proof.
  intros W Hr H1 H2. destruct (binomial_cases t n r Hr) as (r' & Er & Hle & EG & ->).
  destruct (Z.eqb_spec r' 0) as [E|N].
  - assert (G1 : GZ (n - r) r = 1).
    { rewrite <- EG, E. unfold GZ. change (Z.to_nat 0) with O. apply G_0_r. }
    rewrite G1. assert (I1 : inty t 1) by (apply inty_small; lia).
    rewrite (conv_id t 1 I1). rewrite (proj2 (has_iff t 1) I1). now destruct (sgn t).
  - destruct (ibinom_body_ok t n r' W) as [[E [[S _] B]]|[E B]]; [lia|lia|lia| |].
    + rewrite E. rewrite EG in B. rewrite S. destruct (has t (GZ (n - r) r)) eqn:X; [|reflexivity].
      apply has_iff in X. contradiction.
    + rewrite E. rewrite EG in *. destruct (sgn t) eqn:S; [|reflexivity].
      assert (C : checked t) by (now split). specialize (B C).
      rewrite (proj2 (has_iff t _) B). now rewrite conv_id.
Qed.
Lemma binomial_counter t n r : 0 < r < n -> int32_max < r \/ int32_max < n - r -> binomial t n r = UB.
Proof.
  intros Hr H. destruct (binomial_cases t n r ltac:(lia)) as (r' & Er & Hle & _ & ->).
  destruct (Z.eqb_spec r' 0) as [E|N]; [lia|]. apply binom_body_counter. lia.
Qed.

(** ** sum *)
Lemma sum_loop_wrap t : wrapping t -> forall l s, Forall (inty t) l ->
  sum_loop t l (conv t s) = Ok (conv t (s + zsum l)).
Proof.
  intros W. induction l as [|x l IH]; intros s F; cbn [sum_loop zsum fold_right]; [now rewrite Z.add_0_r|].
  inversion F as [|? ? Hx Hl]; subst.
  rewrite add_wrap; [|assumption|apply conv_inty|assumption]. cbn [bind]. rewrite conv_add, IH by assumption.
  f_equal. f_equal. unfold zsum. ring.
Qed.
Lemma sum_loop_checked t : checked t -> forall l s, Forall (inty t) l -> inty t s ->
  (sum_loop t l s = Ok (s + zsum l) /\ forall p q, l = p ++ q -> inty t (s + zsum p)) \/
  (sum_loop t l s = UB /\ exists p q, l = p ++ q /\ ~ inty t (s + zsum p)).
Proof.
  intros C. induction l as [|x l IH]; intros s F Hs; cbn [sum_loop].
  - left. change (zsum []) with 0. rewrite Z.add_0_r. split; [reflexivity|].
    intros p q E. symmetry in E. apply app_eq_nil in E. destruct E as [-> ->].
    change (zsum []) with 0. now rewrite Z.add_0_r.
  - inversion F as [|? ? Hx Hl]; subst. rewrite add_checked by assumption.
    destruct (has t (s + x)) eqn:E; cbn [bind].
    + apply has_iff in E. destruct (IH (s + x) Hl E) as [[E1 E2]|[E1 (p & q & -> & E2)]].
      * left. split; [rewrite E1; f_equal; unfold zsum; cbn [fold_right]; ring|].
        intros [|y p] q H; [change (zsum []) with 0; now rewrite Z.add_0_r|].
        injection H as <- H. specialize (E2 p q H).
        replace (s + zsum (x :: p)) with (s + x + zsum p) by (unfold zsum; cbn [fold_right]; ring). assumption.
      * right. split; [assumption|]. exists (x :: p), q. split; [reflexivity|].
        replace (s + zsum (x :: p)) with (s + x + zsum p) by (unfold zsum; cbn [fold_right]; ring). assumption.
    + right. split; [reflexivity|]. exists [x], l. split; [reflexivity|].
      unfold zsum. cbn [fold_right]. rewrite Z.add_0_r. intros X. apply has_iff in X. congruence.
Qed.
Lemma sum_map_eq {A} t (fn : A -> outcome Z) : forall l vs s,
  Forall2 (fun x v => fn x = Ok v) l vs -> sum_map_loop t fn l s = sum_loop t vs s.
Proof.
  intros l vs s H. revert s. induction H as [|x v l vs E _ IH]; intros s; cbn [sum_map_loop sum_loop]; [reflexivity|].
  rewrite E. cbn [bind]. destruct (addassign t t s v); cbn [bind]; auto.
Qed.
Lemma sum_map_stop {A} t (fn : A -> outcome Z) : forall p vs x q s0 s,
  Forall2 (fun x v => fn x = Ok v) p vs -> sum_loop t vs s0 = Ok s -> fn x = Err ->
  sum_map_loop t fn (p ++ x :: q) s0 = Err.
Proof.
  intros p vs x q s0 s H. revert s0. induction H as [|y v p vs E _ IH]; intros s0 ES EX; cbn [app sum_map_loop sum_loop] in *.
  - now rewrite EX.
  - rewrite E. cbn [bind]. destruct (addassign t t s0 v); try discriminate. cbn [bind] in *. now apply IH.
Qed.
