(** Lemmas for SegmentTree at every integer type. *)
From Verif Require Import Base SegModel SegSpec IntTyModel IntTySpec IntTyProofs SegTyModel SegTySpec.
Local Open Scope Z_scope.

(** ** the operations *)
Lemma bits_promote t : bits t <= bits (promote t).
Proof. destruct t as [[] []]; cbn; lia. Qed.
Lemma bits_common_self t : bits t <= bits (common t t).
Proof. destruct t as [[] []]; cbn; lia. Qed.
Lemma bits_common_int t : bits t <= bits (common t i32).
Proof. destruct t as [[] []]; cbn; lia. Qed.
Lemma common_again t : common t (common t i32) = common t i32.
Proof. destruct t as [[] []]; reflexivity. Qed.
Lemma arith_conv t c z w : bits t <= bits c -> arith c z = Ok w -> conv t w = conv t z.
Proof.
  intros Hb. unfold arith. destruct (sgn c) eqn:S.
  - destruct (has c z); [|discriminate]. now intros [= <-].
  - intros [= <-]. rewrite <- conv_mod_unsigned by assumption. now apply conv_conv.
Qed.
Lemma arith_two c z : (exists w, arith c z = Ok w) \/ arith c z = UB.
Proof. unfold arith. destruct (sgn c); [destruct (has c z)|]; eauto. Qed.
Lemma conv_mul2 t x y : conv t (conv t x * conv t y) = conv t (x * y).
Proof. rewrite conv_mul, Z.mul_comm, conv_mul. f_equal. lia. Qed.
Lemma conv_add2 t x y : conv t (conv t x + conv t y) = conv t (x + y).
Proof. rewrite conv_add, Z.add_comm, conv_add. f_equal. lia. Qed.
Lemma conv_mul_up t c x y : bits t <= bits c -> conv t (conv c x * conv c y) = conv t (x * y).
Proof. intros H. rewrite <- (conv_mul2 t), !conv_conv by assumption. apply conv_mul2. Qed.
Lemma conv_add_up t c x y : bits t <= bits c -> conv t (conv c x + conv c y) = conv t (x + y).
Proof. intros H. rewrite <- (conv_add2 t), !conv_conv by assumption. apply conv_add2. Qed.

Lemma tmul_val t x y z : tmul t x y = Ok z -> z = conv t (x * y).
Proof.
  unfold tmul, mulassign, opassign. cbv zeta. destruct (arith _ _) as [w| | |] eqn:E; try discriminate. intros [= <-].
  rewrite (arith_conv t _ _ _ (bits_common_self t) E). apply conv_mul_up, bits_common_self.
Qed.
Lemma tadd_val t x y z : tadd t x y = Ok z -> z = conv t (x + y).
Proof.
  unfold tadd, addassign, opassign. cbv zeta. destruct (arith _ _) as [w| | |] eqn:E; try discriminate. intros [= <-].
  rewrite (arith_conv t _ _ _ (bits_common_self t) E). apply conv_add_up, bits_common_self.
Qed.
Lemma taddn_val t x a n z : taddn t x a n = Ok z -> z = conv t (x + a * n).
Proof.
  unfold taddn, addassign, opassign. cbv zeta. rewrite common_again. destruct (arith _ _) as [w| | |] eqn:E; try discriminate. cbn [bind].
  destruct (arith _ (_ + _)) as [u| | |] eqn:F; try discriminate. intros [= <-].
  rewrite (arith_conv t _ _ _ (bits_common_int t) F), conv_add_up by apply bits_common_int.
  rewrite Z.add_comm, <- conv_add, (arith_conv t _ _ _ (bits_common_int t) E), conv_mul_up by apply bits_common_int.
  rewrite conv_add. f_equal. lia.
Qed.
Lemma tmul_two t x y : (exists z, tmul t x y = Ok z) \/ tmul t x y = UB.
Proof. unfold tmul, mulassign, opassign. cbv zeta. destruct (arith_two (common t t) (conv (common t t) x * conv (common t t) y)) as [[w ->] | ->]; cbn; eauto. Qed.
Lemma tadd_two t x y : (exists z, tadd t x y = Ok z) \/ tadd t x y = UB.
Proof. unfold tadd, addassign, opassign. cbv zeta. destruct (arith_two (common t t) (conv (common t t) x + conv (common t t) y)) as [[w ->] | ->]; cbn; eauto. Qed.
Lemma taddn_two t x a n : (exists z, taddn t x a n = Ok z) \/ taddn t x a n = UB.
Proof.
  unfold taddn, addassign, opassign. cbv zeta. destruct (arith_two (common t i32) (conv (common t i32) a * conv (common t i32) n)) as [[w ->] | ->]; cbn [bind]; eauto.
  destruct (arith_two (common t (common t i32)) (conv (common t (common t i32)) x + conv (common t (common t i32)) w)) as [[u ->] | ->]; cbn; eauto.
Qed.

(** ** no undefined arithmetic *)
Lemma arith_calm c z : sgn c = false \/ inty c z -> arith c z <> UB.
Proof. intros [H|H]; [rewrite (arith_unsigned _ _ H)|rewrite (arith_ok _ _ H)]; discriminate. Qed.
Lemma i32_inty z : - 2 ^ 31 <= z <= 2 ^ 31 - 1 -> inty i32 z.
Proof. intros H. unfold inty. cbn [sgn bits wbits i32]. change (32 - 1) with 31. lia. Qed.
Lemma small_bounds t x : inty t x -> match t with Ty s W8 => if s then -128 <= x <= 127 else 0 <= x <= 255 | Ty s W16 => if s then -32768 <= x <= 32767 else 0 <= x <= 65535 | _ => True end.
Proof. destruct t as [[] []]; unfold inty; cbn [sgn bits wbits]; intros H; try exact I; repeat match type of H with context[2 ^ ?k] => let v := eval compute in (2 ^ k) in change (2 ^ k) with v in H end; lia. Qed.

Lemma tmul_calm t n x y : calm t n -> inty t x -> inty t y -> tmul t x y <> UB.
Proof.
  intros C Hx Hy. apply small_bounds in Hx, Hy. unfold tmul, mulassign, opassign. cbv zeta.
  assert (K : arith (common t t) (conv (common t t) x * conv (common t t) y) <> UB).
  { destruct t as [[] []]; cbn [calm] in C; try contradiction; try (apply arith_calm; left; reflexivity); apply arith_calm; right;
      match goal with |- inty ?c _ => change c with i32 end; rewrite !conv_id by (apply i32_inty; lia); apply i32_inty; nia. }
  destruct (arith _ _); cbn; congruence.
Qed.
Lemma tadd_calm t n x y : calm t n -> inty t x -> inty t y -> tadd t x y <> UB.
Proof.
  intros C Hx Hy. apply small_bounds in Hx, Hy. unfold tadd, addassign, opassign. cbv zeta.
  assert (K : arith (common t t) (conv (common t t) x + conv (common t t) y) <> UB).
  { destruct t as [[] []]; cbn [calm] in C; try contradiction; try (apply arith_calm; left; reflexivity); apply arith_calm; right;
      match goal with |- inty ?c _ => change c with i32 end; rewrite !conv_id by (apply i32_inty; lia); apply i32_inty; lia. }
  destruct (arith _ _); cbn; congruence.
Qed.
Lemma taddn_calm t n x a k : calm t n -> inty t x -> inty t a -> 0 <= k <= n -> taddn t x a k <> UB.
Proof.
  intros C Hx Ha Hk. apply small_bounds in Hx, Ha. unfold taddn, addassign, opassign. cbv zeta. rewrite common_again.
  destruct (sgn (common t i32)) eqn:S.
  - assert (Hc : common t i32 = i32) by (destruct t as [[] []]; cbn in *; try contradiction; try discriminate; reflexivity). rewrite Hc.
    assert (B : - 2 ^ 31 <= a * k <= 2 ^ 31 - 1 /\ - 2 ^ 31 <= x + a * k <= 2 ^ 31 - 1 /\ - 2 ^ 31 <= x <= 2 ^ 31 - 1 /\ - 2 ^ 31 <= a <= 2 ^ 31 - 1 /\ - 2 ^ 31 <= k <= 2 ^ 31 - 1).
    { clear Hc. destruct t as [[] []]; cbn [calm] in C; try contradiction; try discriminate; change (2 ^ 31) with 2147483648 in *; nia. }
    destruct B as (B1 & B2 & B3 & B4 & B5).
    rewrite (conv_id i32 a), (conv_id i32 k), (conv_id i32 x) by now apply i32_inty. rewrite (arith_ok i32 (a * k)) by now apply i32_inty. cbn [bind].
    rewrite (conv_id i32 (a * k)) by now apply i32_inty. rewrite arith_ok by now apply i32_inty. discriminate.
  - rewrite !arith_unsigned by assumption. cbn [bind]. rewrite arith_unsigned by assumption. discriminate.
Qed.

(** ** simulation *)
Definition sim {X Y} (U : Prop) (R : X -> Y -> Prop) (m : outcome Y) (e : outcome X) : Prop :=
  match m with
  | Ok y => exists x, e = Ok x /\ R x y
  | UB => e = UB \/ U
  | Err => e = Err
  | Fuel => e = Fuel
  end.
Lemma sim_bind {X Y X' Y'} U (R : X -> Y -> Prop) (R' : X' -> Y' -> Prop) m e f g :
  sim U R m e -> (forall x y, R x y -> sim U R' (f y) (g x)) -> sim U R' (bind m f) (bind e g).
Proof.
  intros H K. destruct m as [y| | |]; cbn [sim bind] in *.
  - destruct H as (x & -> & Hr). now apply K.
  - now rewrite H.
  - destruct H as [-> | H]; [now left|now right].
  - now rewrite H.
Qed.
Lemma sim_op {X' Y' W} (U : Prop) (R' : X' -> Y' -> Prop) (m : outcome W) (v : W) f g :
  (exists z, m = Ok z) \/ m = UB -> (forall z, m = Ok z -> z = v) -> (m = UB -> U) ->
  sim U R' (f v) g -> sim U R' (bind m f) g.
Proof. intros [[z E]|E] V C K; rewrite E; cbn [bind sim]; [now rewrite (V z E)|right; now apply C]. Qed.

Section Sim.
Variables (t : ty) (n : Z).
Definition crel (c d : cell) : Prop :=
  sm d = conv t (sm c) /\ addf d = conv t (addf c) /\ mulf d = conv t (mulf c) /\ hadd d = hadd c /\ hmul d = hmul c /\
  mn d = conv t (mn c) /\ mx d = conv t (mx c).
Notation srel := (Forall2 crel).
Let U := ~ calm t n.

Lemma Forall2_len {A B} (R : A -> B -> Prop) l l' : Forall2 R l l' -> length l = length l'.
Proof. induction 1; cbn; congruence. Qed.
Lemma aget_sim {A B} (R : A -> B -> Prop) s s' i : Forall2 R s s' -> sim U R (aget s' i) (aget s i).
Proof.
  intros H. unfold aget. destruct (i <? 0); [now left|].
  generalize (Z.to_nat i). induction H as [|c d s s' Hc H IH]; intros [|k]; cbn [nth_error]; cbn; eauto.
Qed.
Lemma aset_sim {A B} (R : A -> B -> Prop) s s' i c d : Forall2 R s s' -> R c d -> sim U (Forall2 R) (aset s' i d) (aset s i c).
Proof.
  intros H Hc. unfold aset. rewrite <- (Forall2_len _ _ _ H). destruct (_ || _)%bool; [now left|]. cbn [sim]. eexists. split; [reflexivity|].
  generalize (Z.to_nat i). induction H as [|a b s s' Ha H IH]; intros [|k]; cbn [upd]; constructor; auto.
Qed.

Lemma op_mul {X' Y'} (R' : X' -> Y' -> Prop) x y f g : inty t x -> inty t y ->
  sim U R' (f (conv t (x * y))) g -> sim U R' (bind (tmul t x y) f) g.
Proof.
  intros Hx Hy K. apply (sim_op U R' _ (conv t (x * y))); [apply tmul_two|intros z; apply tmul_val| |exact K].
  intros E C. now apply (tmul_calm t n x y C Hx Hy).
Qed.
Lemma op_add {X' Y'} (R' : X' -> Y' -> Prop) x y f g : inty t x -> inty t y ->
  sim U R' (f (conv t (x + y))) g -> sim U R' (bind (tadd t x y) f) g.
Proof.
  intros Hx Hy K. apply (sim_op U R' _ (conv t (x + y))); [apply tadd_two|intros z; apply tadd_val| |exact K].
  intros E C. now apply (tadd_calm t n x y C Hx Hy).
Qed.
Lemma op_addn {X' Y'} (R' : X' -> Y' -> Prop) x a k f g : inty t x -> inty t a -> 0 <= k <= n ->
  sim U R' (f (conv t (x + a * k))) g -> sim U R' (bind (taddn t x a k) f) g.
Proof.
  intros Hx Ha Hk K. apply (sim_op U R' _ (conv t (x + a * k))); [apply taddn_two|intros z; apply taddn_val| |exact K].
  intros E C. now apply (taddn_calm t n x a k C Hx Ha Hk).
Qed.
Lemma crel_inty c d : crel c d -> inty t (sm d) /\ inty t (addf d) /\ inty t (mulf d) /\ inty t (mn d) /\ inty t (mx d).
Proof. intros (-> & -> & -> & _ & _ & -> & ->). repeat split; auto using conv_inty. Qed.

Lemma push_mul_sim i m s s' : srel s s' -> sim U srel (push_mul_t t i (conv t m) s') (push_mul i m s).
Proof.
  intros H. unfold push_mul_t, push_mul. cbv zeta. eapply sim_bind; [apply (aget_sim crel), H|]. intros c d Hc.
  destruct (crel_inty c d Hc) as (I1 & I2 & I3 & I4 & I5). destruct Hc as (E1 & E2 & E3 & E4 & E5 & I6 & I7).
  rewrite <- E5. destruct (hmul d); cbn [bind hadd hmul mn mx sm addf mulf].
  - destruct (tmul t (mulf d) (conv t m)) as [z| | |] eqn:Q.
    2,4: destruct (tmul_two t (mulf d) (conv t m)) as [[? ?]|?]; congruence.
    2: { right. intros C. now apply (tmul_calm t n _ _ C I3 (conv_inty t m)). }
    apply tmul_val in Q. cbn [bind hadd hmul mn mx sm addf mulf]. rewrite <- E4. destruct (hadd d).
    + cbn [bind]. destruct (tmul t (addf d) (conv t m)) as [w| | |] eqn:Q2.
      2,4: destruct (tmul_two t (addf d) (conv t m)) as [[? ?]|?]; congruence.
      2: { right. intros C. now apply (tmul_calm t n _ _ C I2 (conv_inty t m)). }
      apply tmul_val in Q2. cbn [bind]. apply aset_sim; [exact H|]. unfold crel. cbn [hadd hmul mn mx sm addf mulf].
      rewrite Q, Q2, E2, E3, !conv_mul2. repeat split; assumption.
    + cbn [bind]. apply aset_sim; [exact H|]. unfold crel. cbn [hadd hmul mn mx sm addf mulf]. rewrite Q, E3, conv_mul2. repeat split; assumption.
  - rewrite <- E4. destruct (hadd d).
    + destruct (tmul t (addf d) (conv t m)) as [w| | |] eqn:Q2.
      2,4: destruct (tmul_two t (addf d) (conv t m)) as [[? ?]|?]; congruence.
      2: { right. intros C. now apply (tmul_calm t n _ _ C I2 (conv_inty t m)). }
      apply tmul_val in Q2. cbn [bind]. apply aset_sim; [exact H|]. unfold crel. cbn [hadd hmul mn mx sm addf mulf].
      rewrite Q2, E2, !conv_mul2. repeat split; assumption.
    + cbn [bind]. apply aset_sim; [exact H|]. unfold crel. cbn [hadd hmul mn mx sm addf mulf]. repeat split; assumption.
Qed.
Lemma push_add_sim i a s s' : srel s s' -> sim U srel (push_add_t t i (conv t a) s') (push_add i a s).
Proof.
  intros H. unfold push_add_t, push_add. eapply sim_bind; [apply (aget_sim crel), H|]. intros c d Hc.
  destruct (crel_inty c d Hc) as (I1 & I2 & I3 & I4 & I5). destruct Hc as (E1 & E2 & E3 & E4 & E5 & I6 & I7).
  rewrite <- E4. destruct (hadd d).
  - destruct (tadd t (addf d) (conv t a)) as [z| | |] eqn:Q.
    2,4: destruct (tadd_two t (addf d) (conv t a)) as [[? ?]|?]; congruence.
    2: { right. intros C. now apply (tadd_calm t n _ _ C I2 (conv_inty t a)). }
    apply tadd_val in Q. cbn [bind]. apply aset_sim; [exact H|]. unfold crel. cbn [hadd hmul mn mx sm addf mulf].
    rewrite Q, E2, conv_add2. repeat split; assumption.
  - cbn [bind]. apply aset_sim; [exact H|]. unfold crel. cbn [hadd hmul mn mx sm addf mulf]. repeat split; assumption.
Qed.
Lemma update_sim o l r s s' : srel s s' -> 0 <= r - l + 1 <= n -> sim U srel (update_t t o l r s') (update o l r s).
Proof.
  intros H Hn. unfold update_t, update. cbv zeta. eapply sim_bind; [apply (aget_sim crel), H|]. intros c d Hc.
  apply (sim_bind U srel).
  - destruct (crel_inty c d Hc) as (I1 & I2 & I3 & I4 & I5). destruct Hc as (E1 & E2 & E3 & E4 & E5 & I6 & I7).
    rewrite <- E5. destruct (hmul d); [|cbn [sim]; eauto].
    apply op_mul; [assumption..|]. apply op_mul; [assumption..|]. apply op_mul; [assumption..|].
    apply (sim_bind U srel).
    + apply aset_sim; [exact H|]. unfold crel. cbn [hadd hmul mn mx sm addf mulf]. rewrite E1, E3, I6, I7, !conv_mul2.
      repeat split; assumption.
    + intros s1 s1' H1. rewrite E3. apply (sim_bind U srel); [now apply push_mul_sim|]. intros s2 s2' H2. now apply push_mul_sim.
  - clear c d Hc s s' H. intros s s' H. eapply sim_bind; [apply (aget_sim crel), H|]. intros c d Hc.
    destruct (crel_inty c d Hc) as (I1 & I2 & I3 & I4 & I5). destruct Hc as (E1 & E2 & E3 & E4 & E5 & I6 & I7).
    rewrite <- E4. destruct (hadd d); [|cbn [sim]; eauto].
    apply op_add; [assumption..|]. apply op_add; [assumption..|]. apply op_addn; [assumption..|].
    apply (sim_bind U srel).
    + apply aset_sim; [exact H|]. unfold crel. cbn [hadd hmul mn mx sm addf mulf]. rewrite E1, E2, I6, I7, !conv_add2.
      replace (conv t (conv t (sm c) + conv t (addf c) * (r - l + 1))) with (conv t (sm c + addf c * (r - l + 1))).
      * repeat split; assumption.
      * rewrite conv_add, (Z.add_comm (sm c) (conv t (addf c) * _)). rewrite <- (conv_add t (conv t (addf c) * _)), conv_mul, conv_add. f_equal. lia.
    + intros s1 s1' H1. rewrite E2. apply (sim_bind U srel); [now apply push_add_sim|]. intros s2 s2' H2. now apply push_add_sim.
Qed.

(** the two halves of a range *)
Lemma halves l r : 0 <= r - l + 1 <= n -> 0 <= Z.shiftr (l + r) 1 - l + 1 <= n /\ 0 <= r - (Z.shiftr (l + r) 1 + 1) + 1 <= n.
Proof. intros H. rewrite Z.shiftr_div_pow2 by lia. change (2 ^ 1) with 2. pose proof (Z.div_mod (l + r) 2 ltac:(lia)). pose proof (Z.mod_pos_bound (l + r) 2 ltac:(lia)). lia. Qed.

Definition qrel (k : kind) (lv rv : Z) (x y : Z * tree) : Prop := (k = QSum \/ lv = rv -> fst y = conv t (fst x)) /\ srel (snd x) (snd y).
Lemma query_sim fuel : forall k lv rv l r o s s', srel s s' -> 0 <= r - l + 1 <= n ->
  sim U (qrel k lv rv) (query_t t fuel k lv rv l r o s') (query fuel k lv rv l r o s).
Proof.
  induction fuel as [|f IH]; intros k lv rv l r o s s' H Hn; cbn [query_t query]; [reflexivity|].
  apply (sim_bind U srel); [now apply update_sim|]. clear s s' H. intros s s' H. destruct (halves l r Hn) as [N1 N2].
  destruct ((lv <=? l) && (r <=? rv)).
  - eapply sim_bind; [apply (aget_sim crel), H|]. intros c d Hc. cbn [sim]. eexists. split; [reflexivity|].
    split; [intros _; cbn [fst]; destruct k; cbn [field]; apply Hc|exact H].
  - cbv zeta. destruct (Z.leb_spec rv (Z.shiftr (l + r) 1)); [now apply IH|]. destruct (Z.ltb_spec (Z.shiftr (l + r) 1) lv); [now apply IH|].
    apply (sim_bind U (qrel k lv rv)); [now apply IH|]. intros [a s1] [a' s1'] [Q1 R1]. cbn [fst snd] in *.
    apply (sim_bind U (qrel k lv rv)); [now apply IH|]. intros [b s2] [b' s2'] [Q2 R2]. cbn [fst snd] in *.
    destruct k; cbn [combine_t combine bind sim]; try (eexists; split; [reflexivity|]; split; [intros [D|D]; [discriminate|lia]|exact R2]).
    specialize (Q1 (or_introl eq_refl)). specialize (Q2 (or_introl eq_refl)). subst a' b'. apply op_add; [apply conv_inty..|]. cbn [sim]. eexists. split; [reflexivity|].
    split; [|exact R2]. intros _. cbn [fst]. apply conv_add2.
Qed.
Lemma interval_sim fuel : forall u lv rv l r o s s', call_inty t (CUpdate u lv rv) -> srel s s' -> 0 <= r - l + 1 <= n ->
  sim U srel (interval_t t fuel u lv rv l r o s') (interval fuel u lv rv l r o s).
Proof.
  induction fuel as [|f IH]; intros u lv rv l r o s s' Hu H Hn; cbn [interval_t interval]; [reflexivity|].
  apply (sim_bind U srel); [now apply update_sim|]. clear s s' H. intros s s' H. destruct (halves l r Hn) as [N1 N2].
  destruct ((lv <=? l) && (r <=? rv)).
  - eapply sim_bind; [apply (aget_sim crel), H|]. intros c d (E1 & E2 & E3 & E4 & E5 & I6 & I7). apply aset_sim; [exact H|].
    unfold crel. destruct u; cbn [mark call_inty hadd hmul mn mx sm addf mulf] in *; rewrite (conv_id t x Hu); repeat split; assumption.
  - cbv zeta. apply (sim_bind U srel).
    + destruct (lv <=? _); [now apply IH|]. cbn [sim]. eauto.
    + intros s1 s1' H1. destruct (_ <? rv); [now apply IH|]. cbn [sim]. eauto.
Qed.
(** construction: no value has wrapped around yet *)
Definition irel (c d : cell) : Prop := crel c d /\ mn c = mn d /\ mx c = mx d.
Lemma irel_crel s s' : Forall2 irel s s' -> srel s s'.
Proof. induction 1 as [|c d s s' [H _] _ IH]; constructor; auto. Qed.
Lemma stdmin_inty a b : inty t a -> inty t b -> inty t (stdmin a b).
Proof. unfold stdmin. destruct (b <? a); auto. Qed.
Lemma stdmax_inty a b : inty t a -> inty t b -> inty t (stdmax a b).
Proof. unfold stdmax. destruct (a <? b); auto. Qed.
Lemma aget_in (v : list Z) i x : aget v i = Ok x -> In x v.
Proof. unfold aget. destruct (i <? 0); [discriminate|]. destruct (nth_error v (Z.to_nat i)) eqn:E; [|discriminate]. intros [= <-]. eapply nth_error_In, E. Qed.
Lemma init_sim v : Forall (inty t) v -> forall fuel l r o s s', Forall2 irel s s' -> sim U (Forall2 irel) (init_t t fuel v l r o s') (init fuel v l r o s).
Proof.
  intros Hv. induction fuel as [|f IH]; intros l r o s s' H; cbn [init_t init]; [reflexivity|]. destruct (l =? r).
  - destruct (aget v l) as [x| | |] eqn:Ex; cbn [bind]; try (cbn; auto; fail).
    assert (Hx : inty t x) by (apply aget_in in Ex; now apply (proj1 (Forall_forall _ _) Hv)).
    eapply sim_bind; [apply (aget_sim irel), H|]. intros c d ((E1 & E2 & E3 & E4 & E5 & I6 & I7) & _). apply aset_sim; [exact H|].
    unfold irel, crel. cbn [hadd hmul mn mx sm addf mulf]. rewrite (conv_id t x Hx). repeat split; assumption.
  - cbv zeta. apply (sim_bind U (Forall2 irel)); [now apply IH|]. intros s1 s1' H1. apply (sim_bind U (Forall2 irel)); [now apply IH|]. intros s2 s2' H2.
    eapply sim_bind; [apply (aget_sim irel), H2|]. intros a a' [Ha [Ma Xa]]. eapply sim_bind; [apply (aget_sim irel), H2|]. intros b b' [Hb [Mb Xb]].
    eapply sim_bind; [apply (aget_sim irel), H2|]. intros c c' [Hc _].
    destruct (crel_inty _ _ Ha) as (A1 & _ & _ & A4 & A5). destruct (crel_inty _ _ Hb) as (B1 & _ & _ & B4 & B5).
    apply op_add; [assumption..|]. apply aset_sim; [exact H2|]. destruct Hc as (E1 & E2 & E3 & E4 & E5 & I6 & I7).
    unfold irel, crel. cbn [hadd hmul mn mx sm addf mulf]. destruct Ha as (-> & _), Hb as (-> & _). rewrite conv_add2, Ma, Mb, Xa, Xb.
    rewrite (conv_id t (stdmin (mn a') (mn b'))), (conv_id t (stdmax (mx a') (mx b'))) by auto using stdmin_inty, stdmax_inty. repeat split; assumption.
Qed.
Lemma step_sim c s s' : call_inty t c -> Z.of_nat (length s) = 4 * n -> 0 <= n -> srel s s' -> sim U srel (step_t t c s') (step c s).
Proof.
  intros Hc HL Hn H. assert (L' : Z.of_nat (length s') = 4 * n) by now rewrite <- (Forall2_len _ _ _ H).
  assert (Z4 : forall x, 4 * x / 4 = x) by (intros x; rewrite Z.mul_comm; apply Z.div_mul; lia).
  destruct c as [k lv rv|u lv rv]; cbn [step_t step].
  - apply (sim_bind U (qrel k lv rv)).
    + unfold query0_t, query0, size. rewrite L', HL, Z4, (Forall2_len _ _ _ H). apply query_sim; [exact H|lia].
    + intros [a s1] [a' s1'] [_ R]. cbn [sim]. eauto.
  - unfold interval0_t, interval0, size. rewrite L', HL, Z4, (Forall2_len _ _ _ H). apply interval_sim; [exact Hc|exact H|lia].
Qed.
End Sim.
