(** Lemmas for Matrix. *)
From Coq Require Import Ring Field Ring_theory Field_theory.
From Verif Require Import Base MatModel MatSpec.
Local Open Scope Z_scope.

Section Basic.
Context {A : Type} (o : ops A).
Notation ent := (ent o).

Lemma mget_shape m n c i j : shape m n c -> 0 <= i < n -> 0 <= j < c -> mget m i j = Ok (ent m i j).
Proof.
  intros (Hl & _ & _ & _ & _ & Hn & Hc) Hi Hj. unfold mget. rewrite Hl.
  rewrite (aget_ok _ _ []) by lia. cbn [bind].
  assert (Hr : length (nth (Z.to_nat i) (cells m) []) = Z.to_nat c).
  { rewrite Forall_forall in Hc. apply Hc. apply nth_In. lia. }
  rewrite (aget_ok _ _ (o0 o)) by lia. reflexivity.
Qed.
Lemma Forall_upd {B} (P : B -> Prop) l i x : Forall P l -> P x -> Forall P (upd l i x).
Proof.
  intros H Hx. revert i; induction H; intros [|i]; cbn [upd]; constructor; auto.
Qed.
Lemma mset_shape m n c i j v : shape m n c -> 0 <= i < n -> 0 <= j < c ->
  exists m', mset m i j v = Ok m' /\ shape m' n c /\
    forall p q, 0 <= p -> 0 <= q -> ent m' p q = if (p =? i) && (q =? j) then v else ent m p q.
Proof.
  intros (Hl & Hrow & Hcol & H0 & H1 & Hn & Hc) Hi Hj. unfold mset. rewrite Hl.
  rewrite (aget_ok _ _ []) by lia. cbn [bind].
  set (r := nth (Z.to_nat i) (cells m) []).
  assert (Hr : length r = Z.to_nat c).
  { rewrite Forall_forall in Hc. apply Hc. apply nth_In. lia. }
  rewrite aset_ok by lia. cbn [bind]. rewrite aset_ok by lia. cbn [bind].
  eexists. split; [reflexivity|]. split.
  - unfold shape. cbn [live row col cells]. split; [reflexivity|]. split; [assumption|]. split; [assumption|].
    split; [assumption|]. split; [assumption|]. split; [rewrite upd_length; assumption|].
    apply Forall_upd; [assumption|]. now rewrite upd_length.
  - intros p q Hp Hq. unfold MatSpec.ent. cbn [cells].
    destruct (Z.eqb_spec p i) as [->|Np]; cbn [andb].
    + rewrite nth_upd_eq by lia. destruct (Z.eqb_spec q j) as [->|Nq].
      * rewrite nth_upd_eq by lia. reflexivity.
      * rewrite nth_upd_neq by lia. reflexivity.
    + rewrite nth_upd_neq by lia. reflexivity.
Qed.
Lemma shape_nonneg (m : mat A) n c : shape m n c -> 0 <= n /\ 0 <= c /\ row m = n /\ col m = c.
Proof. intros (_ & H1 & H2 & H3 & H4 & _). auto. Qed.
Lemma mk_shape n c : 0 <= n -> 0 <= c ->
  exists m, mk o n c = Ok m /\ shape m n c /\ forall p q, ent m p q = o0 o.
Proof.
  intros Hn Hc. unfold mk. destruct (Z.ltb_spec n 0); [lia|]. destruct (Z.ltb_spec c 0); [lia|]. cbn [orb].
  eexists. split; [reflexivity|]. split.
  - unfold shape. cbn. rewrite repeat_length. repeat split; try assumption.
    apply Forall_forall. intros r Hr. apply repeat_spec in Hr. subst r. apply repeat_length.
  - intros p q. unfold MatSpec.ent. cbn [cells].
    destruct (Nat.lt_ge_cases (Z.to_nat p) (Z.to_nat n)) as [H1|H1].
    + rewrite (nth_indep _ [] (repeat (o0 o) (Z.to_nat c))) by (now rewrite repeat_length).
      rewrite nth_repeat. apply nth_repeat.
    + rewrite nth_overflow with (n := Z.to_nat p) by (now rewrite repeat_length). destruct (Z.to_nat q); reflexivity.
Qed.
Lemma mat_ext m m' n c : shape m n c -> shape m' n c ->
  (forall i j, 0 <= i < n -> 0 <= j < c -> ent m i j = ent m' i j) -> m = m'.
Proof.
  intros (L1 & R1 & C1 & H0 & H1 & N1 & F1) (L2 & R2 & C2 & _ & _ & N2 & F2) E.
  destruct m as [r1 c1 l1 v1], m' as [r2 c2 l2 v2]. cbn [live row col cells] in *.
  rewrite Forall_forall in F1, F2. assert (l1 = l2); [|congruence].
  apply (nth_ext _ _ [] []); [congruence|]. intros i Hi.
  assert (Hr1 : length (nth i l1 []) = Z.to_nat c) by (apply F1, nth_In; lia).
  assert (Hr2 : length (nth i l2 []) = Z.to_nat c) by (apply F2, nth_In; lia).
  apply (nth_ext _ _ (o0 o) (o0 o)); [congruence|]. intros j Hj.
  specialize (E (Z.of_nat i) (Z.of_nat j) ltac:(lia) ltac:(lia)). unfold MatSpec.ent in E. cbn [cells] in E.
  rewrite !Nat2Z.id in E. exact E.
Qed.

(** a body that sets entry (i,j) to [g i j] of its old value *)
Definition sets (n c : Z) (g : Z -> Z -> A -> A) (i j : Z) (m : mat A) (r : outcome (mat A)) : Prop :=
  exists m', r = Ok m' /\ shape m' n c /\
    forall p q, 0 <= p -> 0 <= q -> ent m' p q = if (p =? i) && (q =? j) then g i j (ent m i j) else ent m p q.
Lemma loop2_sets n c g (body : Z -> Z -> mat A -> outcome (mat A)) m :
  shape m n c ->
  (forall i j m, shape m n c -> 0 <= i < n -> 0 <= j < c -> sets n c g i j m (body i j m)) ->
  exists m', loop2 n c body m = Ok m' /\ shape m' n c /\
    forall p q, 0 <= p < n -> 0 <= q < c -> ent m' p q = g p q (ent m p q).
Proof.
  intros Hm Hb. destruct (shape_nonneg _ _ _ Hm) as (H0 & H1 & _). unfold loop2.
  destruct (for_loop_inv (fun i x => shape x n c /\ forall p q, 0 <= p < n -> 0 <= q < c ->
      ent x p q = if p <? i then g p q (ent m p q) else ent m p q)
    (fun i s => for_loop (Z.to_nat c) 0 (body i) s) (Z.to_nat n) 0 m) as (m' & E & Sm & Hm').
  - split; [assumption|]. intros p q Hp Hq. destruct (Z.ltb_spec p 0); [lia|reflexivity].
  - intros i x Hi (Sx & Hx).
    destruct (for_loop_inv (fun j y => shape y n c /\ forall p q, 0 <= p < n -> 0 <= q < c ->
        ent y p q = if (p <? i) || ((p =? i) && (q <? j)) then g p q (ent m p q) else ent m p q)
      (body i) (Z.to_nat c) 0 x) as (y & Ey & Sy & Hy).
    + split; [assumption|]. intros p q Hp Hq. rewrite Hx by assumption.
      replace (q <? 0) with false by lia. rewrite andb_false_r, orb_false_r. reflexivity.
    + intros j y Hj (Sy & Hy). destruct (Hb i j y Sy ltac:(lia) ltac:(lia)) as (y' & E' & S' & H').
      exists y'. split; [assumption|]. split; [assumption|].
      intros p q Hp Hq. rewrite H' by lia. rewrite (Hy i j) by lia. rewrite (Hy p q) by lia.
      destruct (Z.eqb_spec p i) as [->|Np]; destruct (Z.eqb_spec q j) as [->|Nq]; cbn [andb];
        rewrite ?Z.eqb_refl, ?Z.ltb_irrefl; cbn [orb andb].
      * replace (j <? j + 1) with true by lia. reflexivity.
      * replace (q <? j + 1) with (q <? j) by lia. reflexivity.
      * reflexivity.
      * reflexivity.
    + exists y. split; [assumption|]. split; [assumption|]. intros p q Hp Hq. rewrite Hy by assumption.
      replace (q <? 0 + Z.of_nat (Z.to_nat c)) with true by lia. rewrite andb_true_r.
      replace ((p <? i) || (p =? i)) with (p <? i + 1) by lia. reflexivity.
  - exists m'. split; [assumption|]. split; [assumption|]. intros p q Hp Hq. rewrite Hm' by assumption.
    destruct (Z.ltb_spec p (0 + Z.of_nat (Z.to_nat n))); [reflexivity|lia].
Qed.

Lemma deepCopy_id m n c : shape m n c -> deepCopy o m = Ok m.
Proof.
  intros Hm. destruct (shape_nonneg _ _ _ Hm) as (H0 & H1 & R & C). unfold deepCopy. rewrite R, C.
  destruct (mk_shape n c H0 H1) as (a & E & Sa & Ha). rewrite E. cbn [bind].
  destruct (loop2_sets n c (fun i j _ => ent m i j)
              (fun i j a => x <- mget m i j ;; mset a i j x) a Sa) as (m' & E' & S' & H').
  - intros i j x Sx Hi Hj. rewrite (mget_shape m n c) by assumption. cbn [bind].
    destruct (mset_shape x n c i j (ent m i j) Sx Hi Hj) as (x' & Ex & Sx' & Hx'). exists x'. auto.
  - rewrite E'. f_equal. apply (mat_ext _ _ n c S' Hm). intros i j Hi Hj. now apply H'.
Qed.
Lemma zip_op_spec f a b n c : shape a n c -> shape b n c ->
  exists r, zip_op o f a b = Ok r /\ shape r n c /\
    forall i j, 0 <= i < n -> 0 <= j < c -> ent r i j = f (ent a i j) (ent b i j).
Proof.
  intros Ha Hb. destruct (shape_nonneg _ _ _ Ha) as (H0 & H1 & Ra & Ca). destruct (shape_nonneg _ _ _ Hb) as (_ & _ & Rb & Cb).
  unfold zip_op. rewrite Ra, Ca, Rb, Cb, !Z.eqb_refl. cbn [andb negb].
  destruct (mk_shape n c H0 H1) as (z & E & Sz & Hz). rewrite E. cbn [bind].
  apply (loop2_sets n c (fun i j _ => f (ent a i j) (ent b i j))); [assumption|].
  intros i j x Sx Hi Hj. rewrite (mget_shape a n c), (mget_shape b n c) by assumption. cbn [bind].
  destruct (mset_shape x n c i j (f (ent a i j) (ent b i j)) Sx Hi Hj) as (x' & Ex & Sx' & Hx'). exists x'. auto.
Qed.
Lemma zip_assign_spec f a b n c : shape a n c -> shape b n c ->
  exists r, zip_assign f a b = Ok r /\ shape r n c /\
    forall i j, 0 <= i < n -> 0 <= j < c -> ent r i j = f (ent a i j) (ent b i j).
Proof.
  intros Ha Hb. destruct (shape_nonneg _ _ _ Ha) as (H0 & H1 & Ra & Ca). destruct (shape_nonneg _ _ _ Hb) as (_ & _ & Rb & Cb).
  unfold zip_assign. rewrite Ra, Ca, Rb, Cb, !Z.eqb_refl. cbn [andb negb].
  apply (loop2_sets n c (fun i j z => f z (ent b i j))); [assumption|].
  intros i j x Sx Hi Hj. rewrite (mget_shape x n c), (mget_shape b n c) by assumption. cbn [bind].
  destruct (mset_shape x n c i j (f (ent x i j) (ent b i j)) Sx Hi Hj) as (x' & Ex & Sx' & Hx'). exists x'. auto.
Qed.
Lemma zip_op_err f (a b : mat A) : row a <> row b \/ col a <> col b -> zip_op o f a b = Err /\ zip_assign f a b = Err.
Proof.
  intros H. unfold zip_op, zip_assign. replace (negb _) with true; [auto|].
  destruct (Z.eqb_spec (row a) (row b)), (Z.eqb_spec (col a) (col b)); try reflexivity. tauto.
Qed.

(** product: an entry accumulates from left to right *)
Fixpoint acc (z : A) (n : nat) (f : Z -> A) : A :=
  match n with O => z | S k => oadd o (acc z k f) (f (Z.of_nat k)) end.
Lemma mul_into_spec a b n k c ret : shape a n k -> shape b k c -> shape ret n c ->
  exists r, mul_into o a b ret = Ok r /\ shape r n c /\
    forall i j, 0 <= i < n -> 0 <= j < c ->
      ent r i j = acc (ent ret i j) (Z.to_nat k) (fun t => omul o (ent a i t) (ent b t j)).
Proof.
  intros Ha Hb Hr. destruct (shape_nonneg _ _ _ Ha) as (H0 & H1 & Ra & Ca).
  destruct (shape_nonneg _ _ _ Hb) as (_ & H2 & Rb & Cb). destruct (shape_nonneg _ _ _ Hr) as (_ & _ & Rr & Cr).
  unfold mul_into. rewrite Rr, Cr, Ca.
  apply (loop2_sets n c (fun i j z => acc z (Z.to_nat k) (fun t => omul o (ent a i t) (ent b t j)))); [assumption|].
  intros i j x Sx Hi Hj.
  destruct (for_loop_inv (fun t y => shape y n c /\ forall p q, 0 <= p -> 0 <= q ->
      ent y p q = if (p =? i) && (q =? j) then acc (ent x i j) (Z.to_nat t) (fun t => omul o (ent a i t) (ent b t j)) else ent x p q)
    (fun k r => x <- mget a i k ;; y <- mget b k j ;; z <- mget r i j ;; mset r i j (oadd o z (omul o x y)))
    (Z.to_nat k) 0 x) as (y & E & Sy & Hy).
  - split; [assumption|]. intros p q Hp Hq. cbn [Z.to_nat acc].
    destruct (Z.eqb_spec p i) as [->|]; destruct (Z.eqb_spec q j) as [->|]; reflexivity.
  - intros t y Ht (Sy & Hy). rewrite (mget_shape a n k), (mget_shape b k c), (mget_shape y n c) by (assumption || lia).
    cbn [bind]. destruct (mset_shape y n c i j (oadd o (ent y i j) (omul o (ent a i t) (ent b t j))) Sy Hi Hj) as (y' & E & S' & H').
    exists y'. split; [assumption|]. split; [assumption|]. intros p q Hp Hq. rewrite H' by assumption.
    rewrite (Hy i j) by lia. rewrite !Z.eqb_refl. cbn [andb].
    destruct ((p =? i) && (q =? j)) eqn:Epq.
    + replace (Z.to_nat (t + 1)) with (S (Z.to_nat t)) by lia. cbn [acc]. rewrite Z2Nat.id by lia. reflexivity.
    + rewrite Hy by assumption. rewrite Epq. reflexivity.
  - exists y. split; [assumption|]. split; [assumption|]. intros p q Hp Hq. rewrite Hy by assumption.
    rewrite Z.add_0_l, Nat2Z.id. reflexivity.
Qed.
Lemma acc_sumn n f : acc (o0 o) n f = sumn o n f.
Proof. induction n; cbn [acc sumn]; congruence. Qed.
Lemma mul_spec a b n k c : shape a n k -> shape b k c ->
  exists r, mul o a b = Ok r /\ shape r n c /\
    forall i j, 0 <= i < n -> 0 <= j < c ->
      ent r i j = sumn o (Z.to_nat k) (fun t => omul o (ent a i t) (ent b t j)).
Proof.
  intros Ha Hb. destruct (shape_nonneg _ _ _ Ha) as (H0 & H1 & Ra & Ca). destruct (shape_nonneg _ _ _ Hb) as (_ & H2 & Rb & Cb).
  unfold mul. rewrite Ca, Rb, Z.eqb_refl. cbn [negb]. rewrite Ra, Cb.
  destruct (mk_shape n c H0 H2) as (z & E & Sz & Hz). rewrite E. cbn [bind].
  destruct (mul_into_spec a b n k c z Ha Hb Sz) as (r & Er & Sr & Hr). rewrite Er. cbn [bind].
  rewrite (deepCopy_id r n c Sr). exists r. split; [reflexivity|]. split; [assumption|].
  intros i j Hi Hj. rewrite Hr by assumption. rewrite Hz. apply acc_sumn.
Qed.
Lemma mul_err (a b : mat A) : col a <> row b -> mul o a b = Err /\ mul_assign o a b = Err.
Proof. intros H. unfold mul, mul_assign. destruct (Z.eqb_spec (col a) (row b)); [congruence|]. auto. Qed.
Lemma mul_assign_ub a b n k c : shape a n k -> shape b k c -> mul_assign o a b = UB.
Proof.
  intros Ha Hb. destruct (shape_nonneg _ _ _ Ha) as (H0 & H1 & Ra & Ca). destruct (shape_nonneg _ _ _ Hb) as (_ & H2 & Rb & Cb).
  unfold mul_assign. rewrite Ca, Rb, Z.eqb_refl. cbn [negb]. rewrite Ra, Cb.
  destruct (mk_shape n c H0 H2) as (z & E & Sz & Hz). rewrite E. cbn [bind].
  destruct (mul_into_spec a b n k c z Ha Hb Sz) as (r & Er & Sr & Hr). rewrite Er. cbn [bind].
  unfold clear at 1. destruct Ha as (L & _). rewrite L. reflexivity.
Qed.

(** pow *)
Lemma pow_two_power a n c k fuel : shape a n c -> (k < fuel)%nat -> pow o fuel a (2 ^ Z.of_nat k) = Ok a.
Proof.
  intros Ha. revert fuel; induction k as [|k IH]; intros [|fuel] Hf; try lia.
  - cbn [pow]. change (2 ^ Z.of_nat 0 =? 1) with true. cbv iota. apply (deepCopy_id a n c Ha).
  - cbn [pow]. rewrite Nat2Z.inj_succ, Z.pow_succ_r by lia.
    assert (0 < 2 ^ Z.of_nat k) by (apply Z.pow_pos_nonneg; lia).
    destruct (Z.eqb_spec (2 * 2 ^ Z.of_nat k) 1); [lia|].
    rewrite Z.shiftr_div_pow2 by lia. change (2 ^ 1) with 2.
    rewrite (Z.mul_comm 2), Z.div_mul by lia. rewrite IH by lia. cbn [bind].
    rewrite Z.odd_mul. change (Z.odd 2) with false. rewrite andb_false_r. reflexivity.
Qed.
Lemma pow_zero a fuel : pow o fuel a 0 = Fuel.
Proof. induction fuel as [|f IH]; [reflexivity|]. cbn [pow]. change (0 =? 1) with false. change (Z.shiftr 0 1) with 0. cbv iota. rewrite IH. reflexivity. Qed.
(** every other exponent *)
Lemma pow_other a n fuel : forall m, shape a n n -> 0 < m -> (forall k, 0 <= k -> m <> 2 ^ k) ->
  m < 2 ^ Z.of_nat fuel -> pow o fuel a m = UB.
Proof.
  induction fuel as [|f IH]; intros m Ha Hm Hk Hf; [cbn in Hf; lia|].
  cbn [pow]. destruct (Z.eqb_spec m 1) as [->|Hm1]; [exfalso; apply (Hk 0); lia|].
  rewrite Z.shiftr_div_pow2 by lia. change (2 ^ 1) with 2.
  assert (Hd : 0 < m / 2 /\ m / 2 < 2 ^ Z.of_nat f).
  { split; [apply Z.div_str_pos; lia|]. apply Z.div_lt_upper_bound; [lia|].
    rewrite Nat2Z.inj_succ, Z.pow_succ_r in Hf by lia. lia. }
  assert (Hdec : (exists k, 0 <= k /\ m / 2 = 2 ^ k) \/ (forall k, 0 <= k -> m / 2 <> 2 ^ k)).
  { destruct (Z.eq_dec (m / 2) (2 ^ Z.log2 (m / 2))) as [E|N].
    - left. exists (Z.log2 (m / 2)). split; [apply Z.log2_nonneg|assumption].
    - right. intros k Hk0 E. apply N. rewrite E. rewrite Z.log2_pow2 by assumption. reflexivity. }
  destruct Hdec as [(k & Hk0 & Ek)|Hno].
  - assert (Hodd : Z.odd m = true).
    { destruct (Z.odd m) eqn:Eo; [reflexivity|]. exfalso. apply (Hk (Z.succ k)); [lia|].
      rewrite Z.pow_succ_r by assumption. rewrite <- Ek.
      assert (Hmod : m mod 2 = 0) by (rewrite Zmod_odd, Eo; reflexivity).
      pose proof (Z_div_mod_eq_full m 2). lia. }
    rewrite Ek. replace k with (Z.of_nat (Z.to_nat k)) by lia.
    rewrite (pow_two_power a n n) by (try assumption; apply (Nat2Z.inj_lt); rewrite Z2Nat.id by lia;
      apply (Z.pow_lt_mono_r_iff 2); lia).
    cbn [bind]. rewrite Hodd. apply (mul_assign_ub a a n n n Ha Ha).
  - rewrite IH; try assumption; try lia. reflexivity.
Qed.

(** comparison *)
Hypothesis Heq : forall x y, oeqb o x y = true <-> x = y.
Lemma eqm_spec a b n c n' c' : shape a n c -> shape b n' c' ->
  exists r, eqm o a b = Ok r /\ (r = true <-> a = b).
Proof.
  intros Ha Hb. destruct (shape_nonneg _ _ _ Ha) as (H0 & H1 & Ra & Ca). destruct (shape_nonneg _ _ _ Hb) as (H2 & H3 & Rb & Cb).
  unfold eqm. rewrite Ra, Ca, Rb, Cb.
  destruct (Z.eqb_spec n n') as [<-|Nn]; cbn [negb orb].
  2:{ exists false. split; [reflexivity|]. split; [discriminate|]. intros <-. congruence. }
  destruct (Z.eqb_spec c c') as [<-|Nc]; cbn [negb orb].
  2:{ exists false. split; [reflexivity|]. split; [discriminate|]. intros <-. congruence. }
  set (body := fun i j acc => if acc : bool then x <- mget a i j ;; y <- mget b i j ;; Ok (oeqb o x y) else Ok false).
  unfold loop2.
  destruct (for_loop_inv (fun i (r : bool) => r = true <-> forall p q, 0 <= p < i -> 0 <= q < c -> ent a p q = ent b p q)
    (fun i s => for_loop (Z.to_nat c) 0 (body i) s) (Z.to_nat n) 0 true) as (r & E & Hr).
  - split; [intros _ p q Hp; lia|reflexivity].
  - intros i x Hi Hx.
    destruct (for_loop_inv (fun j (r : bool) => r = true <->
        (forall p q, 0 <= p < i -> 0 <= q < c -> ent a p q = ent b p q) /\ forall q, 0 <= q < j -> ent a i q = ent b i q)
      (body i) (Z.to_nat c) 0 x) as (y & Ey & Hy).
    + rewrite Hx. split; [intros H; split; [assumption|intros q Hq; lia]|tauto].
    + intros j y Hj Hy. unfold body. destruct y.
      * rewrite (mget_shape a n c), (mget_shape b n c) by (assumption || lia). cbn [bind].
        eexists. split; [reflexivity|]. rewrite Heq. destruct Hy as [Hy _]. specialize (Hy eq_refl). destruct Hy as [Hy1 Hy2].
        split.
        -- intros E. split; [assumption|]. intros q Hq. destruct (Z.eq_dec q j) as [->|]; [assumption|]. apply Hy2. lia.
        -- intros [_ H]. apply H. lia.
      * exists false. split; [reflexivity|]. split; [discriminate|]. intros [K1 K2]. apply Hy. split; [assumption|].
        intros q Hq. apply K2. lia.
    + exists y. split; [exact Ey|]. rewrite Hy. split.
      * intros [K1 K2] p q Hp Hq. destruct (Z.eq_dec p i) as [->|]; [apply K2|apply K1]; lia.
      * intros K. split; [intros p q Hp Hq; apply K; lia|intros q Hq; apply K; lia].
  - exists r. split; [exact E|]. rewrite Hr. split.
    + intros K. apply (mat_ext a b n c Ha Hb). intros i j Hi Hj. apply K; lia.
    + intros <-. reflexivity.
Qed.
End Basic.

(** ** Ring algebra *)
Section Ring.
Context {A : Type} (o : ops A) (opp : A -> A) (Rth : ring_theory (o0 o) (o1 o) (oadd o) (omul o) (osub o) opp eq).
Notation ent := (ent o).
Notation "0r" := (o0 o). Notation "1r" := (o1 o).
Infix "+r" := (oadd o) (at level 50, left associativity).
Infix "*r" := (omul o) (at level 40, left associativity).
Infix "-r" := (osub o) (at level 50, left associativity).
Add Ring MatRing : Rth.

Lemma sumn_ext n f g : (forall k, 0 <= k < Z.of_nat n -> f k = g k) -> sumn o n f = sumn o n g.
Proof.
  induction n as [|n IH]; intros H; cbn [sumn]; [reflexivity|].
  rewrite IH by (intros; apply H; lia). rewrite H by lia. reflexivity.
Qed.
Lemma sumn_add n f g : sumn o n (fun k => f k +r g k) = sumn o n f +r sumn o n g.
Proof. induction n as [|n IH]; cbn [sumn]; [ring|]. rewrite IH. ring. Qed.
Lemma sumn_sub n f g : sumn o n (fun k => f k -r g k) = sumn o n f -r sumn o n g.
Proof. induction n as [|n IH]; cbn [sumn]; [ring|]. rewrite IH. ring. Qed.
Lemma sumn_mul_l n x f : sumn o n (fun k => x *r f k) = x *r sumn o n f.
Proof. induction n as [|n IH]; cbn [sumn]; [ring|]. rewrite IH. ring. Qed.
Lemma sumn_mul_r n x f : sumn o n (fun k => f k *r x) = sumn o n f *r x.
Proof. induction n as [|n IH]; cbn [sumn]; [ring|]. rewrite IH. ring. Qed.
Lemma sumn_zero n : sumn o n (fun _ => 0r) = 0r.
Proof. induction n as [|n IH]; cbn [sumn]; [reflexivity|]. rewrite IH. ring. Qed.
Lemma sumn_swap n m (f : Z -> Z -> A) :
  sumn o n (fun i => sumn o m (fun j => f i j)) = sumn o m (fun j => sumn o n (fun i => f i j)).
Proof.
  induction n as [|n IH]; cbn [sumn].
  - symmetry. apply sumn_zero.
  - rewrite IH. symmetry. apply (sumn_add m (fun j => sumn o n (fun i => f i j)) (fun j => f (Z.of_nat n) j)).
Qed.
Lemma sumn_delta n i f : 0 <= i < Z.of_nat n ->
  sumn o n (fun k => (if k =? i then 1r else 0r) *r f k) = f i.
Proof.
  induction n as [|n IH]; intros Hi; [lia|]. cbn [sumn].
  destruct (Z.eqb_spec (Z.of_nat n) i) as [E|N].
  - rewrite (sumn_ext n _ (fun _ => 0r)).
    + rewrite sumn_zero, E. ring.
    + intros k Hk. destruct (Z.eqb_spec k i); [lia|]. ring.
  - rewrite IH by lia. ring.
Qed.

Lemma idMat_spec n : 0 <= n -> exists m, idMat o n = Ok m /\ shape m n n /\
  forall i j, 0 <= i < n -> 0 <= j < n -> ent m i j = if i =? j then 1r else 0r.
Proof.
  intros Hn. unfold idMat. destruct (mk_shape o n n Hn Hn) as (z & E & Sz & Hz). rewrite E. cbn [bind].
  destruct (for_loop_inv (fun k m => shape m n n /\ forall i j, 0 <= i -> 0 <= j ->
      ent m i j = if (i =? j) && (i <? k) then 1r else 0r)
    (fun i m => mset m i i (o1 o)) (Z.to_nat n) 0 z) as (m & Em & Sm & Hm).
  - split; [assumption|]. intros i j Hi Hj. rewrite Hz. replace (i <? 0) with false by lia. now rewrite andb_false_r.
  - intros k m Hk (Sm & Hm). destruct (mset_shape o m n n k k 1r Sm ltac:(lia) ltac:(lia)) as (m' & E' & S' & H').
    exists m'. split; [assumption|]. split; [assumption|]. intros i j Hi Hj. rewrite H' by assumption. rewrite Hm by assumption.
    destruct (Z.eqb_spec i j) as [->|N]; cbn [andb].
    + destruct (Z.eqb_spec j k) as [->|]; cbn [andb].
      * replace (k <? k + 1) with true by lia. reflexivity.
      * replace (j <? k + 1) with (j <? k) by lia. reflexivity.
    + destruct (Z.eqb_spec i k), (Z.eqb_spec j k); cbn [andb]; try reflexivity. lia.
  - exists m. split; [assumption|]. split; [assumption|]. intros i j Hi Hj. rewrite Hm by lia.
    replace (i <? 0 + Z.of_nat (Z.to_nat n)) with true by lia. now rewrite andb_true_r.
Qed.

(** laws *)
Ltac same_shape := eapply mat_ext; [eassumption|eassumption|].
Lemma add_comm a b n c : shape a n c -> shape b n c -> add o a b = add o b a.
Proof.
  intros Ha Hb. destruct (zip_op_spec o (oadd o) a b n c Ha Hb) as (r & E & S & H).
  destruct (zip_op_spec o (oadd o) b a n c Hb Ha) as (r' & E' & S' & H').
  unfold add. rewrite E, E'. f_equal. apply (mat_ext o r r' n c S S'). intros i j Hi Hj.
  rewrite H, H' by assumption. ring.
Qed.
Lemma add_assoc a b d n c : shape a n c -> shape b n c -> shape d n c ->
  exists r, (x <- add o a b ;; add o x d) = Ok r /\ (x <- add o b d ;; add o a x) = Ok r /\ shape r n c.
Proof.
  intros Ha Hb Hd. destruct (zip_op_spec o (oadd o) a b n c Ha Hb) as (u & Eu & Su & Hu).
  destruct (zip_op_spec o (oadd o) b d n c Hb Hd) as (v & Ev & Sv & Hv).
  destruct (zip_op_spec o (oadd o) u d n c Su Hd) as (r & Er & Sr & Hr).
  destruct (zip_op_spec o (oadd o) a v n c Ha Sv) as (r' & Er' & Sr' & Hr').
  exists r. unfold add. rewrite Eu, Ev. cbn [bind]. split; [assumption|]. split; [|assumption].
  rewrite Er'. f_equal. apply (mat_ext o r' r n c Sr' Sr). intros i j Hi Hj.
  rewrite Hr, Hr', Hu, Hv by assumption. ring.
Qed.
Lemma sub_add a b n c : shape a n c -> shape b n c ->
  exists x, sub o a b = Ok x /\ add o x b = Ok a.
Proof.
  intros Ha Hb. destruct (zip_op_spec o (osub o) a b n c Ha Hb) as (u & Eu & Su & Hu).
  destruct (zip_op_spec o (oadd o) u b n c Su Hb) as (r & Er & Sr & Hr).
  exists u. split; [assumption|]. unfold add. rewrite Er. f_equal. apply (mat_ext o r a n c Sr Ha). intros i j Hi Hj.
  rewrite Hr, Hu by assumption. ring.
Qed.
Lemma mul_assoc a b d n k l c : shape a n k -> shape b k l -> shape d l c ->
  exists r, (x <- mul o a b ;; mul o x d) = Ok r /\ (x <- mul o b d ;; mul o a x) = Ok r /\ shape r n c.
Proof.
  intros Ha Hb Hd. destruct (mul_spec o a b n k l Ha Hb) as (u & Eu & Su & Hu).
  destruct (mul_spec o b d k l c Hb Hd) as (v & Ev & Sv & Hv).
  destruct (mul_spec o u d n l c Su Hd) as (r & Er & Sr & Hr).
  destruct (mul_spec o a v n k c Ha Sv) as (r' & Er' & Sr' & Hr').
  exists r. rewrite Eu, Ev. cbn [bind]. split; [assumption|]. split; [|assumption].
  rewrite Er'. f_equal. apply (mat_ext o r' r n c Sr' Sr). intros i j Hi Hj.
  rewrite Hr, Hr' by assumption.
  rewrite (sumn_ext (Z.to_nat l) _ (fun t => sumn o (Z.to_nat k) (fun s => ent a i s *r (ent b s t *r ent d t j)))).
  2:{ intros t Ht. rewrite Hu by lia. rewrite <- sumn_mul_r. apply sumn_ext. intros s Hs. ring. }
  rewrite sumn_swap. apply sumn_ext. intros s Hs. rewrite Hv by lia. rewrite <- sumn_mul_l. reflexivity.
Qed.
Lemma mul_distr_l a b d n k c : shape a n k -> shape b k c -> shape d k c ->
  exists r, (x <- add o b d ;; mul o a x) = Ok r /\ (x <- mul o a b ;; y <- mul o a d ;; add o x y) = Ok r.
Proof.
  intros Ha Hb Hd. destruct (zip_op_spec o (oadd o) b d k c Hb Hd) as (u & Eu & Su & Hu).
  destruct (mul_spec o a u n k c Ha Su) as (r & Er & Sr & Hr).
  destruct (mul_spec o a b n k c Ha Hb) as (v & Ev & Sv & Hv). destruct (mul_spec o a d n k c Ha Hd) as (w & Ew & Sw & Hw).
  destruct (zip_op_spec o (oadd o) v w n c Sv Sw) as (r' & Er' & Sr' & Hr').
  exists r. unfold add. rewrite Eu, Ev, Ew. cbn [bind]. split; [assumption|]. rewrite Er'. f_equal.
  apply (mat_ext o r' r n c Sr' Sr). intros i j Hi Hj. rewrite Hr', Hr, Hv, Hw by assumption.
  rewrite <- sumn_add. apply sumn_ext. intros t Ht. rewrite Hu by lia. ring.
Qed.
Lemma mul_distr_r a b d n k c : shape a k c -> shape b n k -> shape d n k ->
  exists r, (x <- add o b d ;; mul o x a) = Ok r /\ (x <- mul o b a ;; y <- mul o d a ;; add o x y) = Ok r.
Proof.
  intros Ha Hb Hd. destruct (zip_op_spec o (oadd o) b d n k Hb Hd) as (u & Eu & Su & Hu).
  destruct (mul_spec o u a n k c Su Ha) as (r & Er & Sr & Hr).
  destruct (mul_spec o b a n k c Hb Ha) as (v & Ev & Sv & Hv). destruct (mul_spec o d a n k c Hd Ha) as (w & Ew & Sw & Hw).
  destruct (zip_op_spec o (oadd o) v w n c Sv Sw) as (r' & Er' & Sr' & Hr').
  exists r. unfold add. rewrite Eu, Ev, Ew. cbn [bind]. split; [assumption|]. rewrite Er'. f_equal.
  apply (mat_ext o r' r n c Sr' Sr). intros i j Hi Hj. rewrite Hr', Hr, Hv, Hw by assumption.
  rewrite <- sumn_add. apply sumn_ext. intros t Ht. rewrite Hu by lia. ring.
Qed.
Lemma mul_id a n c : shape a n c ->
  (x <- idMat o n ;; mul o x a) = Ok a /\ (x <- idMat o c ;; mul o a x) = Ok a.
Proof.
  intros Ha. destruct (shape_nonneg _ _ _ Ha) as (H0 & H1 & _ & _).
  destruct (idMat_spec n H0) as (u & Eu & Su & Hu). destruct (idMat_spec c H1) as (v & Ev & Sv & Hv).
  destruct (mul_spec o u a n n c Su Ha) as (r & Er & Sr & Hr). destruct (mul_spec o a v n c c Ha Sv) as (r' & Er' & Sr' & Hr').
  rewrite Eu, Ev. cbn [bind]. rewrite Er, Er'. split; f_equal.
  - apply (mat_ext o r a n c Sr Ha). intros i j Hi Hj. rewrite Hr by assumption.
    rewrite (sumn_ext _ _ (fun k => (if k =? i then 1r else 0r) *r ent a k j)).
    + apply (sumn_delta (Z.to_nat n) i (fun k => ent a k j)). lia.
    + intros k Hk. rewrite Hu by lia. rewrite (Z.eqb_sym i k). reflexivity.
  - apply (mat_ext o r' a n c Sr' Ha). intros i j Hi Hj. rewrite Hr' by assumption.
    rewrite (sumn_ext _ _ (fun k => (if k =? j then 1r else 0r) *r ent a i k)).
    + apply (sumn_delta (Z.to_nat c) j (fun k => ent a i k)). lia.
    + intros k Hk. rewrite Hv by lia. destruct (k =? j); ring.
Qed.
End Ring.

(** construction from nested vectors *)
Section OfLists.
Context {A : Type} (o : ops A).
Lemma of_lists_spec f ini c : ini <> [] -> Forall (fun r => (Z.to_nat c <= length r)%nat) ini ->
  Z.of_nat (length (hd [] ini)) = c ->
  exists m, of_lists o f ini = Ok m /\ shape m (Z.of_nat (length ini)) c /\
    forall i j, 0 <= i < Z.of_nat (length ini) -> 0 <= j < c ->
      MatSpec.ent o m i j = f (nth (Z.to_nat j) (nth (Z.to_nat i) ini []) 0).
Proof.
  intros Hne Hf Hc. destruct ini as [|r0 ini]; [congruence|]. cbn [hd] in Hc. unfold of_lists.
  change (aget (r0 :: ini) 0) with (Ok r0). cbn [bind]. rewrite Hc. set (l := r0 :: ini) in *.
  destruct (mk_shape o (Z.of_nat (length l)) c ltac:(lia) ltac:(lia)) as (z & E & Sz & Hz). rewrite E. cbn [bind].
  destruct (loop2_sets o (Z.of_nat (length l)) c (fun i j _ => f (nth (Z.to_nat j) (nth (Z.to_nat i) l []) 0))
     (fun i j a => r <- aget l i ;; x <- aget r j ;; mset a i j (f x)) z Sz) as (m & Em & Sm & Hm).
  - intros i j x Sx Hi Hj. rewrite (aget_ok _ _ []) by lia. cbn [bind].
    rewrite Forall_forall in Hf. specialize (Hf (nth (Z.to_nat i) l []) ltac:(apply nth_In; lia)).
    rewrite (aget_ok _ _ 0) by lia. cbn [bind].
    destruct (mset_shape o x _ _ i j (f (nth (Z.to_nat j) (nth (Z.to_nat i) l []) 0)) Sx Hi Hj) as (x' & Ex & Sx' & Hx').
    exists x'. auto.
  - exists m. auto.
Qed.
Lemma of_lists_nil f : of_lists o f [] = UB.
Proof. reflexivity. Qed.
End OfLists.
