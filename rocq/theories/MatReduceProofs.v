(** Gaussian elimination: Matrix::reduce. *)
From Coq Require Import Ring Ring_theory Field_theory.
From Verif Require Import Base MatModel MatSpec MatProofs.
Local Open Scope Z_scope.

Section Field.
Context {A : Type} (o : ops A) (opp inv : A -> A).
Hypothesis Fth : field_theory (o0 o) (o1 o) (oadd o) (omul o) (osub o) opp (odiv o) inv eq.
Hypothesis Heq : eq_test o.
Definition Rth : ring_theory (o0 o) (o1 o) (oadd o) (omul o) (osub o) opp eq := F_R Fth.
Notation ent := (ent o).
Notation "0r" := (o0 o). Notation "1r" := (o1 o).
Infix "+r" := (oadd o) (at level 50, left associativity).
Infix "*r" := (omul o) (at level 40, left associativity).
Infix "-r" := (osub o) (at level 50, left associativity).
Add Ring MatFRing : Rth.

Lemma one_neq_zero : 1r <> 0r.
Proof. exact (F_1_neq_0 Fth). Qed.
Lemma div_mul x y : odiv o x y = x *r inv y.
Proof. apply (Fdiv_def Fth). Qed.
Lemma inv_l x : x <> 0r -> inv x *r x = 1r.
Proof. apply (Finv_l Fth). Qed.
Lemma mul_inv_zero s p : p <> 0r -> (s *r inv p = 0r <-> s = 0r).
Proof.
  intros Hp. split; intros H.
  - replace s with (s *r inv p *r p).
    + rewrite H. ring.
    + transitivity (s *r (inv p *r p)); [ring|]. rewrite inv_l by assumption. ring.
  - rewrite H. ring.
Qed.
Lemma oeqb_false x y : oeqb o x y = false <-> x <> y.
Proof.
  destruct (oeqb o x y) eqn:E.
  - apply Heq in E. split; [discriminate|congruence].
  - split; [|reflexivity]. intros _ H. apply Heq in H. congruence.
Qed.

Section Shape.
Context (n c : Z).

(** value of row i against x *)
Definition rowval (m : mat A) (x : Z -> A) (i : Z) : A :=
  sumn o (Z.to_nat c) (fun j => ent m i j *r x j).
Lemma solves_rowval m x : shape m n c -> (solves o m x <-> forall i, 0 <= i < n -> rowval m x i = 0r).
Proof. intros (_ & R & C & _). unfold solves, rowval. rewrite R, C. reflexivity. Qed.

(** find_row *)
Lemma find_row_spec m i r : shape m n c -> 0 <= i -> 0 <= r < c ->
  exists j, find_row o m i r = Ok j /\
    ((j = -1 /\ forall p, i <= p < n -> ent m p r = 0r) \/ (i <= j < n /\ ent m j r <> 0r)).
Proof.
  intros Hm Hi Hr. destruct (shape_nonneg _ _ _ Hm) as (H0 & H1 & R & C). unfold find_row. rewrite R.
  destruct (for_loop_inv (fun k f => (f = -1 /\ forall p, i <= p < k -> ent m p r = 0r) \/ (i <= f < n /\ ent m f r <> 0r))
    (fun j found => if found <? 0 then x <- mget m j r ;; Ok (if oeqb o x (o0 o) then -1 else j) else Ok found)
    (Z.to_nat (n - i)) i (-1)) as (j & E & Hj).
  - left. split; [reflexivity|]. intros p Hp. lia.
  - intros k f Hk Hf. destruct Hf as [(-> & Hz)|(Hf & Hnz)].
    + change (-1 <? 0) with true. cbv iota. rewrite (mget_shape o m n c) by (assumption || lia). cbn [bind].
      eexists. split; [reflexivity|]. destruct (oeqb o (ent m k r) 0r) eqn:Ez.
      * left. split; [reflexivity|]. intros p Hp. apply Heq in Ez. destruct (Z.eq_dec p k) as [->|]; [assumption|]. apply Hz. lia.
      * right. split; [lia|]. now apply oeqb_false.
    + destruct (Z.ltb_spec f 0); [lia|]. exists f. split; [reflexivity|]. right. auto.
  - exists j. split; [assumption|]. destruct Hj as [(-> & Hz)|Hj]; [left|right; assumption].
    split; [reflexivity|]. intros p Hp. apply Hz. lia.
Qed.

(** the transposition of p and q *)
Definition tau (p q x : Z) : Z := if x =? p then q else if x =? q then p else x.
Lemma tau_range p q x : 0 <= p < n -> 0 <= q < n -> 0 <= x < n -> 0 <= tau p q x < n.
Proof. unfold tau. intros. destruct (x =? p), (x =? q); lia. Qed.
Lemma tau_inv p q x : tau p q (tau p q x) = x.
Proof.
  unfold tau. destruct (Z.eqb_spec x p) as [->|]; [destruct (Z.eqb_spec q p); destruct (Z.eqb_spec q q); congruence|].
  destruct (Z.eqb_spec x q) as [->|]; [destruct (Z.eqb_spec p p); congruence|].
  destruct (Z.eqb_spec x p); [congruence|]. destruct (Z.eqb_spec x q); congruence.
Qed.
Lemma swap_rows_spec m p q : shape m n c -> 0 <= p < n -> 0 <= q < n ->
  exists m', swap_rows m p q = Ok m' /\ shape m' n c /\ forall i j, 0 <= i -> 0 <= j -> ent m' i j = ent m (tau p q i) j.
Proof.
  intros (Hl & Hrow & Hcol & H0 & H1 & Hn & Hc) Hp Hq. unfold swap_rows. rewrite Hl.
  rewrite (aget_ok _ p []), (aget_ok _ q []) by lia. cbn [bind].
  rewrite aset_ok by lia. cbn [bind]. rewrite aset_ok by (rewrite upd_length; lia). cbn [bind].
  eexists. split; [reflexivity|]. rewrite Forall_forall in Hc. split.
  - unfold shape. cbn [live row col cells]. split; [reflexivity|]. split; [assumption|]. split; [assumption|].
    split; [assumption|]. split; [assumption|]. split; [rewrite !upd_length; assumption|].
    apply Forall_upd; [apply Forall_upd|]; [now apply Forall_forall| |]; apply Hc, nth_In; lia.
  - intros i j Hi Hj. unfold MatSpec.ent. cbn [cells]. f_equal. unfold tau.
    destruct (Z.eqb_spec i p) as [->|Np].
    + destruct (Z.eq_dec p q) as [->|Npq].
      * rewrite nth_upd_eq by (rewrite upd_length; lia). reflexivity.
      * rewrite nth_upd_neq by lia. rewrite nth_upd_eq by lia. reflexivity.
    + destruct (Z.eqb_spec i q) as [->|Nq].
      * rewrite nth_upd_eq by (rewrite upd_length; lia). reflexivity.
      * rewrite !nth_upd_neq by lia. reflexivity.
Qed.
Lemma solves_swap m m' p q x : shape m n c -> shape m' n c -> 0 <= p < n -> 0 <= q < n ->
  (forall i j, 0 <= i -> 0 <= j -> ent m' i j = ent m (tau p q i) j) -> (solves o m' x <-> solves o m x).
Proof.
  intros Hm Hm' Hp Hq E. rewrite (solves_rowval m x Hm), (solves_rowval m' x Hm').
  assert (K : forall i, 0 <= i < n -> rowval m' x i = rowval m x (tau p q i)).
  { intros i Hi. unfold rowval. apply sumn_ext. intros k Hk. rewrite E by lia. reflexivity. }
  split; intros H i Hi.
  - rewrite <- (tau_inv p q i). rewrite <- K by (now apply tau_range). apply H. now apply tau_range.
  - rewrite K by assumption. apply H. now apply tau_range.
Qed.

(** find_pivot *)
Lemma find_pivot_spec i m : shape m n c -> 0 <= i < n -> forall fuel r nz, 0 <= r <= c -> c - r < Z.of_nat fuel ->
  (forall p q, i <= p < n -> 0 <= q < r -> ent m p q = 0r) ->
  (exists nz', find_pivot o fuel m i r nz = Ok (nz', c, m) /\ (r < c -> nz' = Some (-1)) /\ (r = c -> nz' = nz) /\
     forall p q, i <= p < n -> 0 <= q < c -> ent m p q = 0r) \/
  (exists j r' m', find_pivot o fuel m i r nz = Ok (Some j, r', m') /\ i <= j < n /\ r <= r' < c /\ shape m' n c /\
     (forall p q, i <= p < n -> 0 <= q < r' -> ent m p q = 0r) /\ ent m j r' <> 0r /\
     forall p q, 0 <= p -> 0 <= q -> ent m' p q = ent m (tau j i p) q).
Proof.
  intros Hm Hi. destruct (shape_nonneg _ _ _ Hm) as (H0 & H1 & R & C).
  induction fuel as [|f IH]; intros r nz Hr Hf Hz; [lia|].
  cbn [find_pivot]. rewrite C. destruct (Z.ltb_spec r c) as [Hrc|Hrc].
  - destruct (find_row_spec m i r Hm ltac:(lia) ltac:(lia)) as (j & E & Hj). rewrite E. cbn [bind].
    destruct Hj as [(-> & Hcol)|(Hj & Hnz)].
    + change (-1 <? 0) with true. cbv iota.
      assert (Hz' : forall p q, i <= p < n -> 0 <= q < r + 1 -> ent m p q = 0r).
      { intros p q Hp Hq. destruct (Z.eq_dec q r) as [->|]; [now apply Hcol|apply Hz; lia]. }
      destruct (IH (r + 1) (Some (-1)) ltac:(lia) ltac:(lia) Hz') as [(nz' & E' & K1 & K2 & K3)|(j & r' & m' & E' & Kj & Kr & K)].
      * left. exists nz'. split; [assumption|]. split; [|split; [lia|assumption]].
        intros _. destruct (Z.eq_dec (r + 1) c) as [Ec|]; [now apply K2|apply K1; lia].
      * right. exists j, r', m'. split; [assumption|]. split; [assumption|]. split; [lia|]. assumption.
    + destruct (Z.ltb_spec j 0); [lia|].
      destruct (swap_rows_spec m j i Hm ltac:(lia) ltac:(lia)) as (m' & E' & S' & H'). rewrite E'. cbn [bind].
      right. exists j, r, m'. split; [reflexivity|]. split; [assumption|]. split; [lia|]. auto.
  - left. exists nz. assert (r = c) by lia. subst r. split; [reflexivity|]. split; [lia|]. split; [reflexivity|]. assumption.
Qed.

(** normalise *)
Lemma normalise_spec m i r : shape m n c -> 0 <= i < n -> 0 <= r < c -> ent m i r <> 0r ->
  (forall q, 0 <= q < r -> ent m i q = 0r) ->
  exists m', normalise o m i r = Ok m' /\ shape m' n c /\
    forall p q, 0 <= p < n -> 0 <= q < c ->
      ent m' p q = if p =? i then ent m i q *r inv (ent m i r) else ent m p q.
Proof.
  intros Hm Hi Hr Hnz Hz. destruct (shape_nonneg _ _ _ Hm) as (H0 & H1 & R & C). unfold normalise. rewrite C.
  destruct (for_loop_inv (fun t x => shape x n c /\ forall p q, 0 <= p -> 0 <= q ->
      ent x p q = if (p =? i) && (c - 1 - t <? q) && (q <? c) then ent m i q *r inv (ent m i r) else ent m p q)
    (fun t m => x <- mget m i (col m - 1 - t) ;; y <- mget m i r ;; mset m i (col m - 1 - t) (odiv o x y))
    (Z.to_nat (c - 1 - r)) 0 m) as (m1 & E1 & S1 & K1).
  - split; [assumption|]. intros p q Hp Hq. replace ((p =? i) && (c - 1 - 0 <? q) && (q <? c)) with false by lia. reflexivity.
  - intros t x Ht (Sx & Hx). destruct (shape_nonneg _ _ _ Sx) as (_ & _ & _ & Cx). rewrite Cx.
    rewrite !(mget_shape o x n c) by (assumption || lia). cbn [bind].
    destruct (mset_shape o x n c i (c - 1 - t) (odiv o (ent x i (c - 1 - t)) (ent x i r)) Sx Hi ltac:(lia)) as (x' & E' & S' & H').
    exists x'. split; [assumption|]. split; [assumption|]. intros p q Hp Hq. rewrite H' by assumption.
    destruct (Z.eqb_spec p i) as [->|Np]; cbn [andb].
    + destruct (Z.eqb_spec q (c - 1 - t)) as [->|Nq].
      * rewrite !Hx by lia. rewrite Z.eqb_refl. cbn [andb]. rewrite Z.ltb_irrefl. cbn [andb].
        replace (c - 1 - t <? r) with false by lia. cbn [andb].
        replace ((c - 1 - (t + 1) <? c - 1 - t) && (c - 1 - t <? c)) with true by lia. apply div_mul.
      * rewrite Hx by lia. rewrite Z.eqb_refl. cbn [andb].
        replace (c - 1 - (t + 1) <? q) with (c - 1 - t <? q) by lia. reflexivity.
    + rewrite Hx by lia. destruct (Z.eqb_spec p i); [congruence|]. reflexivity.
  - rewrite E1. cbn [bind]. destruct (mset_shape o m1 n c i r 1r S1 Hi Hr) as (m2 & E2 & S2 & K2).
    exists m2. split; [assumption|]. split; [assumption|]. intros p q Hp Hq. rewrite K2 by lia.
    destruct (Z.eqb_spec p i) as [->|Np]; cbn [andb].
    + destruct (Z.eqb_spec q r) as [->|Nq].
      * transitivity (inv (ent m i r) *r ent m i r); [symmetry; now apply inv_l|ring].
      * rewrite K1 by lia. rewrite Z.eqb_refl. cbn [andb].
        destruct (Z.lt_ge_cases q r).
        -- replace (_ && _) with false by lia. rewrite Hz by lia. ring.
        -- replace (_ && _) with true by lia. reflexivity.
    + rewrite K1 by lia. destruct (Z.eqb_spec p i); [congruence|]. reflexivity.
Qed.

(** eliminate *)
Lemma eliminate_row_spec m i r j : shape m n c -> 0 <= i < n -> 0 <= j < n -> i <> j -> 0 <= r < c -> ent m i r = 1r ->
  (forall q, 0 <= q < r -> ent m i q = 0r) ->
  exists m', eliminate_row o i r j m = Ok m' /\ shape m' n c /\
    forall p q, 0 <= p < n -> 0 <= q < c ->
      ent m' p q = if p =? j then ent m j q -r ent m i q *r ent m j r else ent m p q.
Proof.
  intros Hm Hi Hj Hij Hr H1r Hz. destruct (shape_nonneg _ _ _ Hm) as (H0 & H1 & R & C). unfold eliminate_row. rewrite C.
  destruct (for_loop_inv (fun t x => shape x n c /\ forall p q, 0 <= p -> 0 <= q ->
      ent x p q = if (p =? j) && (c - 1 - t <? q) && (q <? c) then ent m j q -r ent m i q *r ent m j r else ent m p q)
    (fun t m => x <- mget m j (col m - 1 - t) ;; y <- mget m i (col m - 1 - t) ;; z <- mget m j r ;;
            mset m j (col m - 1 - t) (osub o x (omul o y z)))
    (Z.to_nat (c - 1 - r)) 0 m) as (m1 & E1 & S1 & K1).
  - split; [assumption|]. intros p q Hp Hq. replace ((p =? j) && (c - 1 - 0 <? q) && (q <? c)) with false by lia. reflexivity.
  - intros t x Ht (Sx & Hx). destruct (shape_nonneg _ _ _ Sx) as (_ & _ & _ & Cx). rewrite Cx.
    rewrite !(mget_shape o x n c) by (assumption || lia). cbn [bind].
    destruct (mset_shape o x n c j (c - 1 - t) (ent x j (c - 1 - t) -r ent x i (c - 1 - t) *r ent x j r) Sx Hj ltac:(lia)) as (x' & E' & S' & H').
    exists x'. split; [assumption|]. split; [assumption|]. intros p q Hp Hq. rewrite H' by assumption.
    destruct (Z.eqb_spec p j) as [->|Np]; cbn [andb].
    + destruct (Z.eqb_spec q (c - 1 - t)) as [->|Nq].
      * rewrite !Hx by lia. rewrite Z.eqb_refl. destruct (Z.eqb_spec i j); [congruence|]. cbn [andb]. rewrite Z.ltb_irrefl. cbn [andb].
        replace (c - 1 - t <? r) with false by lia. cbn [andb].
        replace ((c - 1 - (t + 1) <? c - 1 - t) && (c - 1 - t <? c)) with true by lia. reflexivity.
      * rewrite Hx by lia. rewrite Z.eqb_refl. cbn [andb].
        replace (c - 1 - (t + 1) <? q) with (c - 1 - t <? q) by lia. reflexivity.
    + rewrite Hx by lia. destruct (Z.eqb_spec p j); [congruence|]. reflexivity.
  - rewrite E1. cbn [bind]. destruct (mset_shape o m1 n c j r 0r S1 Hj Hr) as (m2 & E2 & S2 & K2).
    exists m2. split; [assumption|]. split; [assumption|]. intros p q Hp Hq. rewrite K2 by lia.
    destruct (Z.eqb_spec p j) as [->|Np]; cbn [andb].
    + destruct (Z.eqb_spec q r) as [->|Nq].
      * rewrite H1r. ring.
      * rewrite K1 by lia. rewrite Z.eqb_refl. cbn [andb].
        destruct (Z.lt_ge_cases q r).
        -- replace (_ && _) with false by lia. rewrite (Hz q) by lia. ring.
        -- replace (_ && _) with true by lia. reflexivity.
    + rewrite K1 by lia. destruct (Z.eqb_spec p j); [congruence|]. reflexivity.
Qed.
Lemma eliminate_spec m i r : shape m n c -> 0 <= i < n -> 0 <= r < c -> ent m i r = 1r ->
  (forall q, 0 <= q < r -> ent m i q = 0r) ->
  exists m', eliminate o m i r = Ok m' /\ shape m' n c /\
    forall p q, 0 <= p < n -> 0 <= q < c ->
      ent m' p q = if i <? p then ent m p q -r ent m i q *r ent m p r else ent m p q.
Proof.
  intros Hm Hi Hr H1r Hz. destruct (shape_nonneg _ _ _ Hm) as (H0 & H1 & R & C). unfold eliminate. rewrite R.
  destruct (for_loop_inv (fun k x => shape x n c /\ forall p q, 0 <= p < n -> 0 <= q < c ->
      ent x p q = if (i <? p) && (p <? k) then ent m p q -r ent m i q *r ent m p r else ent m p q)
    (eliminate_row o i r) (Z.to_nat (n - (i + 1))) (i + 1) m) as (m1 & E1 & S1 & K1).
  - split; [assumption|]. intros p q Hp Hq. replace ((i <? p) && (p <? i + 1)) with false by lia. reflexivity.
  - intros k x Hk (Sx & Hx).
    assert (Ei : forall q, 0 <= q < c -> ent x i q = ent m i q).
    { intros q Hq. rewrite Hx by lia. rewrite Z.ltb_irrefl. reflexivity. }
    destruct (eliminate_row_spec x i r k Sx Hi ltac:(lia) ltac:(lia) Hr) as (x' & E' & S' & H').
    + rewrite Ei by lia. assumption.
    + intros q Hq. rewrite Ei by lia. now apply Hz.
    + exists x'. split; [assumption|]. split; [assumption|]. intros p q Hp Hq. rewrite H' by lia.
      destruct (Z.eqb_spec p k) as [->|Np].
      * rewrite Ei by lia. rewrite !Hx by lia. rewrite Z.ltb_irrefl, andb_false_r.
        replace ((i <? k) && (k <? k + 1)) with true by lia. reflexivity.
      * rewrite Hx by lia. replace (p <? k + 1) with (p <? k) by lia. reflexivity.
  - exists m1. split; [assumption|]. split; [assumption|]. intros p q Hp Hq. rewrite K1 by lia.
    replace (p <? i + 1 + Z.of_nat (Z.to_nat (n - (i + 1)))) with true by lia. now rewrite andb_true_r.
Qed.
Lemma solves_normalise m m' i r x : shape m n c -> shape m' n c -> 0 <= i < n -> ent m i r <> 0r ->
  (forall p q, 0 <= p < n -> 0 <= q < c -> ent m' p q = if p =? i then ent m i q *r inv (ent m i r) else ent m p q) ->
  (solves o m' x <-> solves o m x).
Proof.
  intros Hm Hm' Hi Hnz E. destruct (shape_nonneg _ _ _ Hm) as (H0 & H1 & _). rewrite (solves_rowval m x Hm), (solves_rowval m' x Hm').
  assert (K : forall p, 0 <= p < n -> rowval m' x p = if p =? i then rowval m x i *r inv (ent m i r) else rowval m x p).
  { intros p Hp. unfold rowval. destruct (Z.eqb_spec p i) as [->|Np].
    - rewrite <- (sumn_mul_r o opp Rth). apply sumn_ext. intros k Hk. rewrite E by lia. rewrite Z.eqb_refl. ring.
    - apply sumn_ext. intros k Hk. rewrite E by lia. destruct (Z.eqb_spec p i); [congruence|]. reflexivity. }
  split; intros H p Hp.
  - specialize (H p Hp). rewrite (K p Hp) in H. destruct (Z.eqb_spec p i) as [Ep|Np]; [|assumption].
    rewrite Ep. apply (mul_inv_zero _ _ Hnz). assumption.
  - rewrite (K p Hp). destruct (Z.eqb_spec p i) as [Ep|Np]; [|now apply H].
    apply (mul_inv_zero _ _ Hnz). apply H. lia.
Qed.
Lemma solves_eliminate m m' i r x : shape m n c -> shape m' n c -> 0 <= i < n -> 
  (forall p q, 0 <= p < n -> 0 <= q < c -> ent m' p q = if i <? p then ent m p q -r ent m i q *r ent m p r else ent m p q) ->
  (solves o m' x <-> solves o m x).
Proof.
  intros Hm Hm' Hi E. destruct (shape_nonneg _ _ _ Hm) as (H0 & H1 & _). rewrite (solves_rowval m x Hm), (solves_rowval m' x Hm').
  assert (K : forall p, 0 <= p < n -> rowval m' x p = if i <? p then rowval m x p -r rowval m x i *r ent m p r else rowval m x p).
  { intros p Hp. unfold rowval. destruct (Z.ltb_spec i p) as [L|L].
    - rewrite <- (sumn_mul_r o opp Rth). rewrite <- (sumn_sub o opp Rth). apply sumn_ext. intros k Hk. rewrite E by lia.
      replace (i <? p) with true by lia. ring.
    - apply sumn_ext. intros k Hk. rewrite E by lia. replace (i <? p) with false by lia. reflexivity. }
  split; intros H p Hp.
  - pose proof (H i Hi) as Hi'. rewrite K in Hi' by assumption. rewrite Z.ltb_irrefl in Hi'.
    specialize (H p Hp). rewrite K in H by assumption. destruct (Z.ltb_spec i p); [|assumption].
    transitivity (rowval m x p -r rowval m x i *r ent m p r); [rewrite Hi'; ring|assumption].
  - rewrite K by assumption. destruct (Z.ltb_spec i p); [|now apply H]. rewrite (H p), (H i) by lia. ring.
Qed.

(** the outer loop *)
Definition inv_red (m0 : mat A) (i r : Z) (ps : list Z) (m : mat A) : Prop :=
  shape m n c /\ Z.of_nat (length ps) = i /\ 0 <= r < c /\
  (forall s t, (s < t < length ps)%nat -> nth s ps 0 < nth t ps 0) /\
  (forall t, (t < length ps)%nat -> 0 <= nth t ps 0 <= r /\
     ent m (Z.of_nat t) (nth t ps 0) = 1r /\ forall j, 0 <= j < nth t ps 0 -> ent m (Z.of_nat t) j = 0r) /\
  (forall p q, i <= p < n -> 0 <= q < r \/ In q ps -> ent m p q = 0r) /\
  (forall x, solves o m x <-> solves o m0 x).

Lemma inv_step m0 i r ps m : inv_red m0 i r ps m -> 0 <= i < n ->
  (exists nz', find_pivot o (S (Z.to_nat (c - r))) m i r None = Ok (nz', c, m) /\ nz' = Some (-1) /\
     forall p q, i <= p < n -> 0 <= q < c -> ent m p q = 0r) \/
  (exists j r' m1 m2 m3, find_pivot o (S (Z.to_nat (c - r))) m i r None = Ok (Some j, r', m1) /\ 0 <= j /\
     normalise o m1 i r' = Ok m2 /\ eliminate o m2 i r' = Ok m3 /\ inv_red m0 (i + 1) r' (ps ++ [r']) m3).
Proof.
  intros (Sm & Hlen & Hr & Hinc & Hpiv & Hz & Hsol) Hi. destruct (shape_nonneg _ _ _ Sm) as (H0 & H1 & R & C).
  destruct (find_pivot_spec i m Sm Hi (S (Z.to_nat (c - r))) r None ltac:(lia) ltac:(lia)) as
    [(nz' & E & K1 & K2 & K3)|(j & r' & m1 & E & Kj & Kr & S1 & K3 & Knz & K1)].
  { intros p q Hp Hq. apply Hz; auto. }
  { left. exists nz'. split; [assumption|]. split; [apply K1; lia|assumption]. }
  right.
  assert (Hi1 : forall q, 0 <= q -> ent m1 i q = ent m j q).
  { intros q Hq. rewrite K1 by lia. f_equal. unfold tau. destruct (Z.eqb_spec i j) as [<-|]; [reflexivity|]. now rewrite Z.eqb_refl. }
  assert (Hz1 : forall p q, i <= p < n -> 0 <= q < r' \/ In q ps -> ent m1 p q = 0r).
  { intros p q Hp Hq. assert (0 <= q).
    { destruct Hq as [Hq|Hq]; [lia|]. apply (In_nth _ _ 0) in Hq. destruct Hq as (t & Ht & <-). destruct (Hpiv t Ht). lia. }
    rewrite K1 by lia. assert (Hr1 : i <= tau j i p < n).
    { unfold tau. destruct (Z.eqb_spec p j); [lia|]. destruct (Z.eqb_spec p i); lia. }
    destruct Hq as [Hq|Hq]; [now apply K3|]. apply Hz; auto. }
  assert (Hlow1 : forall p q, 0 <= p < i -> 0 <= q -> ent m1 p q = ent m p q).
  { intros p q Hp Hq. rewrite K1 by lia. f_equal. unfold tau. destruct (Z.eqb_spec p j); [lia|]. destruct (Z.eqb_spec p i); lia. }
  assert (Hnz1 : ent m1 i r' <> 0r) by (rewrite Hi1 by lia; assumption).
  assert (Hnotin : ~ In r' ps).
  { intros Hin. apply Hnz1. apply Hz1; [lia|auto]. }
  destruct (normalise_spec m1 i r' S1 Hi ltac:(lia) Hnz1) as (m2 & E2 & S2 & K2).
  { intros q Hq. apply Hz1; [lia|auto]. }
  assert (Hone : ent m2 i r' = 1r).
  { rewrite K2 by lia. rewrite Z.eqb_refl. transitivity (inv (ent m1 i r') *r ent m1 i r'); [ring|now apply inv_l]. }
  destruct (eliminate_spec m2 i r' S2 Hi ltac:(lia) Hone) as (m3 & E3 & S3 & K3').
  { intros q Hq. rewrite K2 by lia. rewrite Z.eqb_refl. rewrite Hz1 by (try lia; auto). ring. }
  exists j, r', m1, m2, m3. split; [assumption|]. split; [lia|]. split; [assumption|]. split; [assumption|].
  assert (Hps : forall t, (t < length ps)%nat -> nth t ps 0 < r').
  { intros t Ht. destruct (Hpiv t Ht) as (Hb & _). assert (nth t ps 0 <> r') by (intros Et; apply Hnotin; rewrite <- Et; now apply nth_In). lia. }
  unfold inv_red. split; [assumption|]. split; [rewrite app_length; cbn [length]; lia|]. split; [lia|].
  split; [|split; [|split]].
  - intros s t Hst. rewrite app_length in Hst; cbn [length] in Hst.
    destruct (Nat.eq_dec t (length ps)) as [->|].
    + rewrite (app_nth1 ps [r'] 0 (n := s)) by lia. rewrite (app_nth2 ps [r']) by lia. rewrite Nat.sub_diag. cbn [nth]. apply Hps. lia.
    + rewrite !app_nth1 by lia. apply Hinc. lia.
  - intros t Ht. rewrite app_length in Ht; cbn [length] in Ht.
    destruct (Nat.eq_dec t (length ps)) as [->|].
    + rewrite (app_nth2 ps [r']) by lia. rewrite Nat.sub_diag. cbn [nth]. rewrite Hlen. split; [lia|]. split.
      * rewrite K3' by lia. rewrite Z.ltb_irrefl. assumption.
      * intros q Hq. rewrite K3' by lia. rewrite Z.ltb_irrefl. rewrite K2 by lia. rewrite Z.eqb_refl.
        rewrite Hz1 by (try lia; auto). ring.
    + assert (Ht' : (t < length ps)%nat) by lia. rewrite app_nth1 by lia. destruct (Hpiv t Ht') as (Hb & Hp1 & Hp0). split; [lia|].
      assert (Hsame : forall q, 0 <= q < c -> ent m3 (Z.of_nat t) q = ent m (Z.of_nat t) q).
      { intros q Hq. rewrite K3' by lia. replace (i <? Z.of_nat t) with false by lia. rewrite K2 by lia.
        destruct (Z.eqb_spec (Z.of_nat t) i); [lia|]. apply Hlow1; lia. }
      split; [rewrite Hsame by lia; assumption|]. intros q Hq. rewrite Hsame by lia. now apply Hp0.
  - intros p q Hp Hq. rewrite in_app_iff in Hq. cbn [In] in Hq.
    assert (Hqc : 0 <= q < c).
    { destruct Hq as [Hq|[Hq|[Hq|[]]]]; [lia| |lia]. apply (In_nth _ _ 0) in Hq. destruct Hq as (t & Ht & <-). destruct (Hpiv t Ht). lia. }
    rewrite K3' by lia. replace (i <? p) with true by lia. rewrite !K2 by lia.
    destruct (Z.eqb_spec p i); [lia|]. rewrite Z.eqb_refl.
    destruct (Z.eq_dec q r') as [->|Nq].
    + transitivity (ent m1 p r' -r (inv (ent m1 i r') *r ent m1 i r') *r ent m1 p r'); [ring|].
      rewrite inv_l by assumption. ring.
    + assert (Hq' : 0 <= q < r' \/ In q ps) by (destruct Hq as [Hq|[Hq|[Hq|[]]]]; [auto|auto|congruence]).
      rewrite (Hz1 p q), (Hz1 i q) by (try lia; auto). ring.
  - intros x. rewrite (solves_eliminate m2 m3 i r' x S2 S3 Hi K3').
    rewrite (solves_normalise m1 m2 i r' x S1 S2 Hi Hnz1 K2).
    rewrite (solves_swap m m1 j i x Sm S1 ltac:(lia) ltac:(lia) K1). apply Hsol.
Qed.

Lemma reduce_loop_spec m0 : forall k i r ps m, inv_red m0 i r ps m -> i + Z.of_nat k = n ->
  exists b ps', reduce_loop o k i r m = Ok b /\ shape b n c /\ echelon o b ps' /\ (forall x, solves o b x <-> solves o m0 x).
Proof.
  induction k as [|k IH]; intros i r ps m Hinv Hk.
  - cbn [reduce_loop]. destruct Hinv as (Sm & Hlen & Hr & Hinc & Hpiv & Hz & Hsol).
    destruct (shape_nonneg _ _ _ Sm) as (H0 & H1 & R & C).
    exists m, ps. split; [reflexivity|]. split; [assumption|]. split; [|assumption].
    unfold echelon. rewrite R, C. split; [lia|]. split; [assumption|]. split; [|intros; lia].
    intros t Ht. destruct (Hpiv t Ht) as (K1 & K2 & K3). split; [lia|]. auto.
  - cbn [reduce_loop]. assert (0 <= i < n) by (destruct Hinv as (_ & Hl & _); lia).
    pose proof Hinv as (Sm & Hlen & Hr & Hinc & Hpiv & Hz & Hsol).
    destruct (shape_nonneg _ _ _ Sm) as (H0 & H1 & R & C). rewrite C.
    destruct (inv_step m0 i r ps m Hinv H) as [(nz' & E & -> & Hz')|(j & r' & m1 & m2 & m3 & E & Hj & E2 & E3 & Hinv')].
    + rewrite E. cbn [bind]. change (-1 <? 0) with true. cbv iota.
      exists m, ps. split; [reflexivity|]. split; [assumption|]. split; [|assumption].
      unfold echelon. rewrite R, C. split; [lia|]. split; [assumption|]. split.
      * intros t Ht. destruct (Hpiv t Ht) as (K1 & K2 & K3). split; [lia|]. auto.
      * intros p q Hp Hq. apply Hz'; lia.
    + rewrite E. cbn [bind]. destruct (Z.ltb_spec j 0); [lia|]. rewrite E2. cbn [bind]. rewrite E3. cbn [bind].
      apply (IH (i + 1) r' (ps ++ [r']) m3 Hinv'). lia.
Qed.
End Shape.

Lemma reduce_spec m n c : shape m n c -> 0 < c ->
  exists b ps, reduce o m = Ok b /\ shape b n c /\ echelon o b ps /\ (forall x, solves o b x <-> solves o m x).
Proof.
  intros Hm Hc. destruct (shape_nonneg _ _ _ Hm) as (H0 & H1 & R & C). unfold reduce. rewrite R.
  apply (reduce_loop_spec n c m (Z.to_nat n) 0 0 [] m); [|lia].
  unfold inv_red. split; [assumption|]. split; [reflexivity|]. split; [lia|].
  split; [cbn; lia|]. split; [cbn; lia|]. split; [|reflexivity].
  intros p q Hp [Hq|[]]. lia.
Qed.
Lemma reduce_nocol m n : shape m n 0 -> reduce o m = if n =? 0 then Ok m else UB.
Proof.
  intros Hm. destruct (shape_nonneg _ _ _ Hm) as (H0 & H1 & R & C). unfold reduce. rewrite R.
  destruct (Z.eqb_spec n 0) as [->|Hn]; [reflexivity|].
  destruct (Z.to_nat n) as [|k] eqn:E; [lia|]. cbn [reduce_loop]. rewrite C. cbn [Z.sub Z.to_nat find_pivot]. rewrite C. reflexivity.
Qed.
End Field.
