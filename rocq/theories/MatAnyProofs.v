(** reduce for an arbitrary entry type: no law of arithmetic is used. *)
From Coq Require Import Reals Lra.
From Verif Require Import Base Float FloatProofs StatProofs MatModel MatSpec MatProofs MatReduceProofs MatAnyModel MatAnySpec.
Local Open Scope Z_scope.

Section Any.
Context {A : Type} (o : ops A).
Hypothesis H00 : is_zero o (o0 o).
Notation ent := (ent o).
Section Shape.
Context (n c : Z).

Lemma find_row_any m i r : shape m n c -> 0 <= i -> 0 <= r < c ->
  exists j, find_row o m i r = Ok j /\
    ((j = -1 /\ forall p, i <= p < n -> is_zero o (ent m p r)) \/ (i <= j < n /\ ~ is_zero o (ent m j r))).
Proof.
  intros Hm Hi Hr. destruct (shape_nonneg _ _ _ Hm) as (H0 & H1 & R & C). unfold find_row. rewrite R.
  destruct (for_loop_inv (fun k f => (f = -1 /\ forall p, i <= p < k -> is_zero o (ent m p r)) \/ (i <= f < n /\ ~ is_zero o (ent m f r)))
    (fun j found => if found <? 0 then x <- mget m j r ;; Ok (if oeqb o x (o0 o) then -1 else j) else Ok found)
    (Z.to_nat (n - i)) i (-1)) as (j & E & Hj).
  - left. split; [reflexivity|]. intros p Hp. lia.
  - intros k f Hk Hf. destruct Hf as [(-> & Hz)|(Hf & Hnz)].
    + change (-1 <? 0) with true. cbv iota. rewrite (mget_shape o m n c) by (assumption || lia). cbn [bind].
      eexists. split; [reflexivity|]. destruct (oeqb o (ent m k r) (o0 o)) eqn:Ez.
      * left. split; [reflexivity|]. intros p Hp. destruct (Z.eq_dec p k) as [->|]; [exact Ez|]. apply Hz. lia.
      * right. split; [lia|]. unfold is_zero. rewrite Ez. discriminate.
    + destruct (Z.ltb_spec f 0); [lia|]. exists f. split; [reflexivity|]. right. auto.
  - exists j. split; [assumption|]. destruct Hj as [(-> & Hz)|Hj]; [left|right; assumption].
    split; [reflexivity|]. intros p Hp. apply Hz. lia.
Qed.

Lemma find_pivot_any i m : shape m n c -> 0 <= i < n -> forall fuel r nz, 0 <= r <= c -> c - r < Z.of_nat fuel ->
  (forall p q, i <= p < n -> 0 <= q < r -> is_zero o (ent m p q)) ->
  (exists nz', find_pivot o fuel m i r nz = Ok (nz', c, m) /\ (r < c -> nz' = Some (-1)) /\ (r = c -> nz' = nz) /\
     forall p q, i <= p < n -> 0 <= q < c -> is_zero o (ent m p q)) \/
  (exists j r' m', find_pivot o fuel m i r nz = Ok (Some j, r', m') /\ i <= j < n /\ r <= r' < c /\ shape m' n c /\
     (forall p q, i <= p < n -> 0 <= q < r' -> is_zero o (ent m p q)) /\ ~ is_zero o (ent m j r') /\
     forall p q, 0 <= p -> 0 <= q -> ent m' p q = ent m (tau j i p) q).
Proof.
  intros Hm Hi. destruct (shape_nonneg _ _ _ Hm) as (H0 & H1 & R & C).
  induction fuel as [|f IH]; intros r nz Hr Hf Hz; [lia|].
  cbn [find_pivot]. rewrite C. destruct (Z.ltb_spec r c) as [Hrc|Hrc].
  - destruct (find_row_any m i r Hm ltac:(lia) ltac:(lia)) as (j & E & Hj). rewrite E. cbn [bind].
    destruct Hj as [(-> & Hcol)|(Hj & Hnz)].
    + change (-1 <? 0) with true. cbv iota.
      assert (Hz' : forall p q, i <= p < n -> 0 <= q < r + 1 -> is_zero o (ent m p q)).
      { intros p q Hp Hq. destruct (Z.eq_dec q r) as [->|]; [now apply Hcol|apply Hz; lia]. }
      destruct (IH (r + 1) (Some (-1)) ltac:(lia) ltac:(lia) Hz') as [(nz' & E' & K1 & K2 & K3)|(j & r' & m' & E' & Kj & Kr & K)].
      * left. exists nz'. split; [assumption|]. split; [|split; [lia|assumption]].
        intros _. destruct (Z.eq_dec (r + 1) c) as [Ec|]; [now apply K2|apply K1; lia].
      * right. exists j, r', m'. split; [assumption|]. split; [assumption|]. split; [lia|]. assumption.
    + destruct (Z.ltb_spec j 0); [lia|].
      destruct (swap_rows_spec o n c m j i Hm ltac:(lia) ltac:(lia)) as (m' & E' & S' & H'). rewrite E'. cbn [bind].
      right. exists j, r, m'. split; [reflexivity|]. split; [assumption|]. split; [lia|]. auto.
  - left. exists nz. assert (r = c) by lia. subst r. split; [reflexivity|]. split; [lia|]. split; [reflexivity|]. assumption.
Qed.

(** normalise changes row i only, from column r on, and puts 1 there *)
Lemma normalise_any m i r : shape m n c -> 0 <= i < n -> 0 <= r < c ->
  exists m', normalise o m i r = Ok m' /\ shape m' n c /\ ent m' i r = o1 o /\
    forall p q, 0 <= p < n -> 0 <= q < c -> (p <> i \/ q < r) -> ent m' p q = ent m p q.
Proof.
  intros Hm Hi Hr. destruct (shape_nonneg _ _ _ Hm) as (H0 & H1 & R & C). unfold normalise. rewrite C.
  destruct (for_loop_inv (fun t x => shape x n c /\ forall p q, 0 <= p < n -> 0 <= q < c -> (p <> i \/ q < r) -> ent x p q = ent m p q)
    (fun t m => x <- mget m i (col m - 1 - t) ;; y <- mget m i r ;; mset m i (col m - 1 - t) (odiv o x y))
    (Z.to_nat (c - 1 - r)) 0 m) as (m1 & E1 & S1 & K1).
  - auto.
  - intros t x Ht (Sx & Hx). destruct (shape_nonneg _ _ _ Sx) as (_ & _ & _ & Cx). rewrite Cx.
    rewrite !(mget_shape o x n c) by (assumption || lia). cbn [bind].
    destruct (mset_shape o x n c i (c - 1 - t) (odiv o (ent x i (c - 1 - t)) (ent x i r)) Sx Hi ltac:(lia)) as (x' & E' & S' & H').
    exists x'. split; [assumption|]. split; [assumption|]. intros p q Hp Hq Hd. rewrite H' by lia.
    replace ((p =? i) && (q =? c - 1 - t)) with false by lia. now apply Hx.
  - rewrite E1. cbn [bind]. destruct (mset_shape o m1 n c i r (o1 o) S1 Hi Hr) as (m2 & E2 & S2 & K2).
    exists m2. split; [assumption|]. split; [assumption|]. split.
    + rewrite K2 by lia. now rewrite !Z.eqb_refl.
    + intros p q Hp Hq Hd. rewrite K2 by lia. replace ((p =? i) && (q =? r)) with false by lia. now apply K1.
Qed.
Lemma eliminate_row_any m i r j : shape m n c -> 0 <= i < n -> 0 <= j < n -> 0 <= r < c ->
  exists m', eliminate_row o i r j m = Ok m' /\ shape m' n c /\ ent m' j r = o0 o /\
    forall p q, 0 <= p < n -> 0 <= q < c -> (p <> j \/ q < r) -> ent m' p q = ent m p q.
Proof.
  intros Hm Hi Hj Hr. destruct (shape_nonneg _ _ _ Hm) as (H0 & H1 & R & C). unfold eliminate_row. rewrite C.
  destruct (for_loop_inv (fun t x => shape x n c /\ forall p q, 0 <= p < n -> 0 <= q < c -> (p <> j \/ q < r) -> ent x p q = ent m p q)
    (fun t m => x <- mget m j (col m - 1 - t) ;; y <- mget m i (col m - 1 - t) ;; z <- mget m j r ;;
            mset m j (col m - 1 - t) (osub o x (omul o y z)))
    (Z.to_nat (c - 1 - r)) 0 m) as (m1 & E1 & S1 & K1).
  - auto.
  - intros t x Ht (Sx & Hx). destruct (shape_nonneg _ _ _ Sx) as (_ & _ & _ & Cx). rewrite Cx.
    rewrite !(mget_shape o x n c) by (assumption || lia). cbn [bind].
    destruct (mset_shape o x n c j (c - 1 - t) (osub o (ent x j (c - 1 - t)) (omul o (ent x i (c - 1 - t)) (ent x j r))) Sx Hj ltac:(lia)) as (x' & E' & S' & H').
    exists x'. split; [assumption|]. split; [assumption|]. intros p q Hp Hq Hd. rewrite H' by lia.
    replace ((p =? j) && (q =? c - 1 - t)) with false by lia. now apply Hx.
  - rewrite E1. cbn [bind]. destruct (mset_shape o m1 n c j r (o0 o) S1 Hj Hr) as (m2 & E2 & S2 & K2).
    exists m2. split; [assumption|]. split; [assumption|]. split.
    + rewrite K2 by lia. now rewrite !Z.eqb_refl.
    + intros p q Hp Hq Hd. rewrite K2 by lia. replace ((p =? j) && (q =? r)) with false by lia. now apply K1.
Qed.
Lemma eliminate_any m i r : shape m n c -> 0 <= i < n -> 0 <= r < c ->
  exists m', eliminate o m i r = Ok m' /\ shape m' n c /\ (forall p, i < p < n -> ent m' p r = o0 o) /\
    forall p q, 0 <= p < n -> 0 <= q < c -> (p <= i \/ q < r) -> ent m' p q = ent m p q.
Proof.
  intros Hm Hi Hr. destruct (shape_nonneg _ _ _ Hm) as (H0 & H1 & R & C). unfold eliminate. rewrite R.
  destruct (for_loop_inv (fun k x => shape x n c /\ (forall p, i < p < k -> ent x p r = o0 o) /\
      forall p q, 0 <= p < n -> 0 <= q < c -> (p <= i \/ q < r) -> ent x p q = ent m p q)
    (eliminate_row o i r) (Z.to_nat (n - (i + 1))) (i + 1) m) as (m1 & E1 & S1 & K0 & K1).
  - split; [assumption|]. split; [intros; lia|auto].
  - intros k x Hk (Sx & Hz & Hx).
    destruct (eliminate_row_any x i r k Sx Hi ltac:(lia) Hr) as (x' & E' & S' & Z' & H').
    exists x'. split; [assumption|]. split; [assumption|]. split.
    + intros p Hp. destruct (Z.eq_dec p k) as [->|]; [assumption|]. rewrite H' by lia. apply Hz. lia.
    + intros p q Hp Hq Hd. rewrite H' by lia. now apply Hx.
  - exists m1. split; [assumption|]. split; [assumption|]. split; [|assumption]. intros p Hp. apply K0. lia.
Qed.

Definition inv_any (i r : Z) (ps : list Z) (m : mat A) : Prop :=
  shape m n c /\ Z.of_nat (length ps) = i /\ 0 <= r < c /\
  (forall s t, (s < t < length ps)%nat -> nth s ps 0 < nth t ps 0) /\
  (forall t, (t < length ps)%nat -> 0 <= nth t ps 0 <= r /\
     ent m (Z.of_nat t) (nth t ps 0) = o1 o /\
     (forall j, 0 <= j < nth t ps 0 -> is_zero o (ent m (Z.of_nat t) j)) /\
     (forall p, Z.of_nat t < p < n -> is_zero o (ent m p (nth t ps 0)))) /\
  (forall p q, i <= p < n -> 0 <= q < r -> is_zero o (ent m p q)).

Lemma inv_step_any i r ps m : inv_any i r ps m -> 0 <= i < n ->
  (find_pivot o (S (Z.to_nat (c - r))) m i r None = Ok (Some (-1), c, m) /\
     forall p q, i <= p < n -> 0 <= q < c -> is_zero o (ent m p q)) \/
  (exists j r' m1 m2 m3, find_pivot o (S (Z.to_nat (c - r))) m i r None = Ok (Some j, r', m1) /\ 0 <= j /\
     normalise o m1 i r' = Ok m2 /\ eliminate o m2 i r' = Ok m3 /\ inv_any (i + 1) r' (ps ++ [r']) m3).
Proof.
  intros (Sm & Hlen & Hr & Hinc & Hpiv & Hz) Hi. destruct (shape_nonneg _ _ _ Sm) as (H0 & H1 & R & C).
  destruct (find_pivot_any i m Sm Hi (S (Z.to_nat (c - r))) r None ltac:(lia) ltac:(lia)) as
    [(nz' & E & K1 & K2 & K3)|(j & r' & m1 & E & Kj & Kr & S1 & K3 & Knz & K1)].
  { exact Hz. }
  { left. rewrite K1 in E by lia. split; assumption. }
  right.
  assert (Ht : forall p, i <= p < n -> i <= tau j i p < n).
  { intros p Hp. unfold tau. destruct (Z.eqb_spec p j); [lia|]. destruct (Z.eqb_spec p i); lia. }
  assert (Hlow : forall p q, 0 <= p < i -> 0 <= q -> ent m1 p q = ent m p q).
  { intros p q Hp Hq. rewrite K1 by lia. f_equal. unfold tau. destruct (Z.eqb_spec p j); [lia|]. destruct (Z.eqb_spec p i); lia. }
  destruct (normalise_any m1 i r' S1 Hi ltac:(lia)) as (m2 & E2 & S2 & One & K2).
  destruct (eliminate_any m2 i r' S2 Hi ltac:(lia)) as (m3 & E3 & S3 & Zr & K4).
  exists j, r', m1, m2, m3. split; [assumption|]. split; [lia|]. split; [assumption|]. split; [assumption|].
  (* columns left of r', rows from i on *)
  assert (Hleft : forall p q, i <= p < n -> 0 <= q < r' -> is_zero o (ent m3 p q)).
  { intros p q Hp Hq. rewrite K4 by lia. rewrite K2 by lia. rewrite K1 by lia. apply K3; [apply Ht|]; lia. }
  assert (Hsame : forall p q, 0 <= p < i -> 0 <= q < c -> ent m3 p q = ent m p q).
  { intros p q Hp Hq. rewrite K4 by lia. rewrite K2 by lia. apply Hlow; lia. }
  assert (Hps : forall t, (t < length ps)%nat -> nth t ps 0 < r').
  { intros t Hlt. destruct (Hpiv t Hlt) as (Hb & _ & _ & Hd). assert (nth t ps 0 <> r'); [|lia].
    intros Et. apply Knz. rewrite <- Et. apply Hd. lia. }
  unfold inv_any. split; [assumption|]. split; [rewrite app_length; cbn [length]; lia|]. split; [lia|].
  split; [|split].
  - intros s t Hst. rewrite app_length in Hst; cbn [length] in Hst.
    destruct (Nat.eq_dec t (length ps)) as [->|].
    + rewrite (app_nth1 ps [r'] 0 (n := s)) by lia. rewrite (app_nth2 ps [r']) by lia. rewrite Nat.sub_diag. cbn [nth]. apply Hps. lia.
    + rewrite !app_nth1 by lia. apply Hinc. lia.
  - intros t Hlt. rewrite app_length in Hlt; cbn [length] in Hlt.
    destruct (Nat.eq_dec t (length ps)) as [->|].
    + rewrite (app_nth2 ps [r']) by lia. rewrite Nat.sub_diag. cbn [nth]. rewrite Hlen. split; [lia|]. split; [|split].
      * rewrite K4 by lia. assumption.
      * intros q Hq. apply Hleft; lia.
      * intros p Hp. rewrite Zr by lia. exact H00.
    + assert (Hlt' : (t < length ps)%nat) by lia. rewrite app_nth1 by lia. destruct (Hpiv t Hlt') as (Hb & Hp1 & Hp0 & Hd).
      split; [lia|]. split; [|split].
      * rewrite Hsame by lia. assumption.
      * intros q Hq. rewrite Hsame by lia. now apply Hp0.
      * intros p Hp. destruct (Z.lt_ge_cases p i); [rewrite Hsame by lia; apply Hd; lia|].
        apply Hleft; [lia|]. pose proof (Hps t Hlt'). lia.
  - intros p q Hp Hq. apply Hleft; lia.
Qed.

Lemma reduce_loop_any : forall k i r ps m, inv_any i r ps m -> i + Z.of_nat k = n ->
  exists b ps', reduce_loop o k i r m = Ok b /\ shape b n c /\ echelon_any o b ps'.
Proof.
  induction k as [|k IH]; intros i r ps m Hinv Hk.
  - cbn [reduce_loop]. destruct Hinv as (Sm & Hlen & Hr & Hinc & Hpiv & Hz).
    destruct (shape_nonneg _ _ _ Sm) as (H0 & H1 & R & C).
    exists m, ps. split; [reflexivity|]. split; [assumption|].
    unfold echelon_any. rewrite R, C. split; [lia|]. split; [assumption|]. split; [|intros; lia].
    intros t Ht. destruct (Hpiv t Ht) as (K1 & K2 & K3 & K4). split; [lia|]. auto.
  - cbn [reduce_loop]. assert (0 <= i < n) by (destruct Hinv as (_ & Hl & _); lia).
    pose proof Hinv as (Sm & Hlen & Hr & Hinc & Hpiv & Hz).
    destruct (shape_nonneg _ _ _ Sm) as (H0 & H1 & R & C). rewrite C.
    destruct (inv_step_any i r ps m Hinv H) as [(E & Hz')|(j & r' & m1 & m2 & m3 & E & Hj & E2 & E3 & Hinv')].
    + rewrite E. cbn [bind]. change (-1 <? 0) with true. cbv iota.
      exists m, ps. split; [reflexivity|]. split; [assumption|].
      unfold echelon_any. rewrite R, C. split; [lia|]. split; [assumption|]. split.
      * intros t Ht. destruct (Hpiv t Ht) as (K1 & K2 & K3 & K4). split; [lia|]. auto.
      * intros p q Hp Hq. apply Hz'; lia.
    + rewrite E. cbn [bind]. destruct (Z.ltb_spec j 0); [lia|]. rewrite E2. cbn [bind]. rewrite E3. cbn [bind].
      apply (IH (i + 1) r' (ps ++ [r']) m3 Hinv'). lia.
Qed.
End Shape.
Lemma reduce_any m n c : shape m n c -> 0 < c ->
  exists b ps, reduce o m = Ok b /\ shape b n c /\ echelon_any o b ps.
Proof.
  intros Hm Hc. destruct (shape_nonneg _ _ _ Hm) as (H0 & H1 & R & C). unfold reduce. rewrite R.
  apply (reduce_loop_any n c (Z.to_nat n) 0 0 [] m); [|lia].
  unfold inv_any. split; [assumption|]. split; [reflexivity|]. split; [lia|].
  split; [cbn; lia|]. split; [cbn; lia|]. intros; lia.
Qed.
End Any.

(** two by two matrices *)
Definition dmat2 (l : list (list double)) : mat double := Mat (Z.of_nat (length l)) 2 l true.
Lemma solves2 a b c d x : solves Rops (exact (dmat2 [[a; b]; [c; d]])) x <->
  (real a * x 0%Z + real b * x 1%Z = 0 /\ real c * x 0%Z + real d * x 1%Z = 0)%R.
Proof.
  unfold solves, exact, dmat2, ent. cbn [row col cells length Z.of_nat Pos.of_succ_nat Pos.succ].
  change (Z.to_nat 2) with 2%nat. cbn [sumn Rops oadd omul o0 map Z.of_nat Pos.of_succ_nat].
  split.
  - intros H. split.
    + specialize (H 0 ltac:(lia)). change (Z.to_nat 0) with 0%nat in H. change (Z.to_nat 1) with 1%nat in H. cbn [nth] in H. lra.
    + specialize (H 1 ltac:(lia)). change (Z.to_nat 0) with 0%nat in H. change (Z.to_nat 1) with 1%nat in H. cbn [nth] in H. lra.
  - intros [H1 H2] i Hi. assert (i = 0 \/ i = 1) as [-> | ->] by lia;
      change (Z.to_nat 0) with 0%nat; change (Z.to_nat 1) with 1%nat; cbn [nth]; lra.
Qed.
Lemma real_int z : Z.abs z <= 2 ^ 53 -> real (dof z) = IZR z.
Proof. intros H. apply (dof_exact z H). Qed.
Lemma real_dzero : real dzero = 0%R. Proof. reflexivity. Qed.
Lemma echelon_one y : echelon_any Dops (dmat2 [[done; y]; [dzero; dzero]]) [0].
Proof.
  split; [cbn; lia|]. split; [|split].
  - intros s t H. cbn in H. lia.
  - intros t H. cbn in H. assert (t = 0%nat) as -> by lia. cbn [nth]. split; [cbn; lia|]. split; [reflexivity|]. split; [intros; lia|].
    intros i Hi. cbn in Hi. assert (i = 1) as -> by lia. reflexivity.
  - intros i j Hi Hj. cbn in Hi, Hj. assert (i = 1) as -> by lia. assert (j = 0 \/ j = 1) as [-> | ->] by lia; reflexivity.
Qed.
Lemma echelon_two y : echelon_any Dops (dmat2 [[done; y]; [dzero; done]]) [0; 1].
Proof.
  split; [cbn; lia|]. split; [|split].
  - intros [|[|s]] [|[|t]] H; cbn in *; lia.
  - intros [|[|t]] H; cbn in H; try lia; cbn [nth].
    + split; [cbn; lia|]. split; [reflexivity|]. split; [intros; lia|]. intros i Hi. cbn in Hi. assert (i = 1) as -> by lia. reflexivity.
    + split; [cbn; lia|]. split; [reflexivity|]. split; [|intros i Hi; cbn in Hi; lia].
      intros j Hj. assert (j = 0) as -> by lia. reflexivity.
  - intros i j Hi. cbn in Hi. lia.
Qed.
