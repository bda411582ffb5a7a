(** Matrices of machine integers: algebra of products, and reduce. *)
From Verif Require Import Base MatModel MatSpec MatProofs MatReduceProofs MatAnyModel MatAnySpec MatAnyProofs IntTyModel NumSpec IntTySpec IntTyProofs MatIntModel MatIntSpec MatIntProofs.
Local Open Scope Z_scope.

(** * Finite sums *)
Lemma upto_ext k f g : (forall l, (l < k)%nat -> f (Z.of_nat l) = g (Z.of_nat l)) -> upto k f = upto k g.
Proof. induction k as [|k IH]; intros H; [reflexivity|]. cbn [upto]. rewrite IH by (intros; apply H; lia). now rewrite H by lia. Qed.
Lemma upto_add k f g : upto k (fun l => f l + g l) = upto k f + upto k g.
Proof. induction k as [|k IH]; [reflexivity|]. cbn [upto]. rewrite IH. lia. Qed.
Lemma upto_scale k f x : upto k (fun l => x * f l) = x * upto k f.
Proof. induction k as [|k IH]; cbn [upto]; [lia|]. rewrite IH. lia. Qed.
Lemma upto_scale_r k f x : upto k (fun l => f l * x) = upto k f * x.
Proof. induction k as [|k IH]; cbn [upto]; [lia|]. rewrite IH. lia. Qed.
Lemma upto_zero k : upto k (fun _ => 0) = 0.
Proof. induction k as [|k IH]; cbn [upto]; [reflexivity|]. rewrite IH. reflexivity. Qed.
Lemma upto_swap k1 k2 (f : Z -> Z -> Z) : upto k1 (fun i => upto k2 (fun j => f i j)) = upto k2 (fun j => upto k1 (fun i => f i j)).
Proof. induction k1 as [|k1 IH]; cbn [upto]; [now rewrite upto_zero|]. now rewrite IH, <- upto_add. Qed.
Lemma conv_upto t k f g : (forall l, (l < k)%nat -> conv t (f (Z.of_nat l)) = conv t (g (Z.of_nat l))) -> conv t (upto k f) = conv t (upto k g).
Proof.
  induction k as [|k IH]; intros H; [reflexivity|]. cbn [upto]. rewrite <- (conv_add t (upto k f)), <- (conv_add t (upto k g)). rewrite IH by (intros; apply H; lia).
  rewrite (Z.add_comm (conv t _) (f _)), (Z.add_comm (conv t _) (g _)). rewrite <- (conv_add t (f _)), <- (conv_add t (g _)). now rewrite H by lia.
Qed.
Lemma conv_mul_r t x y : conv t (x * conv t y) = conv t (x * y).
Proof. rewrite Z.mul_comm, conv_mul, Z.mul_comm. reflexivity. Qed.

(** every product is either undefined or the product modulo the type *)
Lemma imul_cases t (a b : mat Z) n k c : shape a n k -> shape b k c ->
  ((forall i j, 0 <= i < n -> 0 <= j < c -> safe t (fun l => ent a i l * ent b l j) (Z.to_nat k)) /\
   exists r, imul t a b = Ok r /\ shape r n c /\ forall i j, 0 <= i < n -> 0 <= j < c -> ent r i j = conv t (upto (Z.to_nat k) (fun l => ent a i l * ent b l j))) \/
  imul t a b = UB.
Proof.
  intros Sa Sb.
  assert (D : forall f d, {safe t f d} + {exists l, (l < d)%nat /\ ~ (fits t (f (Z.of_nat l)) /\ fits t (conv t (upto l f) + f (Z.of_nat l)))}).
  { intros f. induction d as [|d [IH|IH]]; [left; intros l Hl; lia| |right; destruct IH as (l & Hl & N); exists l; split; [lia|exact N]].
    destruct (fits_dec t (f (Z.of_nat d))) as [F1|F1]; [destruct (fits_dec t (conv t (upto d f) + f (Z.of_nat d))) as [F2|F2]|].
    - left. intros l Hl. destruct (Nat.eq_dec l d) as [->|]; [now split|apply IH; lia].
    - right. exists d. split; [lia|]. tauto.
    - right. exists d. split; [lia|]. tauto. }
  (* search for a bad entry *)
  assert (ROW : forall i d, 0 <= i < n -> (forall j, 0 <= j < Z.of_nat d -> safe t (fun l => ent a i l * ent b l j) (Z.to_nat k)) \/
     exists j l, 0 <= j < Z.of_nat d /\ (l < Z.to_nat k)%nat /\ ~ (fits t (ent a i (Z.of_nat l) * ent b (Z.of_nat l) j) /\ fits t (conv t (upto l (fun l => ent a i l * ent b l j)) + ent a i (Z.of_nat l) * ent b (Z.of_nat l) j))).
  { intros i d Hi. induction d as [|d [IH|(j & l & Hj & H)]]; [left; lia| |right; exists j, l; split; [lia|exact H]].
    destruct (D (fun l => ent a i l * ent b l (Z.of_nat d)) (Z.to_nat k)) as [Y|(l & Hl & N)].
    - left. intros j Hj. destruct (Z.eq_dec j (Z.of_nat d)) as [->|]; [exact Y|apply IH; lia].
    - right. exists (Z.of_nat d), l. split; [lia|]. split; [exact Hl|exact N]. }
  assert (ALL : forall d, Z.of_nat d <= n -> (forall i j, 0 <= i < Z.of_nat d -> 0 <= j < c -> safe t (fun l => ent a i l * ent b l j) (Z.to_nat k)) \/ imul t a b = UB).
  { induction d as [|d IH]; intros Hd; [left; lia|]. destruct (IH ltac:(lia)) as [G|G]; [|now right]. destruct (shape_nonneg b k c Sb) as (_ & C0 & _ & _).
    destruct (ROW (Z.of_nat d) (Z.to_nat c) ltac:(lia)) as [Y|(j & l & Hj & Hl & N)].
    - left. intros i j Hi Hj. destruct (Z.eq_dec i (Z.of_nat d)) as [->|]; [apply Y; lia|apply G; lia].
    - right. apply (imul_ub t a b n k c (Z.of_nat d) j l Sa Sb); [lia|lia|exact Hl|exact N]. }
  destruct (shape_nonneg a n k Sa) as (N0 & _ & _ & _). destruct (ALL (Z.to_nat n) ltac:(lia)) as [G|G]; [|now right]. left. rewrite Z2Nat.id in G by exact N0. split; [exact G|]. now apply imul_ok.
Qed.
Lemma imul_inv t (a b r : mat Z) n k c : shape a n k -> shape b k c -> imul t a b = Ok r -> shape r n c /\ forall i j, 0 <= i < n -> 0 <= j < c -> ent r i j = conv t (upto (Z.to_nat k) (fun l => ent a i l * ent b l j)).
Proof.
  intros Sa Sb E. destruct (imul_cases t a b n k c Sa Sb) as [(_ & r' & E' & S' & H')|U]; [|congruence]. rewrite E' in E. injection E as ->. split; assumption.
Qed.
Lemma assoc t a b d n k c e ab bd x y : shape a n k -> shape b k c -> shape d c e -> imul t a b = Ok ab -> imul t ab d = Ok x -> imul t b d = Ok bd -> imul t a bd = Ok y -> x = y.
Proof.
  intros Sa Sb Sd E1 E2 E3 E4. destruct (imul_inv t a b ab n k c Sa Sb E1) as (S1 & H1). destruct (imul_inv t ab d x n c e S1 Sd E2) as (S2 & H2). destruct (imul_inv t b d bd k c e Sb Sd E3) as (S3 & H3).
  destruct (imul_inv t a bd y n k e Sa S3 E4) as (S4 & H4). destruct (shape_nonneg b k c Sb) as (K0 & C0 & _ & _). apply (mat_ext Eops x y n e S2 S4). intros i j Hi Hj. rewrite H2, H4 by assumption.
  transitivity (conv t (upto (Z.to_nat c) (fun q => upto (Z.to_nat k) (fun l => ent a i l * ent b l q) * ent d q j))).
  { apply conv_upto. intros l Hl. rewrite H1 by lia. apply conv_mul. }
  transitivity (conv t (upto (Z.to_nat k) (fun l => ent a i l * upto (Z.to_nat c) (fun q => ent b l q * ent d q j)))).
  2:{ symmetry. apply conv_upto. intros l Hl. rewrite H3 by lia. apply conv_mul_r. }
  f_equal. transitivity (upto (Z.to_nat c) (fun q => upto (Z.to_nat k) (fun l => ent a i l * ent b l q * ent d q j))).
  { apply upto_ext. intros q Hq. symmetry. apply upto_scale_r. }
  rewrite upto_swap. apply upto_ext. intros l Hl. rewrite <- upto_scale. apply upto_ext. intros q Hq. lia.
Qed.
Lemma add_inv t a b r n c : shape a n c -> shape b n c -> iadd t a b = Ok r -> shape r n c /\ forall i j, 0 <= i < n -> 0 <= j < c -> ent r i j = conv t (ent a i j + ent b i j).
Proof.
  intros Sa Sb E. destruct (shape_nonneg a n c Sa) as (N0 & C0 & _ & _).
  assert (H : (forall i j, 0 <= i < n -> 0 <= j < c -> fits t (ent a i j + ent b i j))).
  { intros i j Hi Hj. destruct (fits_dec t (ent a i j + ent b i j)) as [F|F]; [exact F|]. exfalso. unfold iadd in E.
    rewrite (zip_ub (eadd t) (fun x y => conv t (x + y)) (fun x y => fits t (x + y)) (eadd_ok t) (eadd_ub t) (fun x y => fits_dec t (x + y)) a b n c i j Sa Sb Hi Hj F) in E. discriminate. }
  destruct (zip_ok (eadd t) (fun x y => conv t (x + y)) (fun x y => fits t (x + y)) (eadd_ok t) (eadd_ub t) (fun x y => fits_dec t (x + y)) a b n c Sa Sb H) as (r' & E' & _ & S' & H'). unfold iadd in E. rewrite E' in E. injection E as ->. split; assumption.
Qed.
Lemma distr t a b d n k c bd ab ad x y : shape a n k -> shape b k c -> shape d k c -> iadd t b d = Ok bd -> imul t a bd = Ok x -> imul t a b = Ok ab -> imul t a d = Ok ad -> iadd t ab ad = Ok y -> x = y.
Proof.
  intros Sa Sb Sd E1 E2 E3 E4 E5. destruct (add_inv t b d bd k c Sb Sd E1) as (S1 & H1). destruct (imul_inv t a bd x n k c Sa S1 E2) as (S2 & H2). destruct (imul_inv t a b ab n k c Sa Sb E3) as (S3 & H3). destruct (imul_inv t a d ad n k c Sa Sd E4) as (S4 & H4).
  destruct (add_inv t ab ad y n c S3 S4 E5) as (S5 & H5). destruct (shape_nonneg b k c Sb) as (K0 & C0 & _ & _). apply (mat_ext Eops x y n c S2 S5). intros i j Hi Hj. rewrite H2, H5, H3, H4 by assumption.
  rewrite conv_add. rewrite Z.add_comm, conv_add, Z.add_comm, <- upto_add. apply conv_upto. intros l Hl. rewrite H1 by lia. rewrite conv_mul_r. f_equal. lia.
Qed.

(** * Entries of the type *)
Definition tent t (m : mat Z) n c := forall p q, 0 <= p < n -> 0 <= q < c -> inty t (ent m p q).
Lemma typed_tent t m n c : shape m n c -> (typed t m <-> tent t m n c).
Proof.
  intros (_ & _ & _ & N0 & C0 & L & F). unfold typed, tent, MatSpec.ent. cbn [o0 Eops]. split.
  - intros H p q Hp Hq. rewrite Forall_forall in H, F. assert (I : In (nth (Z.to_nat p) (cells m) []) (cells m)) by (apply nth_In; lia). specialize (H _ I). specialize (F _ I). rewrite Forall_forall in H. apply H. apply nth_In. cbn in F. rewrite F. lia.
  - intros H. apply Forall_forall. intros row Ir. rewrite Forall_forall in F. specialize (F _ Ir). cbn in F. apply Forall_forall. intros x Ix. destruct (In_nth _ _ [] Ir) as (p & Hp & Ep). destruct (In_nth _ _ 0 Ix) as (q & Hq & Eq).
    specialize (H (Z.of_nat p) (Z.of_nat q) ltac:(lia) ltac:(lia)). rewrite !Nat2Z.id, Ep, Eq in H. exact H.
Qed.
Lemma carefree_cases t : carefree t -> sgn (promote t) = false \/ t = Ty true W8 \/ t = Ty false W8 \/ t = i16.
Proof. intros (W & N). destruct t as [[] []]; cbn; auto; exfalso; try (apply N; reflexivity); apply W; split; cbn; lia || reflexivity. Qed.
Lemma carefree_bound t x y z : carefree t -> inty t x -> inty t y -> inty t z -> fits t (x * y) /\ fits t (z + x * y) /\ fits t (z - x * y) /\ fits t (x + y) /\ fits t (x - y).
Proof.
  intros C Ix Iy Iz. unfold fits. rewrite wide_promote. destruct (carefree_cases t C) as [S|G]; [rewrite S; repeat split; discriminate|].
  assert (B : - 32768 <= x <= 32767 /\ - 32768 <= y <= 32767 /\ - 32768 <= z <= 32767).
  { destruct G as [->|[->| ->]]; unfold inty in Ix, Iy, Iz; cbn in Ix, Iy, Iz; lia. }
  assert (P : - 1073741824 <= x * y <= 1073741824) by nia.
  assert (E : promote t = i32) by (destruct G as [->|[->| ->]]; reflexivity). rewrite E. unfold inty. cbn. lia.
Qed.

(** * reduce *)
(** the same steps with operations that never fail *)
Definition Tops (t : ty) : ops Z :=
  Ops Z 0 1 (fun x y => conv t (x + y)) (fun x y => conv t (x - y)) Z.mul (fun x y => conv t (Z.quot x y)) Z.eqb.
Definition le {A} (x y : outcome A) := x = UB \/ x = y.
Lemma le_refl {A} (x : outcome A) : le x x. Proof. now right. Qed.
Lemma le_bind {A B} (x y : outcome A) (f g : A -> outcome B) : le x y -> (forall v, le (f v) (g v)) -> le (v <- x ;; f v) (v <- y ;; g v).
Proof. intros [-> | ->] H; [now left|]. destruct y as [v| | |]; cbn [bind]; [apply H|now right|now right|now right]. Qed.
Lemma le_loop {S} (f g : Z -> S -> outcome S) : (forall k s, le (f k s) (g k s)) -> forall n i s, le (for_loop n i f s) (for_loop n i g s).
Proof. intros H. induction n as [|n IH]; intros i s; [now right|]. cbn [for_loop]. apply le_bind; [apply H|intros; apply IH]. Qed.
Lemma le_Ok {A} (x : outcome A) y v : le x y -> x = Ok v -> y = Ok v.
Proof. intros [-> | ->] E; congruence. Qed.
Lemma ediv_ok t x y : y <> 0 -> fits t (Z.quot x y) -> ediv t x y = Ok (conv t (Z.quot x y)).
Proof.
  intros Hy F. unfold ediv, adiv. destruct (Z.eqb_spec y 0); [contradiction|]. destruct (arith_fits t _ F) as (v & -> & _ & E). cbn [bind]. now rewrite E.
Qed.
Lemma ediv_le t x y : le (ediv t x y) (Ok (conv t (Z.quot x y))).
Proof.
  destruct (Z.eq_dec y 0) as [->|Hy]; [left; reflexivity|]. destruct (fits_dec t (Z.quot x y)) as [F|F]; [right; now apply ediv_ok|left].
  unfold ediv, adiv. destruct (Z.eqb_spec y 0); [contradiction|]. now rewrite arith_misfit.
Qed.
Lemma mulsub_ok t z x y : fits t (x * y) -> fits t (z - x * y) -> emulsub t z x y = Ok (conv t (z - x * y)).
Proof.
  intros H1 H2. unfold emulsub. destruct (arith_fits t _ H1) as (p & E & D & _). destruct (sgn (promote t)) eqn:S.
  - assert (p = x * y). { unfold fits in H1. rewrite wide_promote in H1. rewrite (arith_ok _ _ (H1 S)) in E. congruence. } subst p. rewrite E. cbn [bind]. destruct (arith_fits t _ H2) as (v & -> & _ & E2). cbn [bind]. now rewrite E2.
  - rewrite E. cbn [bind]. assert (F : fits t (z - p)) by (unfold fits; rewrite wide_promote; congruence). destruct (arith_fits t _ F) as (v & -> & _ & E2). cbn [bind]. rewrite E2. f_equal. apply conv_eq.
    destruct D as [q D]. exists q. lia.
Qed.
Lemma mulsub_le t z x y : le (emulsub t z x y) (Ok (conv t (z - x * y))).
Proof.
  destruct (fits_dec t (x * y)) as [F|F]; [destruct (fits_dec t (z - x * y)) as [F2|F2]; [right; now apply mulsub_ok|]|left; unfold emulsub; now rewrite arith_misfit].
  destruct (sgn (promote t)) eqn:S; [|right; apply mulsub_ok; [exact F|unfold fits; rewrite wide_promote; congruence]]. left. unfold emulsub.
  unfold fits in F. rewrite wide_promote in F. rewrite (arith_ok _ _ (F S)). cbn [bind]. now rewrite arith_misfit.
Qed.
Lemma inormalise_le t m i r : le (inormalise t m i r) (normalise (Tops t) m i r).
Proof.
  apply le_bind; [|intros; apply le_refl]. apply le_loop. intros k s. cbn zeta. apply le_bind; [apply le_refl|]. intros x. apply le_bind; [apply le_refl|]. intros y.
  destruct (ediv_le t x y) as [-> | ->]; [now left|now right].
Qed.
Lemma ieliminate_row_le t i r j m : le (ieliminate_row t i r j m) (eliminate_row (Tops t) i r j m).
Proof.
  apply le_bind; [|intros; apply le_refl]. apply le_loop. intros k s. cbn zeta. apply le_bind; [apply le_refl|]. intros x. apply le_bind; [apply le_refl|]. intros y. apply le_bind; [apply le_refl|]. intros z.
  destruct (mulsub_le t x y z) as [-> | ->]; [now left|now right].
Qed.
Lemma ieliminate_le t m i r : le (ieliminate t m i r) (eliminate (Tops t) m i r).
Proof. apply le_loop. intros. apply ieliminate_row_le. Qed.
Lemma pivot_same t fuel m i r nz : find_pivot Eops fuel m i r nz = find_pivot (Tops t) fuel m i r nz.
Proof. reflexivity. Qed.
Lemma ireduce_loop_le t : forall k i r m, le (ireduce_loop t k i r m) (reduce_loop (Tops t) k i r m).
Proof.
  induction k as [|k IH]; intros i r m; [now right|]. cbn [ireduce_loop reduce_loop]. apply le_bind; [rewrite (pivot_same t); apply le_refl|]. intros [[nz r'] m']. destruct nz as [j|]; [|now right]. destruct (j <? 0); [now right|].
  apply le_bind; [apply inormalise_le|]. intros m1. apply le_bind; [apply ieliminate_le|]. intros m2. apply IH.
Qed.
Lemma ireduce_le t m : le (ireduce t m) (reduce (Tops t) m).
Proof. apply ireduce_loop_le. Qed.

(** int and long: the operations never convert, so the steps are those with unbounded integers *)
Lemma ireduce_checked t m : checked t -> le (ireduce t m) (reduce Iops m).
Proof.
  intros (S & B). assert (P : promote t = t) by (apply promote_wide; exact B).
  assert (DV : forall x y, le (ediv t x y) (Ok (Z.quot x y))).
  { intros x y. destruct (ediv t x y) as [v| | |] eqn:E; [right|exfalso|now left|exfalso]; unfold ediv, adiv, arith in E; destruct (y =? 0); try discriminate E; rewrite P, S in E; destruct (has t (Z.quot x y)) eqn:H; try discriminate E.
    cbn [bind] in E. injection E as <-. f_equal. apply conv_id. now apply has_iff. }
  assert (MS : forall z x y, le (emulsub t z x y) (Ok (z - x * y))).
  { intros z x y. destruct (mulsub_le t z x y) as [E|E]; [now left|]. right. unfold emulsub, arith in E |- *. rewrite P, S in *. destruct (has t (x * y)); [|discriminate E]. cbn [bind] in *. destruct (has t (z - x * y)) eqn:H; [|discriminate E]. cbn [bind] in *. f_equal. apply conv_id. now apply has_iff. }
  unfold ireduce, reduce. generalize (Z.to_nat (row m)) as kk. generalize 0 at 1 3 as i. generalize 0 as r. revert m.
  intros m r i kk; revert i r m; induction kk as [|k IH]; intros i r m; [now right|]. cbn [ireduce_loop reduce_loop]. apply le_bind; [apply le_refl|]. intros [[nz r'] m']. destruct nz as [j|]; [|now right]. destruct (j <? 0); [now right|].
  apply le_bind; [|intros m1; apply le_bind; [|intros m2; apply IH]].
  - apply le_bind; [|intros; apply le_refl]. apply le_loop. intros q s. cbn zeta. apply le_bind; [apply le_refl|]. intros x. apply le_bind; [apply le_refl|]. intros y. destruct (DV x y) as [-> | ->]; [now left|now right].
  - apply le_loop. intros q s. apply le_bind; [|intros; apply le_refl]. apply le_loop. intros q' s'. cbn zeta. apply le_bind; [apply le_refl|]. intros x. apply le_bind; [apply le_refl|]. intros y. apply le_bind; [apply le_refl|]. intros z.
    destruct (MS x y z) as [-> | ->]; [now left|now right].
Qed.

(** the other types, except unsigned short: never undefined *)
Lemma quot_fits t x y : carefree t -> inty t x -> inty t y -> y <> 0 -> fits t (Z.quot x y).
Proof.
  intros C Ix Iy Hy. unfold fits. rewrite wide_promote. destruct (carefree_cases t C) as [S|G]; [rewrite S; discriminate|]. intros _.
  assert (B : - 32768 <= x <= 32767) by (destruct G as [->|[->| ->]]; unfold inty in Ix; cbn in Ix; lia).
  pose proof (NumProofs.quot_bound x y Hy). assert (E : promote t = i32) by (destruct G as [->|[->| ->]]; reflexivity). rewrite E. unfold inty. cbn. lia.
Qed.
Section Defined.
Context (t : ty) (Ct : carefree t) (n c : Z).
Lemma inormalise_def m i r : shape m n c -> tent t m n c -> 0 <= i < n -> 0 <= r < c -> ent m i r <> 0 -> exists m', inormalise t m i r = Ok m' /\ shape m' n c /\ tent t m' n c.
Proof.
  intros Sm Tm Hi Hr Hp. destruct (shape_nonneg _ _ _ Sm) as (H0 & H1 & R & C). unfold inormalise. rewrite C.
  destruct (for_loop_inv (fun k (x : mat Z) => shape x n c /\ tent t x n c /\ ent x i r = ent m i r)
    (fun k m => x <- mget m i (col m - 1 - k) ;; y <- mget m i r ;; v <- ediv t x y ;; mset m i (col m - 1 - k) v) (Z.to_nat (c - 1 - r)) 0 m) as (m1 & E1 & S1 & T1 & _).
  - auto.
  - intros k x Hk (Sx & Tx & Ex). destruct (shape_nonneg _ _ _ Sx) as (_ & _ & _ & Cx). rewrite Cx. rewrite (mget_shape Eops x n c i (c - 1 - k) Sx Hi) by lia. rewrite (mget_shape Eops x n c i r Sx Hi Hr). cbn [bind].
    rewrite ediv_ok; [|rewrite Ex; exact Hp|apply quot_fits; [exact Ct|apply Tx; lia|apply Tx; lia|rewrite Ex; exact Hp]]. cbn [bind].
    destruct (mset_shape Eops x n c i (c - 1 - k) (conv t (Z.quot (ent x i (c - 1 - k)) (ent x i r))) Sx Hi ltac:(lia)) as (x' & E' & S' & H'). exists x'. split; [exact E'|]. split; [exact S'|]. split.
    + intros p q Hp' Hq. rewrite H' by lia. destruct ((p =? i) && (q =? c - 1 - k)); [apply conv_inty|apply Tx; lia].
    + rewrite H' by lia. replace (r =? c - 1 - k) with false by lia. rewrite andb_false_r. exact Ex.
  - rewrite E1. cbn [bind]. destruct (mset_shape Eops m1 n c i r 1 S1 Hi Hr) as (m' & E' & S' & H'). exists m'. split; [exact E'|]. split; [exact S'|]. intros p q Hp' Hq. rewrite H' by lia. destruct ((p =? i) && (q =? r)); [apply inty_small; lia|apply T1; lia].
Qed.
Lemma ieliminate_row_def m i r j : shape m n c -> tent t m n c -> 0 <= i < n -> 0 <= j < n -> 0 <= r < c -> exists m', ieliminate_row t i r j m = Ok m' /\ shape m' n c /\ tent t m' n c.
Proof.
  intros Sm Tm Hi Hj Hr. destruct (shape_nonneg _ _ _ Sm) as (H0 & H1 & R & C). unfold ieliminate_row. rewrite C.
  destruct (for_loop_inv (fun k (x : mat Z) => shape x n c /\ tent t x n c)
    (fun k m => x <- mget m j (col m - 1 - k) ;; y <- mget m i (col m - 1 - k) ;; z <- mget m j r ;; v <- emulsub t x y z ;; mset m j (col m - 1 - k) v) (Z.to_nat (c - 1 - r)) 0 m) as (m1 & E1 & S1 & T1).
  - auto.
  - intros k x Hk (Sx & Tx). destruct (shape_nonneg _ _ _ Sx) as (_ & _ & _ & Cx). rewrite Cx. rewrite (mget_shape Eops x n c j (c - 1 - k) Sx Hj) by lia. rewrite (mget_shape Eops x n c i (c - 1 - k) Sx Hi) by lia. rewrite (mget_shape Eops x n c j r Sx Hj Hr). cbn [bind].
    destruct (carefree_bound t (ent x i (c - 1 - k)) (ent x j r) (ent x j (c - 1 - k)) Ct) as (B1 & _ & B2 & _); [apply Tx; lia|apply Tx; lia|apply Tx; lia|].
    rewrite mulsub_ok by assumption. cbn [bind]. match goal with |- context [mset x j (c - 1 - k) ?v] => destruct (mset_shape Eops x n c j (c - 1 - k) v Sx Hj ltac:(lia)) as (x' & E' & S' & H') end. exists x'. split; [exact E'|]. split; [exact S'|].
    intros p q Hp' Hq. rewrite H' by lia. destruct ((p =? j) && (q =? c - 1 - k)); [apply conv_inty|apply Tx; lia].
  - rewrite E1. cbn [bind]. destruct (mset_shape Eops m1 n c j r 0 S1 Hj Hr) as (m' & E' & S' & H'). exists m'. split; [exact E'|]. split; [exact S'|]. intros p q Hp' Hq. rewrite H' by lia. destruct ((p =? j) && (q =? r)); [apply inty_0|apply T1; lia].
Qed.
Lemma ieliminate_def m i r : shape m n c -> tent t m n c -> 0 <= i < n -> 0 <= r < c -> exists m', ieliminate t m i r = Ok m' /\ shape m' n c /\ tent t m' n c.
Proof.
  intros Sm Tm Hi Hr. destruct (shape_nonneg _ _ _ Sm) as (H0 & H1 & R & C). unfold ieliminate. rewrite R.
  destruct (for_loop_inv (fun k (x : mat Z) => shape x n c /\ tent t x n c) (ieliminate_row t i r) (Z.to_nat (n - (i + 1))) (i + 1) m) as (m1 & E1 & S1 & T1); [auto| |eauto].
  intros k x Hk (Sx & Tx). destruct (ieliminate_row_def x i r k Sx Tx Hi ltac:(lia) Hr) as (x' & E & G). eauto.
Qed.
Lemma ireduce_loop_def : forall k i r ps m, inv_any (Tops t) n c i r ps m -> tent t m n c -> i + Z.of_nat k = n -> exists b, ireduce_loop t k i r m = Ok b /\ tent t b n c.
Proof.
  induction k as [|k IH]; intros i r ps m Hinv Tm Hk; [exists m; split; [reflexivity|exact Tm]|]. cbn [ireduce_loop]. destruct Hinv as (Sm & Hlen & Hr & Hrest) eqn:EI. clear EI. destruct Hrest as (Hinc & Hpiv & Hz).
  assert (Hi : 0 <= i < n) by lia. destruct (shape_nonneg _ _ _ Sm) as (H0 & H1 & R & C).
  assert (Hinv' : inv_any (Tops t) n c i r ps m) by (split; [exact Sm|split; [exact Hlen|split; [exact Hr|split; [exact Hinc|split; [exact Hpiv|exact Hz]]]]]).
  destruct (find_pivot_any (Tops t) n c i m Sm Hi (S (Z.to_nat (c - r))) r None ltac:(lia) ltac:(lia) Hz) as [(nz' & E & K1 & K2 & K3)|(j & r' & m1 & E & Kj & Kr & S1 & K3 & Knz & K1)].
  - rewrite C, (pivot_same t), E. cbn [bind]. rewrite K1 by lia. cbn. exists m. split; [reflexivity|exact Tm].
  - rewrite C, (pivot_same t), E. cbn [bind]. replace (j <? 0) with false by lia.
    assert (Ht : forall p, 0 <= p < n -> 0 <= tau j i p < n) by (intros p Hp; apply tau_range; lia).
    assert (T1 : tent t m1 n c). { intros p q Hp Hq. change (inty t (MatSpec.ent (Tops t) m1 p q)). rewrite K1 by lia. apply (Tm (tau j i p) q); [now apply Ht|exact Hq]. }
    assert (P1 : ent m1 i r' <> 0).
    { change (MatSpec.ent (Tops t) m1 i r' <> 0). rewrite K1 by lia. replace (tau j i i) with j by (unfold tau; rewrite Z.eqb_refl; destruct (Z.eqb_spec i j); lia). intros Z0. apply Knz. unfold is_zero. rewrite Z0. reflexivity. }
    destruct (inormalise_def m1 i r' S1 T1 Hi ltac:(lia) P1) as (m2 & E2 & S2 & T2). rewrite E2. cbn [bind]. destruct (ieliminate_def m2 i r' S2 T2 Hi ltac:(lia)) as (m3 & E3 & S3 & T3). rewrite E3. cbn [bind].
    destruct (inv_step_any (Tops t) eq_refl n c i r ps m Hinv' Hi) as [(X & _)|(j' & r1 & a1 & a2 & a3 & X & _ & Y & W & V)]; rewrite E in X; injection X; [intros; subst; lia|intros -> -> ->].
    assert (a2 = m2) by (pose proof (le_Ok _ _ _ (inormalise_le t a1 i r1) E2); congruence). subst a2.
    assert (a3 = m3) by (pose proof (le_Ok _ _ _ (ieliminate_le t m2 i r1) E3); congruence). subst a3.
    apply (IH (i + 1) r1 (ps ++ [r1]) m3 V T3). lia.
Qed.
Lemma ireduce_def m : shape m n c -> tent t m n c -> 0 < c -> exists b, ireduce t m = Ok b /\ tent t b n c.
Proof.
  intros Sm Tm Hc. destruct (shape_nonneg _ _ _ Sm) as (H0 & H1 & R & C). unfold ireduce. rewrite R. apply (ireduce_loop_def (Z.to_nat n) 0 0 [] m); [|exact Tm|lia].
  unfold inv_any. split; [assumption|]. split; [reflexivity|]. split; [lia|]. split; [cbn; lia|]. split; [cbn; lia|]. intros; lia.
Qed.
End Defined.

Lemma checked_fits t z : checked t -> (fits t z <-> inty t z).
Proof. intros (S & B). unfold fits. rewrite wide_promote, promote_wide by exact B. split; [auto|auto]. Qed.
Lemma checked_safe t f d : checked t -> (safe t f d <-> forall l, (l < d)%nat -> inty t (f (Z.of_nat l)) /\ inty t (upto (S l) f)).
Proof.
  intros C. induction d as [|d IH]; [split; intros H l Hl; lia|].
  assert (P : (forall l, (l < d)%nat -> inty t (f (Z.of_nat l)) /\ inty t (upto (S l) f)) -> conv t (upto d f) = upto d f).
  { intros H. destruct d as [|d']; [apply conv_0|]. apply conv_id. apply (H d'). lia. }
  split.
  - intros H l Hl. assert (H' : safe t f d) by (intros l' Hl'; apply H; lia). destruct (Nat.eq_dec l d) as [->|]; [|apply IH; [exact H'|lia]].
    destruct (H d ltac:(lia)) as (F1 & F2). rewrite !checked_fits in F1, F2 by exact C. split; [exact F1|]. cbn [upto]. rewrite P in F2 by (apply IH; exact H'). exact F2.
  - intros H l Hl. destruct (Nat.eq_dec l d) as [->|]; [|apply IH; [intros l' Hl'; apply H; lia|lia]].
    destruct (H d ltac:(lia)) as (F1 & F2). rewrite !checked_fits by exact C. split; [exact F1|]. cbn [upto] in F2. rewrite P by (intros l' Hl'; apply H; lia). exact F2.
Qed.
Lemma upto_bound k f M : 0 <= M -> (forall l, (l < k)%nat -> - M <= f (Z.of_nat l) <= M) -> - (Z.of_nat k * M) <= upto k f <= Z.of_nat k * M.
Proof. intros HM. induction k as [|k IH]; intros H; [cbn; lia|]. cbn [upto]. specialize (IH ltac:(intros; apply H; lia)). specialize (H k ltac:(lia)). rewrite Nat2Z.inj_succ. nia. Qed.
Lemma carefree_safe t (a b : mat Z) n k c i j : carefree t -> tent t a n k -> tent t b k c -> 0 <= i < n -> 0 <= j < c -> safe t (fun l => ent a i l * ent b l j) (Z.to_nat k).
Proof.
  intros C Ta Tb Hi Hj l Hl. destruct (carefree_bound t (ent a i (Z.of_nat l)) (ent b (Z.of_nat l) j) (conv t (upto l (fun l => ent a i l * ent b l j))) C) as (B1 & B2 & _); [apply Ta; lia|apply Tb; lia|apply conv_inty|]. now split.
Qed.
