(** Property theorems C104 (Matrix with machine integers as entries). *)
From Verif Require Import Base MatModel MatSpec MatProofs MatAnyModel MatAnySpec MatAnyProofs IntTyModel NumSpec IntTySpec IntTyProofs MatIntModel MatIntSpec MatIntProofs MatIntReduceProofs.
Local Open Scope Z_scope.

(** C104: sums and differences. They are defined exactly if every entry's sum fits the type the
    entries are computed in, and then each entry is the sum modulo the size of the entry type *)
Theorem C104_sum : forall t a b n c, shape a n c -> shape b n c ->
  ((forall i j, 0 <= i < n -> 0 <= j < c -> fits t (entry a i j + entry b i j)) ->
     exists r, iadd t a b = Ok r /\ iadd_assign t a b = Ok r /\ shape r n c /\
       forall i j, 0 <= i < n -> 0 <= j < c -> residue t (entry a i j + entry b i j) (entry r i j)) /\
  (forall i j, 0 <= i < n -> 0 <= j < c -> ~ fits t (entry a i j + entry b i j) -> iadd t a b = UB /\ iadd_assign t a b = UB).
Proof.
  intros t a b n c Sa Sb. split.
  - intros H. destruct (zip_ok (eadd t) (fun x y => conv t (x + y)) (fun x y => fits t (x + y)) (eadd_ok t) (eadd_ub t) (fun x y => fits_dec t (x + y)) a b n c Sa Sb H) as (r & E1 & E2 & S & K).
    exists r. split; [exact E1|]. split; [exact E2|]. split; [exact S|]. intros i j Hi Hj. change (entry r i j) with (ent r i j). rewrite K by assumption. apply conv_residue.
  - intros i j Hi Hj N. split; [apply (zip_ub (eadd t) (fun x y => conv t (x + y)) (fun x y => fits t (x + y)) (eadd_ok t) (eadd_ub t) (fun x y => fits_dec t (x + y)) a b n c i j Sa Sb Hi Hj N)|].
    apply (zip_assign_ub (eadd t) (fun x y => conv t (x + y)) (fun x y => fits t (x + y)) (eadd_ok t) (eadd_ub t) (fun x y => fits_dec t (x + y)) a b n c i j Sa Sb Hi Hj N).
Qed.
Print Assumptions C104_sum.
Theorem C104_difference : forall t a b n c, shape a n c -> shape b n c ->
  ((forall i j, 0 <= i < n -> 0 <= j < c -> fits t (entry a i j - entry b i j)) ->
     exists r, isub t a b = Ok r /\ isub_assign t a b = Ok r /\ shape r n c /\
       forall i j, 0 <= i < n -> 0 <= j < c -> residue t (entry a i j - entry b i j) (entry r i j)) /\
  (forall i j, 0 <= i < n -> 0 <= j < c -> ~ fits t (entry a i j - entry b i j) -> isub t a b = UB /\ isub_assign t a b = UB).
Proof.
  intros t a b n c Sa Sb. split.
  - intros H. destruct (zip_ok (esub t) (fun x y => conv t (x - y)) (fun x y => fits t (x - y)) (esub_ok t) (esub_ub t) (fun x y => fits_dec t (x - y)) a b n c Sa Sb H) as (r & E1 & E2 & S & K).
    exists r. split; [exact E1|]. split; [exact E2|]. split; [exact S|]. intros i j Hi Hj. change (entry r i j) with (ent r i j). rewrite K by assumption. apply conv_residue.
  - intros i j Hi Hj N. split; [apply (zip_ub (esub t) (fun x y => conv t (x - y)) (fun x y => fits t (x - y)) (esub_ok t) (esub_ub t) (fun x y => fits_dec t (x - y)) a b n c i j Sa Sb Hi Hj N)|].
    apply (zip_assign_ub (esub t) (fun x y => conv t (x - y)) (fun x y => fits t (x - y)) (esub_ok t) (esub_ub t) (fun x y => fits_dec t (x - y)) a b n c i j Sa Sb Hi Hj N).
Qed.
Print Assumptions C104_difference.
(** products with entries of type int or long: defined exactly if every single product and every
    partial sum (in the order of the columns) is representable; then the result is exact *)
Theorem C104_product : forall t, checked t -> forall a b n k c, shape a n k -> shape b k c ->
  ((forall i j l, 0 <= i < n -> 0 <= j < c -> 0 <= l < k -> inty t (entry a i l * entry b l j) /\ inty t (product a b (Z.to_nat (l + 1)) i j)) ->
     exists r, imul t a b = Ok r /\ shape r n c /\ forall i j, 0 <= i < n -> 0 <= j < c -> entry r i j = product a b (Z.to_nat k) i j) /\
  (forall i j l, 0 <= i < n -> 0 <= j < c -> 0 <= l < k ->
     ~ (inty t (entry a i l * entry b l j) /\ inty t (product a b (Z.to_nat (l + 1)) i j)) -> imul t a b = UB).
Proof.
  intros t C a b n k c Sa Sb. destruct (shape_nonneg a n k Sa) as (N0 & K0 & _ & _). split.
  - intros H. assert (SF : forall i j, 0 <= i < n -> 0 <= j < c -> forall l, (l < Z.to_nat k)%nat -> inty t (ent a i (Z.of_nat l) * ent b (Z.of_nat l) j) /\ inty t (upto (S l) (fun l => ent a i l * ent b l j))).
    { intros i j Hi Hj l Hl. destruct (H i j (Z.of_nat l) Hi Hj ltac:(lia)) as (H1 & H2). split; [exact H1|]. replace (Z.to_nat (Z.of_nat l + 1)) with (S l) in H2 by lia. exact H2. }
    destruct (imul_ok t a b n k c Sa Sb) as (r & E & S & K). { intros i j Hi Hj. apply checked_safe; [exact C|]. now apply SF. }
    exists r. split; [exact E|]. split; [exact S|]. intros i j Hi Hj. change (entry r i j) with (ent r i j). rewrite K by assumption. destruct (Z.to_nat k) as [|d] eqn:ED; [apply conv_0|]. apply conv_id. apply (SF i j Hi Hj d). lia.
  - intros i j l Hi Hj Hl N. destruct (imul_cases t a b n k c Sa Sb) as [(SF & _)|U]; [|exact U]. exfalso. apply N. specialize (SF i j Hi Hj). rewrite checked_safe in SF by exact C. specialize (SF (Z.to_nat l) ltac:(lia)). rewrite !Z2Nat.id in SF by lia.
    replace (Z.to_nat (l + 1)) with (S (Z.to_nat l)) by lia. exact SF.
Qed.
Print Assumptions C104_product.
(** a bound that is enough, whatever the order *)
Theorem C104_product_bound : forall t, checked t -> forall a b n k c A B, shape a n k -> shape b k c ->
  (forall i l, 0 <= i < n -> 0 <= l < k -> Z.abs (entry a i l) <= A) -> (forall l j, 0 <= l < k -> 0 <= j < c -> Z.abs (entry b l j) <= B) ->
  k * A * B <= tmax t ->
  exists r, imul t a b = Ok r /\ shape r n c /\ forall i j, 0 <= i < n -> 0 <= j < c -> entry r i j = product a b (Z.to_nat k) i j.
Proof.
  intros t C a b n k c A B Sa Sb HA HB HK. destruct (C104_product t C a b n k c Sa Sb) as (G & _). apply G. intros i j l Hi Hj Hl.
  assert (A0 : 0 <= A) by (specialize (HA i l Hi Hl); lia). assert (B0 : 0 <= B) by (specialize (HB l j Hl Hj); lia).
  assert (P : forall q, 0 <= q < k -> - (A * B) <= entry a i q * entry b q j <= A * B) by (intros q Hq; specialize (HA i q Hi Hq); specialize (HB q j Hq Hj); nia).
  assert (T : forall z, - (k * (A * B)) <= z <= k * (A * B) -> inty t z).
  { intros z Hz. destruct C as (S & _). apply inty_iff. rewrite tmin_eq. rewrite tmax_eq in *. rewrite S in *. lia. }
  split.
  - apply T. specialize (P l Hl). nia.
  - apply T. unfold product. pose proof (upto_bound (Z.to_nat (l + 1)) (fun l => entry a i l * entry b l j) (A * B) ltac:(nia) ltac:(intros q Hq; apply P; lia)) as U. rewrite Z2Nat.id in U by lia. nia.
Qed.
Print Assumptions C104_product_bound.
(** products with entries of the other types except unsigned short are always defined, modulo the
    size of the entry type *)
Theorem C104_product_wraps : forall t, carefree t -> forall a b n k c, shape a n k -> shape b k c -> typed t a -> typed t b ->
  exists r, imul t a b = Ok r /\ shape r n c /\ forall i j, 0 <= i < n -> 0 <= j < c -> residue t (product a b (Z.to_nat k) i j) (entry r i j).
Proof.
  intros t C a b n k c Sa Sb Ta Tb. rewrite (typed_tent t a n k Sa) in Ta. rewrite (typed_tent t b k c Sb) in Tb. destruct (imul_ok t a b n k c Sa Sb) as (r & E & S & K); [intros i j Hi Hj; exact (carefree_safe t a b n k c i j C Ta Tb Hi Hj)|].
  exists r. split; [exact E|]. split; [exact S|]. intros i j Hi Hj. change (entry r i j) with (ent r i j). rewrite K by assumption. apply conv_residue.
Qed.
Print Assumptions C104_product_wraps.
(** every type: whatever product is defined is the product modulo the size of the type; a product
    of matching sizes is defined or undefined behaviour, never an exception *)
Theorem C104_product_any : forall t a b n k c, shape a n k -> shape b k c ->
  imul t a b = UB \/ exists r, imul t a b = Ok r /\ shape r n c /\ forall i j, 0 <= i < n -> 0 <= j < c -> residue t (product a b (Z.to_nat k) i j) (entry r i j).
Proof.
  intros t a b n k c Sa Sb. destruct (imul_cases t a b n k c Sa Sb) as [(_ & r & E & S & K)|U]; [right|now left].
  exists r. split; [exact E|]. split; [exact S|]. intros i j Hi Hj. change (entry r i j) with (ent r i j). rewrite K by assumption. apply conv_residue.
Qed.
Print Assumptions C104_product_any.
(** the wrong sizes are an exception, nothing is computed *)
Theorem C104_sizes : forall t a b n k k' c, shape a n k -> shape b k' c ->
  (k <> k' -> imul t a b = Err) /\ (n <> k' \/ k <> c -> iadd t a b = Err /\ isub t a b = Err /\ iadd_assign t a b = Err /\ isub_assign t a b = Err).
Proof.
  intros t a b n k k' c Sa Sb. destruct (shape_nonneg _ _ _ Sa) as (_ & _ & Ra & Ca). destruct (shape_nonneg _ _ _ Sb) as (_ & _ & Rb & Cb). split.
  - intros N. unfold imul. rewrite Ca, Rb. destruct (Z.eqb_spec k k'); [contradiction|reflexivity].
  - intros N. unfold iadd, isub, iadd_assign, isub_assign, izip_op, izip_assign. rewrite Ra, Rb, Ca, Cb. destruct (Z.eqb_spec n k'); destruct (Z.eqb_spec k c); cbn [andb negb]; repeat split; lia.
Qed.
Print Assumptions C104_sizes.
(** the laws of matrix algebra hold for every entry type among results that are defined *)
Theorem C104_associative : forall t a b d n k c e ab bd x y, shape a n k -> shape b k c -> shape d c e ->
  imul t a b = Ok ab -> imul t ab d = Ok x -> imul t b d = Ok bd -> imul t a bd = Ok y -> x = y.
Proof. exact assoc. Qed.
Print Assumptions C104_associative.
Theorem C104_distributive : forall t a b d n k c bd ab ad x y, shape a n k -> shape b k c -> shape d k c ->
  iadd t b d = Ok bd -> imul t a bd = Ok x -> imul t a b = Ok ab -> imul t a d = Ok ad -> iadd t ab ad = Ok y -> x = y.
Proof. exact distr. Qed.
Print Assumptions C104_distributive.
(** but one side may be defined while the other is not *)
Theorem C104_associative_refuted : ~ forall t a b d n k c e ab x, shape a n k -> shape b k c -> shape d c e -> imul t a b = Ok ab -> imul t ab d = Ok x ->
  exists bd, imul t b d = Ok bd /\ imul t a bd = Ok x.
Proof.
  intros H. destruct (H i32 (Mat 1 1 [[0]] true) (Mat 1 1 [[65536]] true) (Mat 1 1 [[65536]] true) 1 1 1 1 (Mat 1 1 [[0]] true) (Mat 1 1 [[0]] true)) as (bd & E & _);
    [repeat split; try lia; repeat constructor|repeat split; try lia; repeat constructor|repeat split; try lia; repeat constructor|vm_compute; reflexivity|vm_compute; reflexivity|]. vm_compute in E. discriminate.
Qed.
Print Assumptions C104_associative_refuted.
(** a product whose exact value is representable may be undefined; with unsigned short the
    product of two entries overflows int *)
Theorem C104_representable_refuted :
  ~ (forall a b n k c, shape a n k -> shape b k c -> (forall i j, 0 <= i < n -> 0 <= j < c -> inty i32 (product a b (Z.to_nat k) i j)) -> imul i32 a b <> UB) /\
  ~ (forall a b n k c, shape a n k -> shape b k c -> typed u16 a -> typed u16 b -> imul u16 a b <> UB).
Proof.
  split; intros H.
  - apply (H (Mat 1 2 [[65536; 65536]] true) (Mat 2 1 [[65536]; [-65536]] true) 1 2 1); [repeat split; try lia; repeat constructor|repeat split; try lia; repeat constructor| |vm_compute; reflexivity].
    intros i j Hi Hj. assert (i = 0) as -> by lia. assert (j = 0) as -> by lia. vm_compute. split; congruence.
  - apply (H (Mat 1 1 [[65535]] true) (Mat 1 1 [[65535]] true) 1 1 1); [repeat split; try lia; repeat constructor|repeat split; try lia; repeat constructor| | |vm_compute; reflexivity]; repeat constructor; vm_compute; congruence.
Qed.
Print Assumptions C104_representable_refuted.
(** reduce: whatever the entry type, it is undefined behaviour or ends in row echelon form with
    ones as pivots; with int and long the result is the one with unbounded integers; with the
    other types except unsigned short it is always defined *)
Theorem C104_reduce : forall t m n c, shape m n c -> 0 < c ->
  (ireduce t m = UB \/ exists b ps, ireduce t m = Ok b /\ shape b n c /\ echelon_any Iops b ps) /\
  (checked t -> ireduce t m = UB \/ ireduce t m = reduce Iops m) /\
  (carefree t -> typed t m -> exists b ps, ireduce t m = Ok b /\ shape b n c /\ typed t b /\ echelon_any Iops b ps).
Proof.
  intros t m n c Sm Hc. destruct (reduce_any (Tops t) eq_refl m n c Sm Hc) as (b & ps & E & S & X). split; [|split].
  - destruct (ireduce_le t m) as [U|U]; [now left|right]. exists b, ps. rewrite U. split; [exact E|]. split; [exact S|exact X].
  - intros C. exact (ireduce_checked t m C).
  - intros C T. rewrite (typed_tent t m n c Sm) in T. destruct (ireduce_def t C n c m Sm T Hc) as (b' & E' & T'). pose proof (le_Ok _ _ _ (ireduce_le t m) E') as E2. rewrite E in E2. injection E2 as ->.
    exists b', ps. split; [exact E'|]. split; [exact S|]. split; [now apply (typed_tent t b' n c S)|exact X].
Qed.
Print Assumptions C104_reduce.
(** with int it may overflow although the matrix and its reduced form are small *)
Theorem C104_reduce_refuted : ~ forall m n c, shape m n c -> 0 < c -> typed i32 m -> ireduce i32 m <> UB.
Proof.
  intros H. apply (H (Mat 2 2 [[1; 65536]; [65536; 1]] true) 2 2); [repeat split; try lia; repeat constructor|lia|repeat constructor; vm_compute; congruence|vm_compute; reflexivity].
Qed.
Print Assumptions C104_reduce_refuted.
Example C104_example :
  let a := Mat 2 2 [[100; 27]; [-128; 5]] true in let b := Mat 2 2 [[2; 3]; [4; 1]] true in
  shape a 2 2 /\ shape b 2 2 /\ carefree (Ty true W8) /\ checked i32 /\ typed (Ty true W8) a /\ typed (Ty true W8) b /\
  omap cells (imul (Ty true W8) a b) = Ok [[52; 71]; [20; -123]] /\
  omap cells (imul i32 a b) = Ok [[308; 327]; [-236; -379]] /\
  omap cells (iadd (Ty true W8) a a) = Ok [[-56; 54]; [0; 10]] /\
  omap cells (isub u32 b a) = Ok [[4294967198; 4294967272]; [132; 4294967292]] /\
  omap cells (ireduce i32 a) = Ok [[1; 0]; [0; 1]] /\
  omap cells (ireduce u32 b) = Ok [[1; 1]; [0; 1]] /\
  fits i32 (100 + 2) /\ ~ fits i32 (2147483647 + 1) /\ 2 * 128 * 4 <= tmax i32.
Proof.
  cbn zeta. assert (S2 : forall x y z w : Z, shape (Mat 2 2 [[x; y]; [z; w]] true) 2 2) by (intros; repeat split; try lia; repeat constructor).
  split; [apply S2|]. split; [apply S2|]. split; [split; [intros (_ & X); vm_compute in X; congruence|discriminate]|]. split; [split; [reflexivity|vm_compute; congruence]|].
  split; [repeat constructor; vm_compute; congruence|]. split; [repeat constructor; vm_compute; congruence|].
  repeat (split; [vm_compute; reflexivity|]). split; [intros _; vm_compute; split; congruence|]. split; [intros X; specialize (X eq_refl); vm_compute in X; destruct X as (_ & X); congruence|vm_compute; congruence].
Qed.
