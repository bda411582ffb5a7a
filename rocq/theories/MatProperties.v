(** Properties of Matrix (C31-C33). *)
From Coq Require Import QArith Qcanon Ring_theory Field_theory.
From Verif Require Import Base MatModel MatSpec MatProofs MatReduceProofs.
Local Open Scope Z_scope.

(** integer and rational instances used in the examples *)
Definition Zops : ops Z := Ops Z 0 1 Z.add Z.sub Z.mul Z.div Z.eqb.
Definition Qcops : ops Qc := Ops Qc 0%Qc 1%Qc Qcplus Qcminus Qcmult Qcdiv Qc_eq_bool.
Lemma Zops_ring : is_ring Zops Z.opp.
Proof. exact Zth. Qed.
Lemma Qcops_field : is_field Qcops Qcopp Qcinv.
Proof. exact Qcft. Qed.
Lemma Qcops_eq : eq_test Qcops.
Proof. intros x y. cbn. split; [apply Qc_eq_bool_correct|]. intros ->. unfold Qc_eq_bool. destruct (Qc_eq_dec y y); [reflexivity|congruence]. Qed.
Definition zmat (l : list (list Z)) (c : Z) : mat Z := Mat (Z.of_nat (length l)) c l true.
Lemma zmat_shape l c : 0 <= c -> forallb (fun r => Nat.eqb (length r) (Z.to_nat c)) l = true ->
  shape (zmat l c) (Z.of_nat (length l)) c.
Proof.
  intros Hc H. unfold shape, zmat. cbn. rewrite Nat2Z.id. repeat split; try lia.
  rewrite forallb_forall in H. apply Forall_forall. intros r Hr. apply Nat.eqb_eq. now apply H.
Qed.

(** C31 *)
(** the results have the textbook entries; ill-shaped operands fail the assertion *)
Theorem C31_matrix_results : forall (A : Type) (o : ops A) (a b : mat A) (n k c k' c' : Z),
  shape a n k -> shape b k' c' ->
  (k = k' ->
     exists r, mul o a b = Ok r /\ shape r n c' /\
       forall i j, 0 <= i < n -> 0 <= j < c' ->
         ent o r i j = sumn o (Z.to_nat k) (fun t => omul o (ent o a i t) (ent o b t j))) /\
  (k <> k' -> mul o a b = Err) /\
  (n = k' -> k = c' ->
     (exists r, add o a b = Ok r /\ add_assign o a b = Ok r /\ shape r n k /\
        forall i j, 0 <= i < n -> 0 <= j < k -> ent o r i j = oadd o (ent o a i j) (ent o b i j)) /\
     (exists r, sub o a b = Ok r /\ sub_assign o a b = Ok r /\ shape r n k /\
        forall i j, 0 <= i < n -> 0 <= j < k -> ent o r i j = osub o (ent o a i j) (ent o b i j))) /\
  (n <> k' \/ k <> c' -> add o a b = Err /\ sub o a b = Err /\ add_assign o a b = Err /\ sub_assign o a b = Err).
Proof.
  intros A o a b n k c k' c' Ha Hb.
  destruct (shape_nonneg _ _ _ Ha) as (_ & _ & Ra & Ca). destruct (shape_nonneg _ _ _ Hb) as (_ & _ & Rb & Cb).
  split; [|split; [|split]].
  - intros <-. now apply mul_spec.
  - intros H. apply mul_err. congruence.
  - intros <- <-. split.
    + destruct (zip_op_spec o (oadd o) a b n k Ha Hb) as (r & E & S & H).
      destruct (zip_assign_spec o (oadd o) a b n k Ha Hb) as (r' & E' & S' & H').
      exists r. split; [exact E|]. split; [|auto]. unfold add_assign. rewrite E'. f_equal.
      apply (mat_ext o r' r n k S' S). intros i j Hi Hj. now rewrite H, H'.
    + destruct (zip_op_spec o (osub o) a b n k Ha Hb) as (r & E & S & H).
      destruct (zip_assign_spec o (osub o) a b n k Ha Hb) as (r' & E' & S' & H').
      exists r. split; [exact E|]. split; [|auto]. unfold sub_assign. rewrite E'. f_equal.
      apply (mat_ext o r' r n k S' S). intros i j Hi Hj. now rewrite H, H'.
  - intros H. rewrite <- Ra, <- Rb, <- Ca, <- Cb in H.
    destruct (zip_op_err o (oadd o) a b H). destruct (zip_op_err o (osub o) a b H). auto.
Qed.

(** ring laws, for every shape *)
Theorem C31_matrix_algebra : forall (A : Type) (o : ops A) (opp : A -> A), is_ring o opp ->
  (forall a b n c, shape a n c -> shape b n c -> add o a b = add o b a) /\
  (forall a b d n c, shape a n c -> shape b n c -> shape d n c ->
     exists r, (x <- add o a b ;; add o x d) = Ok r /\ (x <- add o b d ;; add o a x) = Ok r /\ shape r n c) /\
  (forall a b n c, shape a n c -> shape b n c -> exists x, sub o a b = Ok x /\ add o x b = Ok a) /\
  (forall a b d n k l c, shape a n k -> shape b k l -> shape d l c ->
     exists r, (x <- mul o a b ;; mul o x d) = Ok r /\ (x <- mul o b d ;; mul o a x) = Ok r /\ shape r n c) /\
  (forall a b d n k c, shape a n k -> shape b k c -> shape d k c ->
     exists r, (x <- add o b d ;; mul o a x) = Ok r /\ (x <- mul o a b ;; y <- mul o a d ;; add o x y) = Ok r) /\
  (forall a b d n k c, shape a k c -> shape b n k -> shape d n k ->
     exists r, (x <- add o b d ;; mul o x a) = Ok r /\ (x <- mul o b a ;; y <- mul o d a ;; add o x y) = Ok r) /\
  (forall a n c, shape a n c -> (x <- idMat o n ;; mul o x a) = Ok a /\ (x <- idMat o c ;; mul o a x) = Ok a).
Proof.
  intros A o opp R. split; [|split; [|split; [|split; [|split; [|split]]]]].
  - intros; eapply add_comm; eassumption.
  - intros; eapply add_assoc; eassumption.
  - intros; eapply sub_add; eassumption.
  - intros; eapply mul_assoc; eassumption.
  - intros; eapply mul_distr_l; eassumption.
  - intros; eapply mul_distr_r; eassumption.
  - intros; eapply mul_id; eassumption.
Qed.
(** comparison, copying and construction from rows *)
Theorem C31_matrix_compare_build : forall (A : Type) (o : ops A),
  (eq_test o -> forall a b n c n' c', shape a n c -> shape b n' c' ->
     exists r, eqm o a b = Ok r /\ (r = true <-> a = b)) /\
  (forall a n c, shape a n c -> deepCopy o a = Ok a) /\
  (forall f ini, ini <> [] -> Forall (fun r => (length (hd [] ini) <= length r)%nat) ini ->
     exists m, of_lists o f ini = Ok m /\ shape m (Z.of_nat (length ini)) (Z.of_nat (length (hd [] ini))) /\
       forall i j, 0 <= i < Z.of_nat (length ini) -> 0 <= j < Z.of_nat (length (hd [] ini)) ->
         ent o m i j = f (nth (Z.to_nat j) (nth (Z.to_nat i) ini []) 0)) /\
  (forall f, of_lists o f [] = UB).
Proof.
  intros A o. split; [|split; [|split]].
  - intros Heq a b n c n' c' Ha Hb. eapply eqm_spec; eassumption.
  - apply deepCopy_id.
  - intros f ini Hne Hf. apply of_lists_spec; [assumption| |reflexivity]. rewrite Nat2Z.id. assumption.
  - apply of_lists_nil.
Qed.
(** assignment copies the entries and leaves the matrix alone on self-assignment *)
Theorem C31_matrix_assign : forall (A : Type) (o : ops A) a b n c n' c', shape a n c -> shape b n' c' ->
  assign o false a b = Ok b /\ assign o true a a = Ok a.
Proof.
  intros A o a b n c n' c' Ha Hb. split; [|reflexivity]. unfold assign, clear.
  assert (live a = true) as -> by apply Ha. cbn [bind]. eapply deepCopy_id; eassumption.
Qed.
Print Assumptions C31_matrix_assign.
Example C31_example :
  shape (zmat [[1;2;3];[4;5;6]] 3) 2 3 /\ shape (zmat [[1;0];[0;-1];[2;7]] 2) 3 2 /\
  omap (@cells Z) (mul Zops (zmat [[1;2;3];[4;5;6]] 3) (zmat [[1;0];[0;-1];[2;7]] 2)) = Ok [[7;19];[16;37]] /\
  mul Zops (zmat [[1;2]] 2) (zmat [[1;2]] 2) = Err.
Proof. split; [now apply (zmat_shape [[1;2;3];[4;5;6]])|]. split; [now apply (zmat_shape [[1;0];[0;-1];[2;7]])|]. now vm_compute. Qed.
(** a ragged initialiser reads past the short row *)
Theorem C31_ragged_refuted : exists ini, ini <> [] /\ of_lists Zops (fun x => x) ini = UB.
Proof. exists [[1;2];[3]]. split; [discriminate|now vm_compute]. Qed.

(** C32 *)
Theorem C32_times_assign : forall (A : Type) (o : ops A) a b n k c, shape a n k -> shape b k c -> mul_assign o a b = UB.
Proof. intros. eapply mul_assign_ub; eassumption. Qed.
Theorem C32_pow : forall (A : Type) (o : ops A) a n, shape a n n ->
  (forall fuel, pow o fuel a 0 = Fuel) /\
  (forall k fuel, (k < fuel)%nat -> pow o fuel a (2 ^ Z.of_nat k) = Ok a) /\
  (forall m fuel, 0 < m -> (forall k, 0 <= k -> m <> 2 ^ k) -> m < 2 ^ Z.of_nat fuel -> pow o fuel a m = UB).
Proof.
  intros A o a n Ha. split; [|split].
  - apply pow_zero.
  - intros k fuel. apply (pow_two_power o a n n k fuel Ha).
  - intros m fuel Hm Hk Hf. now apply (pow_other o a n).
Qed.
(** so pow(A,2) is not A*A *)
Theorem C32_pow_refuted : exists a, shape a 2 2 /\ pow Zops 5 a 2 = Ok a /\ mul Zops a a <> Ok a.
Proof. exists (zmat [[1;1];[0;1]] 2). split; [now apply (zmat_shape [[1;1];[0;1]])|]. split; [now vm_compute|]. vm_compute. discriminate. Qed.
Example C32_example : pow Zops 9 (zmat [[1;1];[0;1]] 2) 8 = Ok (zmat [[1;1];[0;1]] 2) /\
  pow Zops 9 (zmat [[1;1];[0;1]] 2) 3 = UB /\ mul_assign Zops (zmat [[5]] 1) (zmat [[5]] 1) = UB.
Proof. now vm_compute. Qed.

(** C33 *)
Theorem C33_reduce : forall (A : Type) (o : ops A) (opp inv : A -> A), is_field o opp inv -> eq_test o ->
  forall m n c, shape m n c -> 0 < c ->
  exists b ps, reduce o m = Ok b /\ shape b n c /\ echelon o b ps /\ (forall x, solves o b x <-> solves o m x).
Proof. intros A o opp inv F E m n c Hm Hc. now apply (reduce_spec o opp inv F E). Qed.
Theorem C33_reduce_no_columns : forall (A : Type) (o : ops A) m n, shape m n 0 -> 0 < n -> reduce o m = UB.
Proof. intros A o m n Hm Hn. rewrite (reduce_nocol o m n Hm). destruct (Z.eqb_spec n 0); [lia|reflexivity]. Qed.
Definition qmat (l : list (list Z)) (c : Z) : mat Qc :=
  Mat (Z.of_nat (length l)) c (map (map (fun z => Q2Qc (inject_Z z))) l) true.
Example C33_example :
  shape (qmat [[0;2;4];[1;1;1];[2;2;2]] 3) 3 3 /\
  omap (fun b => map (map this) (cells b)) (reduce Qcops (qmat [[0;2;4];[1;1;1];[2;2;2]] 3))
  = Ok [[1%Q;1%Q;1%Q];[0%Q;1%Q;2%Q];[0%Q;0%Q;0%Q]].
Proof. split; [|now vm_compute]. unfold shape, qmat. cbn. repeat split; try lia. repeat constructor. Qed.

Print Assumptions C31_matrix_results.
Print Assumptions C31_matrix_algebra.
Print Assumptions C31_matrix_compare_build.
Print Assumptions C32_pow.
Print Assumptions C33_reduce.
Print Assumptions C31_ragged_refuted.
Print Assumptions C32_times_assign.
Print Assumptions C32_pow_refuted.
Print Assumptions C33_reduce_no_columns.
