(** Property theorems C83 (statistics in binary64). *)
From Coq Require Import Reals Lra Floats.SpecFloat.
From Flocq Require Import Core.
From Verif Require Import Base Float FloatProofs NumModel NumSpec StatModel StatSpec StatProofs StatMainProofs StatErrProofs.
Local Open Scope Z_scope.

(** C83: variance and standard deviation of an int array ([rest]: elements behind the first [size]) *)
Theorem C83_variance_int :
  forall l rest, l <> [] -> Z.of_nat (length l) <= int32_max ->
    (no_int_overflow l ->
       exists v, variance_of_int (l ++ rest) (Z.of_nat (length l)) = Ok v /\ dfinite v = true /\ (0 <= real v)%R /\
         (real v = 0%R <-> all_equal l) /\
         (zsum (map (fun x => x * x) l) <= 2 ^ 53 ->
            (Rabs (real v - mean_sq_dev (map IZR l)) <= / IZR (2 ^ 50) * rmean (map (fun x => x * x) (map IZR l)))%R)) /\
    (~ no_int_overflow l -> variance_of_int (l ++ rest) (Z.of_nat (length l)) = UB).
Proof.
  intros l rest N L. split; [|apply variance_of_int_bad]. intros NO.
  destruct (variance_of_int_ok l rest (conj N L) NO) as (v & E & V & F & P & Z & A). exists v. repeat (split; [assumption|]).
  intros C. specialize (A C). replace (/ IZR (2 ^ 50))%R with (8 * u)%R; [exact A|]. rewrite u_val. vm_compute Z.pow. lra.
Qed.
Print Assumptions C83_variance_int.
Theorem C83_stddev_int :
  forall l rest, l <> [] -> Z.of_nat (length l) <= int32_max -> no_int_overflow l ->
    exists v s, variance_of_int (l ++ rest) (Z.of_nat (length l)) = Ok v /\ stddev_of_int (l ++ rest) (Z.of_nat (length l)) = Ok s /\
      dfinite s = true /\ (0 <= real s)%R /\ real s = rnd (sqrt (real v)) /\ (real s = 0%R <-> all_equal l).
Proof.
  intros l rest N L NO. destruct (variance_of_int_ok l rest (conj N L) NO) as (v & E & V & F & P & Z & A).
  exists v, (dsqrt v). unfold stddev_of_int. change (len l) with (Z.of_nat (length l)) in E. rewrite E. cbn [bind]. split; [reflexivity|]. split; [reflexivity|].
  destruct (stddev_of_nonneg v V F P) as (F2 & P2 & R2 & Z2). repeat (split; [assumption|]). now rewrite Z2.
Qed.
Print Assumptions C83_stddev_int.
Theorem C83_variance_int_container :
  forall l, l <> [] -> Z.of_nat (length l) <= int32_max -> (forall x, In x l -> in_int32 x = true) ->
    ((forall p q, l = p ++ q -> in_int32 (zsum p) = true) ->
       exists v, variance_of_int_container l = Ok v /\ dfinite v = true /\ (0 <= real v)%R /\ (real v = 0%R <-> all_equal l)) /\
    (~ (forall p q, l = p ++ q -> in_int32 (zsum p) = true) -> variance_of_int_container l = UB).
Proof.
  intros l N L H. split; intros P.
  - destruct (variance_container_ok l (conj N L) H P) as (v & E & V & F & R & Z). exists v. repeat (split; [assumption|]). exact Z.
  - unfold variance_of_int_container. now rewrite sum_int_bad.
Qed.
Print Assumptions C83_variance_int_container.
Theorem C83_mean_int :
  forall l rest lo hi, l <> [] -> Z.of_nat (length l) <= int32_max ->
    (forall p q, l = p ++ q -> in_int32 (zsum p) = true) ->
    (forall x, In x l -> lo <= x <= hi) -> in_int32 lo = true -> in_int32 hi = true ->
    exists m, mean_of_int (l ++ rest) (Z.of_nat (length l)) = Ok m /\ dfinite m = true /\
      (IZR lo <= real m <= IZR hi)%R /\ real m = rnd (rmean (map IZR l)).
Proof. intros l rest lo hi N L. exact (mean_between l rest lo hi (conj N L)). Qed.
Print Assumptions C83_mean_int.
(** without elements: NaN for size 0, a zero (as documented) for a negative size *)
Theorem C83_mean_no_elements :
  forall arr size, in_int32 size = true -> size <= 0 ->
    exists m, mean_of_int arr size = Ok m /\ (size = 0 -> m = dnan) /\ (size < 0 -> dfinite m = true /\ real m = 0%R).
Proof.
  intros arr size I N. unfold mean_of_int, elements. destruct (Z.ltb_spec (Z.of_nat (length arr)) size); [lia|].
  replace (Z.to_nat size) with O by lia. cbn [firstn bind sum_int sum_int_loop]. eexists. split; [reflexivity|]. split; [intros ->; reflexivity|].
  intros M. unfold in_int32, int32_max, int32_min in I. destruct (dof_exact size) as (V & F & R); [lia|].
  destruct (dof size) as [s|s| |s m e]; try discriminate; [|split; reflexivity]. exfalso. change (real (S754_zero s)) with 0%R in R.
  assert (IZR size < 0)%R by now apply IZR_lt. lra.
Qed.
Print Assumptions C83_mean_no_elements.
Theorem C83_variance_double :
  forall l rest, l <> [] -> Z.of_nat (length l) <= int32_max ->
    (exists v, variance_of_double (l ++ rest) (Z.of_nat (length l)) = Ok v /\ dltb v dzero = false) /\
    ((forall x, In x l -> dvalid x = true /\ dfinite x = true /\ (Rabs (real x) <= IZR (2 ^ 490))%R) ->
       exists v s, variance_of_double (l ++ rest) (Z.of_nat (length l)) = Ok v /\ dfinite v = true /\ (0 <= real v)%R /\
         stddev_of_double (l ++ rest) (Z.of_nat (length l)) = Ok s /\ dfinite s = true /\ (0 <= real s)%R).
Proof.
  intros l rest N L. split; [now apply variance_of_double_sign|]. intros H.
  destruct (variance_of_double_ok l rest N L) as (v & E & V & F & P).
  { intros x X. destruct (H x X) as (A & B & C). split; [exact A|]. split; [exact B|]. exact C. }
  destruct (stddev_of_nonneg v V F P) as (F2 & P2 & _). exists v, (dsqrt v). unfold stddev_of_double. rewrite E. auto 10.
Qed.
Print Assumptions C83_variance_double.
(** accuracy: the deviation functions that subtract the mean first *)
Theorem C83_variance_double_accuracy :
  forall l rest, l <> [] -> Z.of_nat (length l) <= int32_max ->
    (forall x, In x l -> dvalid x = true /\ dfinite x = true /\ (Rabs (real x) <= IZR (2 ^ 490))%R) ->
    let e := ((INR (length l) + 1) * / IZR (2 ^ 52) * rmean (map Rabs (map real l)) + / IZR (2 ^ 1075))%R in
    exists m v, mean_of_double (l ++ rest) (Z.of_nat (length l)) = Ok m /\ variance_of_double (l ++ rest) (Z.of_nat (length l)) = Ok v /\
      (Rabs (real m - rmean (map real l)) <= e)%R /\
      (Rabs (real v - mean_sq_dev (map real l)) <= dev_bound (length l) (mean_sq_dev (map real l)) e)%R.
Proof.
  intros l rest N L H e. destruct (mean_of_double_err l rest N L H) as (m & E & _ & B). destruct (variance_of_double_err l rest N L H) as (v & E2 & _ & _ & _ & B2).
  exists m, v. split; [exact E|]. split; [exact E2|]. split; [exact B|]. replace (mean_sq_dev (map real l)) with (devs l / INR (length l))%R; [exact B2|].
  unfold mean_sq_dev. unfold rmean at 1. now rewrite !map_length.
Qed.
Print Assumptions C83_variance_double_accuracy.
Theorem C83_variance_int_container_accuracy :
  forall l, l <> [] -> Z.of_nat (length l) <= int32_max -> (forall x, In x l -> in_int32 x = true) ->
    (forall p q, l = p ++ q -> in_int32 (zsum p) = true) ->
    exists v, variance_of_int_container l = Ok v /\
      (Rabs (real v - mean_sq_dev (map IZR l)) <= dev_bound (length l) (mean_sq_dev (map IZR l)) (/ IZR (2 ^ 53) * Rabs (rmean (map IZR l))))%R.
Proof. intros l N L H P. exact (variance_container_err l (conj N L) H P). Qed.
Print Assumptions C83_variance_int_container_accuracy.
(** sample variance: n - 1 in the denominator; NaN for a single element *)
Theorem C83_sample_variance_int :
  forall l rest, l <> [] -> Z.of_nat (length l) <= int32_max -> (forall x, In x l -> in_int32 x = true) ->
    (forall p q, l = p ++ q -> in_int32 (zsum p) = true) ->
    exists v, sample_variance_of_int (l ++ rest) (Z.of_nat (length l)) = Ok v /\
      (length l = 1%nat -> v = dnan) /\
      ((2 <= length l)%nat -> dfinite v = true /\ (0 <= real v)%R /\
         (Rabs (real v - sample_var (map IZR l)) <= dev_bound (length l) (sample_var (map IZR l)) (/ IZR (2 ^ 53) * Rabs (rmean (map IZR l))))%R).
Proof.
  intros [|x [|y l]] rest N L H P; [congruence| |].
  - exists dnan. split; [exact (sample_one_int x rest (H x (or_introl eq_refl)))|]. split; [reflexivity|]. cbn [length]. lia.
  - destruct (sample_variance_of_int_err (x :: y :: l) rest ltac:(cbn [length]; lia) L H P) as (v & E & _ & F & Q & B). exists v. split; [exact E|]. split; [discriminate|]. intros _. auto.
Qed.
Print Assumptions C83_sample_variance_int.
Theorem C83_sample_variance_double :
  forall l rest, l <> [] -> Z.of_nat (length l) <= int32_max ->
    (forall x, In x l -> dvalid x = true /\ dfinite x = true /\ (Rabs (real x) <= IZR (2 ^ 490))%R) ->
    let e := ((INR (length l) + 1) * / IZR (2 ^ 52) * rmean (map Rabs (map real l)) + / IZR (2 ^ 1075))%R in
    exists v, sample_variance_of_double (l ++ rest) (Z.of_nat (length l)) = Ok v /\
      (length l = 1%nat -> v = dnan) /\
      ((2 <= length l)%nat -> dfinite v = true /\ (0 <= real v)%R /\
         (Rabs (real v - sample_var (map real l)) <= dev_bound (length l) (sample_var (map real l)) e)%R).
Proof.
  intros [|x [|y l]] rest N L H e; [congruence| |].
  - exists dnan. split; [exact (sample_one_double x rest (H x (or_introl eq_refl)))|]. split; [reflexivity|]. cbn [length]. lia.
  - destruct (sample_variance_of_double_err (x :: y :: l) rest ltac:(cbn [length]; lia) L H) as (v & E & _ & F & Q & B). exists v. split; [exact E|]. split; [discriminate|]. intros _.
    split; [exact F|]. split; [exact Q|]. unfold sample_var. rewrite map_length. exact B.
Qed.
Print Assumptions C83_sample_variance_double.
(** for doubles, equal entries need not have variance 0 and the mean may exceed every entry *)
Theorem C83_variance_double_equal_refuted :
  exists x v m, dvalid x = true /\ variance_of_double [x; x; x] 3 = Ok v /\ dltb dzero v = true /\
    mean_of_double [x; x; x] 3 = Ok m /\ dltb x m = true.
Proof. exists (ddiv (dof 1) (dof 10)). eexists _, _. repeat split; vm_compute; reflexivity. Qed.
Print Assumptions C83_variance_double_equal_refuted.
(** the array function and the container function disagree on the same ints *)
Theorem C83_same_result_refuted :
  exists l v w, no_int_overflow l /\ variance_of_int l (Z.of_nat (length l)) = Ok v /\ variance_of_int_container l = Ok w /\ deqb v w = false.
Proof.
  exists [46340; 46340; 46339]. eexists _, _. split; [|split; [vm_compute; reflexivity|split; [vm_compute; reflexivity|vm_compute; reflexivity]]]. split.
  - intros x [<-|[<-|[<-|[]]]]; reflexivity.
  - intros p q E. destruct p as [|a [|b [|c [|d p]]]]; cbn in E; try discriminate; inversion E; subst; reflexivity.
Qed.
Print Assumptions C83_same_result_refuted.
Example C83_example :
  no_int_overflow [1; -2; 4] /\ variance_of_int [1; -2; 4; 77] 3 = Ok (dmake 6 0)
  /\ variance_of_int [7; 7; 7] 3 = Ok dzero /\ mean_of_int [1; 2] 2 = Ok (dmake 3 (-1)) /\ mean_of_int [5] 0 = Ok dnan
  /\ variance_of_double [dof 1; dof 3] 2 = Ok (dof 1) /\ stddev_of_int [2; 4] 2 = Ok (dof 1)
  /\ sample_variance_of_int [1; 3; 9] 2 = Ok (dof 2) /\ sample_variance_of_int [7; 3] 1 = Ok dnan /\ sample_variance_of_double [dof 1; dof 2; dof 6] 3 = Ok (dof 7).
Proof.
  split; [|repeat split; vm_compute; reflexivity]. split.
  - intros x [<-|[<-|[<-|[]]]]; reflexivity.
  - intros p q E. destruct p as [|a [|b [|c [|d p]]]]; cbn in E; try discriminate; inversion E; subst; reflexivity.
Qed.
