(** C136: sum of float, double and long double, mean of float. *)
From Coq Require Import Reals Lra Lia Floats.SpecFloat.
From Flocq Require Import Core IEEE754.BinarySingleNaN.
From Verif Require Import Base Float FloatProofs StatModel FloatSumModel FloatSumSpec FloatSumProofs.
Local Open Scope Z_scope.

(** which elements are added: the first [size] of an array (none if [size] is not positive), after
    the function if there is one *)
Theorem C136_elements {A} t (fn : A -> spec_float) (arr : list spec_float) (as_ : list A) size :
  (size <= Z.of_nat (length arr) -> fsum t arr size = Ok (fsum_all t (firstn (Z.to_nat size) arr))) /\
  (Z.of_nat (length arr) < size -> fsum t arr size = UB) /\
  fsum_all_fn t fn as_ = fsum_all t (map fn as_) /\
  fsum_fn t fn as_ size = fsum t (map fn as_) size /\
  fsum_all t [] = S754_zero false.
Proof.
  assert (M : forall l, fsum_all_fn t fn l = fsum_all t (map fn l)).
  { intros l. unfold fsum_all_fn, fsum_all. generalize (fof t 0). induction l as [|x l IH]; intros s; [reflexivity|]. apply IH. }
  unfold fsum, fsum_fn, elements. rewrite map_length. repeat split.
  - intros H. destruct (Z.ltb_spec (Z.of_nat (length arr)) size); [lia|reflexivity].
  - intros H. destruct (Z.ltb_spec (Z.of_nat (length arr)) size); [reflexivity|lia].
  - apply M.
  - destruct (Z.ltb_spec (Z.of_nat (length as_)) size); [reflexivity|]. cbn [bind]. now rewrite M, firstn_map.
Qed.

(** a finite result is within the bound of n - 1 roundings, whatever the elements *)
Theorem C136_accurate t l : Forall (number t) l -> is_finite_SF (fsum_all t l) = true ->
  (Rabs (fval (fsum_all t l) - Rsum (map fval l)) <= ((1 + unit_of t) ^ Nat.pred (length l) - 1) * Rsum (map (fun x => Rabs (fval x)) l))%R.
Proof. exact (fsum_accurate t l). Qed.

(** whole numbers whose partial sums stay within 2^24 (2^53, 2^64) are added exactly *)
Theorem C136_whole t l zs : Forall2 (fun x z => number t x /\ fval x = IZR z) l zs ->
  (forall k, Z.abs (Zsum (firstn k zs)) <= 2 ^ digits t) ->
  number t (fsum_all t l) /\ fval (fsum_all t l) = IZR (Zsum zs).
Proof.
  intros R H. destruct (fof_int t 0) as [N V]; [destruct t; cbn; lia|]. exact (fold_int t l zs R (fof t 0) 0 N V H).
Qed.

(** beyond that a sum stands still: n ones give min(n, 2^24) (2^53, 2^64) *)
Theorem C136_ones_refuted t n : fval (fsum_all t (repeat (fof t 1) n)) = IZR (Z.min (Z.of_nat n) (2 ^ digits t)).
Proof. exact (proj1 (ones t n)). Qed.

(** mean of floats: the sum (in float) divided by the size and rounded to double once *)
Theorem C136_mean arr size : 0 < size <= 2147483647 -> size <= Z.of_nat (length arr) ->
  Forall (number FFloat) arr -> is_finite_SF (fsum_all FFloat (firstn (Z.to_nat size) arr)) = true ->
  exists m, fmean arr size = Ok m /\ dfinite m = true /\
    real m = rnd (fval (fsum_all FFloat (firstn (Z.to_nat size) arr)) / IZR size).
Proof.
  intros H L N F. unfold fmean. rewrite (proj1 (C136_elements FFloat (fun x => x) arr arr size) L). cbn [bind]. eexists. split; [reflexivity|].
  apply fmean_value; [|lia]. apply fsum_number; [|exact F]. now apply Forall_firstn'.
Qed.

(** the same of a container with at most 2^53 elements *)
Theorem C136_mean_all l : l <> [] -> Z.of_nat (length l) <= 2 ^ 53 ->
  Forall (number FFloat) l -> is_finite_SF (fsum_all FFloat l) = true ->
  dfinite (fmean_all l) = true /\ real (fmean_all l) = rnd (fval (fsum_all FFloat l) / IZR (Z.of_nat (length l))).
Proof.
  intros E L N F. apply fmean_value; [now apply fsum_number|]. destruct l; [contradiction|]. cbn [length] in *. lia.
Qed.

(** so the mean of equal numbers need not be that number: 2^25 ones have mean 1/2 *)
Theorem C136_mean_refuted : exists m, fmean (repeat (fof FFloat 1) (Z.to_nat (2 ^ 25))) (2 ^ 25) = Ok m /\ real m = (/ 2)%R.
Proof.
  assert (G : forall n z, Z.of_nat n = z -> 2 ^ prec FFloat <= z ->
    fmean (repeat (fof FFloat 1) n) z = Ok (ddiv (widen (fof FFloat (2 ^ prec FFloat))) (dof z))).
  { intros n z <- L. unfold fmean, fsum, elements. rewrite repeat_length, Z.ltb_irrefl, Nat2Z.id. cbn [bind].
    rewrite firstn_all2 by (rewrite repeat_length; apply Nat.le_refl). now rewrite (proj2 (ones FFloat n) L). }
  eexists. split; [apply G; [apply Z2Nat.id; discriminate|discriminate]|].
  replace (ddiv (widen (fof FFloat (2 ^ prec FFloat))) (dof (2 ^ 25))) with (S754_finite false 4503599627370496 (-53)) by (now vm_compute).
  unfold real, SF2R, F2R. cbn [Fnum Fexp cond_Zopp]. change (bpow radix2 (-53)) with (/ 9007199254740992)%R. lra.
Qed.

(** and a sum depends on the order of the elements *)
Theorem C136_order_refuted t :
  fval (fsum_all t [fof t (2 ^ digits t); fof t 1; fof t (- 2 ^ digits t)]) = 0%R /\
  fval (fsum_all t [fof t (2 ^ digits t); fof t (- 2 ^ digits t); fof t 1]) = 1%R.
Proof.
  split.
  - replace (fsum_all t _) with (S754_zero false) by (destruct t; now vm_compute). reflexivity.
  - replace (fsum_all t _) with (fof t 1) by (destruct t; now vm_compute). apply (fof_int t 1). destruct t; cbn; lia.
Qed.

(** in float: 0.1 + 0.2 + 0.3 is rounded once and off by 2^-27; 3, 4, 5 are added exactly and have mean 4 *)
Example C136_example :
  let tenth := S754_finite false 13421773 (-27) in let fifth := S754_finite false 13421773 (-26) in let three := S754_finite false 10066330 (-25) in
  Forall (number FFloat) [tenth; fifth; three] /\ is_finite_SF (fsum_all FFloat [tenth; fifth; three]) = true /\
  fsum_all FFloat [tenth; fifth; three] = S754_finite false 10066330 (-24) /\
  fsum FFloat [fof FFloat 3; fof FFloat 4; fof FFloat 5; fof FFloat 9] 3 = Ok (fof FFloat 12) /\
  fmean [fof FFloat 3; fof FFloat 4; fof FFloat 5; fof FFloat 9] 3 = Ok (dof 4) /\
  fmean_all [fof FFloat 3; fof FFloat 4] = dmake 7 (-1) /\
  fsum_fn FFloat (fof FFloat) [3; 4] 2 = Ok (fof FFloat 7) /\
  fsum_all FFloat [S754_finite false 16777215 104; S754_finite false 16777215 104] = S754_infinity false.
Proof. repeat split; try (now vm_compute). repeat constructor. Qed.

Print Assumptions C136_elements.
Print Assumptions C136_accurate.
Print Assumptions C136_whole.
Print Assumptions C136_ones_refuted.
Print Assumptions C136_mean.
Print Assumptions C136_mean_all.
Print Assumptions C136_mean_refuted.
Print Assumptions C136_order_refuted.
Print Assumptions C136_example.
