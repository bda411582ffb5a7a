(** Property theorems C14-C20 (gcd, lcm, powers, factorial, permutation, binomial,
    statistics). *)
From Coq Require Import QArith.
From Verif Require Import Base NumModel NumSpec NumProofs NumPowProofs NumBinProofs.
Local Open Scope Z_scope.

(** C14 *)
Theorem C14_gcd :
  forall t a b, inr t a = true -> inr t b = true ->
    ~ (a = imin t /\ b = -1) -> ~ (a = -1 /\ b = imin t) ->
    exists g, gcd t a b = Ok g /\ inr t g = true /\ is_gcd g a b /\
      (0 <= a -> 0 <= b -> 0 <= g) /\ (a <= 0 -> b <= 0 -> g <= 0).
Proof. exact gcd_spec. Qed.
Print Assumptions C14_gcd.
(** the magnitude is that of Coq's [Z.gcd] *)
Theorem C14_gcd_magnitude :
  forall t a b g, inr t a = true -> inr t b = true -> gcd t a b = Ok g -> Z.abs g = Z.gcd a b.
Proof.
  intros t a b g Ha Hb E.
  assert (N1 : ~ (a = imin t /\ b = -1)) by (intros [-> ->]; rewrite (proj1 (gcd_ub t)) in E; discriminate).
  assert (N2 : ~ (a = -1 /\ b = imin t)) by (intros [-> ->]; rewrite (proj2 (gcd_ub t)) in E; discriminate).
  destruct (gcd_spec t a b Ha Hb N1 N2) as (g' & E' & _ & HG & _).
  rewrite E in E'. injection E' as <-. now apply is_gcd_abs.
Qed.
Print Assumptions C14_gcd_magnitude.
Theorem C14_gcd_zero :
  forall t a, inr t a = true -> gcd t a 0 = Ok a /\ gcd t 0 a = Ok a.
Proof. exact gcd_0. Qed.
Print Assumptions C14_gcd_zero.
(** the two excluded pairs are undefined behaviour *)
Theorem C14_gcd_overflow : forall t, gcd t (imin t) (-1) = UB /\ gcd t (-1) (imin t) = UB.
Proof. exact gcd_ub. Qed.
Print Assumptions C14_gcd_overflow.
Example C14_example :
  gcd I32 1071 462 = Ok 21 /\ gcd I32 (-12) 18 = Ok 6 /\ gcd I32 12 (-18) = Ok (-6)
  /\ gcd I64 9223372036854775807 (-9223372036854775808) = Ok (-1).
Proof. repeat split; vm_compute; reflexivity. Qed.

(** C15 *)
Theorem C15_lcm :
  forall t a b, inr t a = true -> inr t b = true -> 0 <= a -> 0 <= b ->
    ~ (a = 0 /\ b = 0) -> inr t (a * b) = true ->
    exists m, lcm t a b = Ok m /\ is_lcm m a b.
Proof. exact lcm_spec. Qed.
Print Assumptions C15_lcm.
Theorem C15_lcm_zero_zero : forall t, lcm t 0 0 = UB.
Proof. exact lcm_0_0. Qed.
Print Assumptions C15_lcm_zero_zero.
(** a representable least common multiple is not enough: the product overflows first *)
Theorem C15_lcm_representable_refuted :
  exists a b m, inr I32 a = true /\ inr I32 b = true /\ 0 < a /\ 0 < b /\
    is_lcm m a b /\ inr I32 m = true /\ lcm I32 a b = UB.
Proof.
  exists 65536, 65536, 65536. unfold is_lcm.
  split; [reflexivity|]. split; [reflexivity|]. split; [lia|]. split; [lia|].
  split; [|split; vm_compute; reflexivity].
  split; [lia|]. split; [apply Z.divide_refl|]. split; [apply Z.divide_refl|].
  intros k H _. exact H.
Qed.
Print Assumptions C15_lcm_representable_refuted.
Example C15_example : lcm I32 21 6 = Ok 42 /\ lcm I32 0 5 = Ok 0.
Proof. split; vm_compute; reflexivity. Qed.

(** C16: for [exp >= 0] the call returns exactly on [pow_safe], and then the power. *)
Theorem C16_binaryPow :
  forall base exp, in_int64 base = true -> in_int32 exp = true -> 0 <= exp ->
    (pow_safe base exp -> binaryPow base exp = Ok (base ^ exp)) /\
    (~ pow_safe base exp -> binaryPow base exp = UB).
Proof. exact binaryPow_spec. Qed.
Print Assumptions C16_binaryPow.
Theorem C16_binaryPow_negative : forall base exp, exp < 0 -> binaryPow base exp = Err.
Proof.
  intros base exp H. unfold binaryPow.
  destruct (Z.eqb_spec exp 0); [lia|]. destruct (Z.ltb_spec exp 0); [reflexivity|lia].
Qed.
Print Assumptions C16_binaryPow_negative.
Theorem C16_binaryPow_representable_refuted :
  exists base exp, in_int64 base = true /\ 0 <= exp /\ in_int64 (base ^ exp) = true
    /\ binaryPow base exp = UB.
Proof. exists 3, 39. repeat split; vm_compute; congruence. Qed.
Print Assumptions C16_binaryPow_representable_refuted.
Example C16_example :
  binaryPow 3 31 = Ok 617673396283947 /\ binaryPow (-7) 3 = Ok (-343) /\ binaryPow 2 62 = Ok (2 ^ 62)
  /\ binaryPow 10 18 = UB /\ pow_safe (-7) 3.
Proof.
  repeat split; try (vm_compute; reflexivity).
  unfold pow_safe. right; right; right. split; [lia|]. vm_compute. congruence.
Qed.

(** C17 *)
Theorem C17_genericBinaryPow :
  forall (A : Type) (mul : A -> A -> A), (forall x y z, mul x (mul y z) = mul (mul x y) z) ->
    forall base exp, exp < 2 ^ 63 ->
      genericBinaryPow mul base exp = if exp <=? 0 then Err else Ok (nfold mul base (Z.to_nat exp)).
Proof. exact @genericBinaryPow_spec. Qed.
Print Assumptions C17_genericBinaryPow.
Theorem C17_genericBinaryPow_from_int :
  forall (A : Type) (mul : A -> A -> A), (forall x y z, mul x (mul y z) = mul (mul x y) z) ->
    forall one base exp, exp < 2 ^ 63 ->
      genericBinaryPow1 mul one base exp =
        if exp <? 0 then Err else if exp =? 0 then Ok one else Ok (nfold mul base (Z.to_nat exp)).
Proof. exact @genericBinaryPow1_spec. Qed.
Print Assumptions C17_genericBinaryPow_from_int.
(** a non-commutative instance: list concatenation *)
Example C17_example :
  genericBinaryPow (@app nat) [1; 2]%nat 5 = Ok [1; 2; 1; 2; 1; 2; 1; 2; 1; 2]%nat
  /\ genericBinaryPow1 Z.mul 1 3 13 = Ok 1594323
  /\ (forall x y z : list nat, x ++ (y ++ z) = (x ++ y) ++ z).
Proof. repeat split; try (vm_compute; reflexivity). apply app_assoc. Qed.

(** C18 *)
Theorem C18_factorial :
  forall t n, inr t n = true ->
    (n < 0 -> factorial t n = Err) /\
    (0 <= n -> zfact (Z.to_nat n) <= imax t -> factorial t n = Ok (zfact (Z.to_nat n))) /\
    (0 <= n -> imax t < zfact (Z.to_nat n) -> factorial t n = UB).
Proof.
  intros t n H. rewrite factorial_spec by assumption.
  pose proof (zfact_pos (Z.to_nat n)). destruct (imin_imax t).
  destruct (Z.ltb_spec n 0); repeat split; intros; try lia; try reflexivity.
  - apply chk_ok, inr_iff. lia.
  - apply chk_no. unfold inr. lia.
Qed.
Print Assumptions C18_factorial.
Theorem C18_permutation :
  forall t n r, inr t n = true -> inr t r = true -> 0 <= n -> 1 <= r <= n ->
    exists p, p * zfact (Z.to_nat (n - r)) = zfact (Z.to_nat n) /\
      (p <= imax t -> permutation t n r = Ok p) /\ (imax t < p -> permutation t n r = UB).
Proof.
  intros t n r Hn Hr H1 H2. destruct (permutation_spec t n r Hn Hr H1 H2) as (p & Ep & ->).
  exists p. split; [assumption|].
  assert (0 <= p).
  { pose proof (zfact_pos (Z.to_nat (n - r))). pose proof (zfact_pos (Z.to_nat n)). nia. }
  destruct (imin_imax t). split; intros.
  - apply chk_ok, inr_iff. lia.
  - apply chk_no. unfold inr. lia.
Qed.
Print Assumptions C18_permutation.
Theorem C18_permutation_invalid :
  forall t n r, n < 0 \/ r < 0 \/ n < r -> permutation t n r = Err.
Proof. exact permutation_err. Qed.
Print Assumptions C18_permutation_invalid.
(** nP0 is 1 for every n, but the function returns n *)
Theorem C18_permutation_zero : forall t n, 0 <= n -> permutation t n 0 = Ok n.
Proof. exact permutation_0. Qed.
Print Assumptions C18_permutation_zero.
Theorem C18_permutation_zero_refuted :
  exists n p, 0 <= n /\ p * zfact (Z.to_nat (n - 0)) = zfact (Z.to_nat n) /\ permutation I32 n 0 <> Ok p.
Proof. exists 5, 1. repeat split; vm_compute; congruence. Qed.
Print Assumptions C18_permutation_zero_refuted.
Example C18_example :
  factorial I32 12 = Ok 479001600 /\ factorial I32 13 = UB /\ factorial I64 20 = Ok 2432902008176640000
  /\ permutation I32 10 3 = Ok 720 /\ permutation I32 7 7 = Ok 5040.
Proof. repeat split; vm_compute; reflexivity. Qed.

(** C19 *)
Theorem C19_binomial :
  forall t n r, 0 <= r <= n -> n <= int32_max ->
    exists c, c * zfact (Z.to_nat r) * zfact (Z.to_nat (n - r)) = zfact (Z.to_nat n) /\
      (c <= imax t -> binomial t n r = Ok c) /\ (imax t < c -> binomial t n r = UB).
Proof.
  intros t n r H1 H2. exists (GZ (n - r) r). split; [now apply binomial_fact|].
  rewrite binomial_spec by assumption. destruct (imin_imax t).
  assert (1 <= GZ (n - r) r) by apply G_pos. split; intros.
  - apply chk_ok, inr_iff. lia.
  - apply chk_no. unfold inr. lia.
Qed.
Print Assumptions C19_binomial.
Theorem C19_binomial_invalid :
  forall t n r, n < 0 \/ r < 0 \/ n < r -> binomial t n r = Err.
Proof. exact binomial_err. Qed.
Print Assumptions C19_binomial_invalid.
Example C19_example :
  binomial I32 33 16 = Ok 1166803110 /\ binomial I32 34 17 = UB /\ binomial I64 34 17 = Ok 2333606220
  /\ binomial I32 10 7 = Ok 120.
Proof. repeat split; vm_compute; reflexivity. Qed.

(** C20 (exact arithmetic in place of [double]) *)
Local Open Scope Q_scope.
Theorem C20_variance_int :
  forall l, l <> [] ->
    (no_int_overflow l ->
       exists v, variance_int l = Ok v /\ v == variance_dbl (map inject_Z l) /\
         v == sum_sq_dev (map inject_Z l) / qlen (map inject_Z l) /\ 0 <= v /\
         (v == 0 <-> forall x y, In x l -> In y l -> x = y)) /\
    (~ no_int_overflow l -> variance_int l = UB).
Proof.
  intros l Hl. split; [|apply variance_int_ub].
  intros H. destruct (variance_int_ok l Hl H) as (v & E & Ev). exists v. split; [assumption|].
  assert (Hl' : map inject_Z l <> []) by (destruct l; [congruence|discriminate]).
  destruct (variance_sign _ Hl') as [S1 S2].
  split; [rewrite variance_dbl_eq; exact Ev|]. split; [exact Ev|]. rewrite Ev. split; [exact S1|].
  rewrite S2. split.
  - intros G x y Hx Hy. apply (in_map inject_Z) in Hx, Hy. specialize (G _ _ Hx Hy).
    now apply inject_Z_injective.
  - intros G x y Hx Hy. apply in_map_iff in Hx, Hy. destruct Hx as (a & <- & Ha), Hy as (b & <- & Hb).
    now rewrite (G a b Ha Hb).
Qed.
Print Assumptions C20_variance_int.
Theorem C20_variance_dbl :
  forall l, l <> [] ->
    variance_dbl l == sum_sq_dev l / qlen l /\ 0 <= variance_dbl l /\
    (variance_dbl l == 0 <-> forall x y, In x l -> In y l -> x == y).
Proof.
  intros l Hl. split; [apply variance_dbl_eq|]. rewrite variance_dbl_eq. now apply variance_sign.
Qed.
Print Assumptions C20_variance_dbl.
Theorem C20_sample_variance :
  forall l, (2 <= length l)%nat ->
    sample_variance_dbl l * (qlen l - 1) == variance_dbl l * qlen l.
Proof. exact sample_variance_dbl_eq. Qed.
Print Assumptions C20_sample_variance.
Theorem C20_sample_variance_int :
  forall l, (2 <= length l)%nat ->
    (forall p q, l = p ++ q -> in_int32 (zsum p) = true) ->
    exists v, sample_variance_int l = Ok v /\ v == sample_variance_dbl (map inject_Z l).
Proof. exact sample_variance_int_eq. Qed.
Print Assumptions C20_sample_variance_int.
(** the variance of two equal numbers is 0, but squaring 50000 overflows an int *)
Theorem C20_variance_int_overflow_refuted :
  exists l, sum_sq_dev (map inject_Z l) == 0 /\ Forall (fun x => in_int32 x = true) l /\ variance_int l = UB.
Proof.
  exists [50000; 50000]%Z. split; [reflexivity|]. split; [|reflexivity].
  constructor; [reflexivity|]. constructor; [reflexivity|]. constructor.
Qed.
Print Assumptions C20_variance_int_overflow_refuted.
Example C20_example :
  (exists v, variance_int [1; 2; 3; 6]%Z = Ok v /\ v == 7 # 2)
  /\ sample_variance_dbl [1; 2; 3; 6] == 14 # 3 /\ no_int_overflow [1; -2]%Z.
Proof.
  split; [|split].
  - eexists; split; [vm_compute; reflexivity|]. reflexivity.
  - reflexivity.
  - split.
    + intros x [<-|[<-|[]]]; reflexivity.
    + intros p q E. destruct p as [|a [|b [|c p]]]; cbn in E; try discriminate; inversion E; subst; reflexivity.
Qed.
