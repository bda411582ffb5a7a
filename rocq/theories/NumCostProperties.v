(** C108: how many [%] a gcd and how many multiplications a power performs. *)
From Verif Require Import Base NumModel NumCostModel NumCostSpec NumCostProofs.
Local Open Scope Z_scope.

(** counting changes neither results nor failures *)
Theorem C108_counting t a b {A} (mul : A -> A -> A) one x e :
  omap fst (gcdC t a b) = gcd t a b /\ omap fst (binaryPowC a e) = binaryPow a e /\
  omap fst (genericBinaryPow1C mul one x e) = genericBinaryPow1 mul one x e /\
  omap fst (genericBinaryPowC mul x e) = genericBinaryPow mul x e.
Proof. split; [apply gcd_erase|]. split; [apply binaryPow_erase|apply generic_erase]. Qed.
(** a gcd that needs k divisions has a second argument of at least fib (k+1) *)
Theorem C108_gcd t a b g k : b <> 0 -> gcdC t a b = Ok (g, k) -> fib (k + 1) <= Z.abs b.
Proof. apply gcd_lame. Qed.
(** hence at most 45 divisions on int and 91 on long long, *)
Theorem C108_gcd_bound t a b g k : inr t b = true -> gcdC t a b = Ok (g, k) ->
  (k <= match t with I32 => 45 | I64 => 91 end)%nat.
Proof.
  intros R E. destruct (Z.eq_dec b 0) as [->|NB].
  - unfold gcdC in E. cbn [Z.eqb negb bind] in E. destruct (chk t (a + 0)); [|discriminate|discriminate|discriminate].
    cbn [bind] in E. injection E as _ <-. lia.
  - apply C108_gcd in E; [|assumption]. unfold inr in R. apply andb_true_iff in R. destruct R as [R1 R2].
    apply Z.leb_le in R1. apply Z.leb_le in R2.
    destruct t; unfold imin, imax, int32_min, int32_max, int64_min, int64_max in R1, R2.
    + destruct (Nat.le_gt_cases k 45) as [L|L]; [assumption|]. exfalso.
      pose proof (fib_mono 46 k ltac:(lia)) as M. replace (S k) with (k + 1)%nat in M by lia.
      assert (F : fib 47 = 2971215073) by (vm_compute; reflexivity). lia.
    + destruct (Nat.le_gt_cases k 91) as [L|L]; [assumption|]. exfalso.
      pose proof (fib_mono 92 k ltac:(lia)) as M. replace (S k) with (k + 1)%nat in M by lia.
      assert (F : fib 93 = 12200160415121876738) by (vm_compute; reflexivity). lia.
Qed.
(** which is reached *)
Theorem C108_gcd_reached : forall t, exists a b g,
  inr t a = true /\ inr t b = true /\ gcdC t a b = Ok (g, match t with I32 => 45%nat | I64 => 91%nat end).
Proof.
  intros [|].
  - exists (fib 45), (fib 46), 1. split; [|split]; vm_compute; reflexivity.
  - exists (fib 91), (fib 92), 1. split; [|split]; vm_compute; reflexivity.
Qed.
(** an integer power takes one multiplication per bit of the exponent and one
    more per one bit; no multiplication for the bases 1 and 2 *)
Theorem C108_binaryPow base exp r k : 0 < exp -> base <> 1 -> base <> 2 -> binaryPowC base exp = Ok (r, k) ->
  k = products exp /\ Z.log2 exp + 2 <= k <= 2 * (Z.log2 exp + 1).
Proof.
  intros H B1 B2 E. unfold binaryPowC in E. destruct (Z.eqb_spec exp 0); [lia|]. destruct (Z.ltb_spec exp 0); [lia|].
  destruct (Z.eqb_spec base 1); [contradiction|]. destruct (Z.eqb_spec base 2); [contradiction|].
  apply bpow_products in E; [|lia]. subst k. split; [reflexivity|now apply products_le].
Qed.
(** a generic power takes as many as the exponent minus one asks for *)
Theorem C108_generic {A} (mul : A -> A -> A) one x exp r k : 1 < exp ->
  genericBinaryPow1C mul one x exp = Ok (r, k) \/ genericBinaryPowC mul x exp = Ok (r, k) ->
  k = products (exp - 1) /\ Z.log2 (exp - 1) + 2 <= k <= 2 * (Z.log2 (exp - 1) + 1).
Proof.
  intros H E. unfold genericBinaryPow1C, genericBinaryPowC in E. destruct (Z.eqb_spec exp 0); [lia|].
  destruct (Z.eqb_spec exp 1); [lia|]. destruct (Z.ltb_spec exp 0); [lia|]. destruct (Z.leb_spec exp 0); [lia|].
  assert (G : k = products (exp - 1)) by (destruct E as [E|E]; apply gpow_products in E; lia).
  subst k. split; [reflexivity|apply products_le; lia].
Qed.
(** the first power of an object takes no multiplication, the second power two:
    one more than necessary *)
Theorem C108_superfluous {A} (mul : A -> A -> A) x :
  genericBinaryPowC mul x 1 = Ok (x, 0) /\ genericBinaryPowC mul x 2 = Ok (mul x x, 2).
Proof. split; reflexivity. Qed.

Example C108_example :
  gcdC I32 48 18 = Ok (6, 3%nat) /\ fib 4 = 3 /\ gcdC I32 34 55 = Ok (1, 9%nat) /\
  binaryPowC 3 13 = Ok (1594323, 7) /\ products 13 = 7 /\
  genericBinaryPowC Z.mul 3 14 = Ok (4782969, 7) /\ genericBinaryPow1C Z.mul 1 3 0 = Ok (1, 0).
Proof. repeat split; vm_compute; reflexivity. Qed.

Print Assumptions C108_counting.
Print Assumptions C108_gcd.
Print Assumptions C108_gcd_bound.
Print Assumptions C108_gcd_reached.
Print Assumptions C108_binaryPow.
Print Assumptions C108_generic.
Print Assumptions C108_superfluous.
