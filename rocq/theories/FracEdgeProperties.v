(** Property theorem C115: the sign of gcd and the exact domain of Fraction. *)
From Coq Require Import QArith.
From Verif Require Import Base NumModel NumSpec NumProofs FracModel FracSpec FracProofs FracEdgeSpec FracEdgeProofs.
Local Open Scope Z_scope.

(** gcd returns the greatest common divisor with the sign of the first argument if Euclid's algorithm makes an even number of
    divisions, and with the sign of the second argument otherwise *)
Theorem C115_gcd_sign : forall t a b k, inr t a = true -> inr t b = true -> b <> 0 ->
  ~ (a = imin t /\ b = -1) -> ~ (a = -1 /\ b = imin t) -> euclid (Z.abs a) (Z.abs b) k ->
  gcd t a b = Ok ((if Nat.even k then Z.sgn a else Z.sgn b) * Z.gcd a b).
Proof. intros t a b k Ha Hb H0 N1 N2 HE. now apply gcd_value. Qed.
Print Assumptions C115_gcd_sign.
(** the number of divisions is well defined *)
Theorem C115_euclid : forall a b, 0 <= a -> 0 <= b -> exists k, euclid a b k /\ forall k', euclid a b k' -> k' = k.
Proof.
  intros a b Ha Hb. destruct (euclid_total b Hb a Ha) as [k Hk]. exists k. split; [assumption|]. intros k' H. symmetry. now apply (euclid_fun a b).
Qed.
Print Assumptions C115_euclid.
(** Fraction(n, d) for every pair of ints *)
Theorem C115_fraction : forall n d, in_int32 n = true -> in_int32 d = true ->
  (d = 0 -> mk n d = Err) /\
  (d <> 0 -> ~ bad_pair n d -> exists f, mk n d = Ok f /\ lowest n d f) /\
  (d <> 0 -> bad_pair n d -> mk n d = UB).
Proof.
  intros n d Hn Hd. split; [intros ->; reflexivity|]. split.
  - intros H0 NB. destruct (mk_good n d Hn Hd H0 NB) as [f E]. exists f. split; [assumption|].
    destruct (mk_ok n d f Hn Hd E) as (_ & (C1 & C2 & _) & C3). repeat split; assumption.
  - intros H0 HB. now apply mk_bad.
Qed.
Print Assumptions C115_fraction.
Lemma ub_mk n d : in_int32 n = true -> in_int32 d = true -> mk n d = UB <-> d <> 0 /\ bad_pair n d.
Proof.
  intros Hn Hd. destruct (C115_fraction n d Hn Hd) as (A & B & C). split.
  - intros E. assert (H0 : d <> 0) by (intros H; rewrite (A H) in E; discriminate). split; [assumption|]. destruct (bad_dec n d) as [|NB]; [assumption|].
    destruct (B H0 NB) as (f & F & _). congruence.
  - intros [H0 HB]. auto.
Qed.
Lemma chk_ub z {X} (f : Z -> outcome X) : bind (chk32 z) f = UB <-> (in_int32 z = false \/ (in_int32 z = true /\ f z = UB)).
Proof. unfold chk32. destruct (in_int32 z); cbn [bind]; intuition congruence. Qed.
(** the operators on fractions are undefined exactly when a product or sum leaves the int range or the resulting pair is one of these *)
Theorem C115_operators : forall a b, canonical a -> canonical b ->
  let x := num a * den b in let y := den a * num b in let d := den a * den b in
  (add a b = UB <-> ~ (in_int32 x = true /\ in_int32 y = true /\ in_int32 (x + y) = true /\ in_int32 d = true) \/ bad_pair (x + y) d) /\
  (sub a b = UB <-> ~ (in_int32 x = true /\ in_int32 y = true /\ in_int32 (x - y) = true /\ in_int32 d = true) \/ bad_pair (x - y) d) /\
  (mul a b = UB <-> ~ (in_int32 (num a * num b) = true /\ in_int32 d = true) \/ bad_pair (num a * num b) d) /\
  (num b <> 0 -> (div a b = UB <-> ~ (in_int32 x = true /\ in_int32 y = true) \/ bad_pair x y)).
Proof.
  intros a b (A1 & _) (B1 & _) x y d. assert (D0 : d <> 0) by (unfold d; nia).
  split; [|split; [|split]].
  - unfold add. fold x. fold y. fold d. rewrite !chk_ub.
    destruct (in_int32 x), (in_int32 y), (in_int32 (x + y)) eqn:E1, (in_int32 d) eqn:E2; try (intuition congruence).
    rewrite (ub_mk _ _ E1 E2). intuition congruence.
  - unfold sub. fold x. fold y. fold d. rewrite !chk_ub.
    destruct (in_int32 x), (in_int32 y), (in_int32 (x - y)) eqn:E1, (in_int32 d) eqn:E2; try (intuition congruence).
    rewrite (ub_mk _ _ E1 E2). intuition congruence.
  - unfold mul. fold d. rewrite !chk_ub.
    destruct (in_int32 (num a * num b)) eqn:E1, (in_int32 d) eqn:E2; try (intuition congruence).
    rewrite (ub_mk _ _ E1 E2). intuition congruence.
  - intros Hb. assert (Y0 : y <> 0) by (unfold y; nia). unfold div. fold x. fold y. rewrite !chk_ub.
    destruct (in_int32 x) eqn:E1, (in_int32 y) eqn:E2; try (intuition congruence).
    rewrite (ub_mk _ _ E1 E2). intuition congruence.
Qed.
Print Assumptions C115_operators.
(** a representable fraction in lowest terms that cannot be constructed, next to one that can *)
Theorem C115_representable_refuted : exists n d, in_int32 n = true /\ in_int32 d = true /\ 0 < d /\ Z.gcd n d = 1 /\ mk n d = UB.
Proof. exists (-2147483648), 5. repeat split; vm_compute; reflexivity. Qed.
Print Assumptions C115_representable_refuted.
(** INT_MIN/5 takes four divisions and is undefined, INT_MIN/3 takes three and is fine; the sign of gcd *)
Example C115_example :
  euclid (2 ^ 31) 5 4 /\ bad_pair (-2147483648) 5 /\ mk (-2147483648) 5 = UB /\
  euclid (2 ^ 31) 3 3 /\ ~ bad_pair (-2147483648) 3 /\ mk (-2147483648) 3 = Ok (Frac (-2147483648) 3) /\
  mk (-2147483648) (-2147483648) = Ok (Frac 1 1) /\ mk 6 (-2147483648) = Ok (Frac (-3) 1073741824) /\ mk 7 (-2147483648) = UB /\
  gcd I32 (-12) 18 = Ok 6 /\ euclid 12 18 3 /\ gcd I32 (-18) 12 = Ok (-6) /\ euclid 18 12 2 /\
  canonical (Frac (-65536) 1) /\ mul (Frac (-65536) 1) (Frac 32768 1) = Ok (Frac (-2147483648) 1).
Proof.
  assert (E5 : euclid (2 ^ 31) 5 4) by eu.
  assert (E3 : euclid (2 ^ 31) 3 3) by eu.
  split; [exact E5|]. split; [right; right; repeat split; exists 4%nat; auto|]. split; [now vm_compute|]. split; [exact E3|].
  split. { intros [[H _]|[(_ & _ & H)|(_ & _ & _ & k & H & K)]]; [lia|lia|]. rewrite (euclid_fun _ _ _ H _ E3) in K. discriminate. }
  do 5 (split; [now vm_compute|]).
  split. { eu. }
  split; [now vm_compute|].
  split. { eu. }
  split; [repeat split|now vm_compute].
Qed.
