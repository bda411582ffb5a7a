(** C122: segment trees of doubles and of other value types. *)
From Coq Require Import Reals Lra Floats.SpecFloat.
From Flocq Require Import Core.
From Verif Require Import Base Float FloatProofs StatProofs SegModel SegSpec SegProofs SegAnyModel SegAnySpec SegAnyProofs SegAnyDProofs SegAnyZProofs.
Local Open Scope Z_scope.
Notation len v := (Z.of_nat (length v)).

(** Any value type, whatever its operators do: a query on a tree that was only queried before
    combines the values of its range, each once and from left to right, with at most
    ceil(log2 n) nested combinations; earlier queries do not matter. *)
Theorem C122_any {T} (ty : ops T) (d : T) v k lv rv : v <> [] -> valid_range (len v) lv rv ->
  exists x, bracketed (match k with QMax => fun a b => if vlt ty a b then b else a | QMin => fun a b => if vlt ty b a then b else a | QSum => vadd ty end)
              (nth_of v d) (height (len v)) lv rv x /\
    forall cs, only_queries (len v) cs -> gclient ty v cs k lv rv = Ok x.
Proof.
  intros H R. destruct (gclient_spec ty d v k lv rv H R) as (x & B & C). exists x. split; [|exact C]. destruct k; exact B.
Qed.
Print Assumptions C122_any.
(** queryMax and queryMin are right as soon as < is a strict weak order among the values asked for. *)
Theorem C122_order {T} (ty : ops T) (d : T) v cs lv rv : v <> [] -> valid_range (len v) lv rv -> only_queries (len v) cs ->
  ordered_on (vlt ty) (nth_of v d) lv rv ->
  (exists x, gclient ty v cs QMax lv rv = Ok x /\ (exists i, lv <= i <= rv /\ nth_of v d i = x) /\
     forall i, lv <= i <= rv -> vlt ty x (nth_of v d i) = false) /\
  (exists x, gclient ty v cs QMin lv rv = Ok x /\ (exists i, lv <= i <= rv /\ nth_of v d i = x) /\
     forall i, lv <= i <= rv -> vlt ty (nth_of v d i) x = false).
Proof.
  intros H R Q W. apply ordered_weak in W.
  assert (D : forall i, lv <= i <= rv -> exists j, lv <= j <= rv /\ nth_of v d i = nth_of v d j) by (intros i Hi; exists i; auto).
  split; [destruct (gclient_spec ty d v QMax lv rv H R) as (x & B & C)|destruct (gclient_spec ty d v QMin lv rv H R) as (x & B & C)];
    exists x; (split; [now apply C|]).
  - eapply bracketed_max; eassumption.
  - eapply bracketed_min; eassumption.
Qed.
Print Assumptions C122_order.
(** doubles without NaN, infinities included: maxima and minima are those of the extended real line *)
Theorem C122_double_extrema v cs lv rv : valid_range (len v) lv rv -> only_queries (len v) cs ->
  (forall i, lv <= i <= rv -> number (nth_of v dzero i)) ->
  (exists x, gclient doubles v cs QMax lv rv = Ok x /\ (exists i, lv <= i <= rv /\ nth_of v dzero i = x) /\
     forall i, lv <= i <= rv -> ~ below x (nth_of v dzero i)) /\
  (exists x, gclient doubles v cs QMin lv rv = Ok x /\ (exists i, lv <= i <= rv /\ nth_of v dzero i = x) /\
     forall i, lv <= i <= rv -> ~ below (nth_of v dzero i) x).
Proof.
  intros R Q N. assert (H : v <> []) by (intros ->; destruct R as (? & ? & ?); cbn [length] in *; lia).
  split; [destruct (gclient_spec doubles dzero v QMax lv rv H R) as (x & B & C)|destruct (gclient_spec doubles dzero v QMin lv rv H R) as (x & B & C)];
    exists x; (split; [now apply C|]).
  - destruct (bracketed_max doubles dzero number _ _ _ _ _ doubles_weak N B) as [(i & Hi & E) F]. split; [eauto|].
    intros j Hj K. apply below_lt in K; [|subst x; now apply N|now apply N]. specialize (F j Hj). cbn [vlt doubles] in F. congruence.
  - destruct (bracketed_min doubles dzero number _ _ _ _ _ doubles_weak N B) as [(i & Hi & E) F]. split; [eauto|].
    intros j Hj K. apply below_lt in K; [|now apply N|subst x; now apply N]. specialize (F j Hj). cbn [vlt doubles] in F. congruence.
Qed.
Print Assumptions C122_double_extrema.
(** doubles: the error of querySum grows with the logarithm of the number of elements *)
Theorem C122_double_sum v cs lv rv : valid_range (len v) lv rv -> len v <= 2 ^ 29 -> only_queries (len v) cs ->
  (forall i, lv <= i <= rv -> dvalid (nth_of v dzero i) = true /\ dfinite (nth_of v dzero i) = true) ->
  (over (fun i => Rabs (real (nth_of v dzero i))) lv rv <= bpow radix2 1022)%R ->
  exists x, gclient doubles v cs QSum lv rv = Ok x /\ dfinite x = true /\
    (Rabs (real x - over (fun i => real (nth_of v dzero i)) lv rv)
       <= ((1 + ulp2) ^ height (len v) - 1) * over (fun i => Rabs (real (nth_of v dzero i))) lv rv)%R.
Proof.
  intros R L Q F S. assert (H : v <> []) by (intros ->; destruct R as (? & ? & ?); cbn [length] in *; lia).
  destruct (gclient_spec doubles dzero v QSum lv rv H R) as (x & B & C). exists x. split; [now apply C|].
  assert (Hh : (height (len v) <= 29)%nat) by (apply height_small; destruct R as (? & ? & ?); lia).
  assert (Hh' : (height (len v) <= 64)%nat) by lia. destruct (bracketed_sum _ _ _ _ _ Hh' F S B) as (_ & Fx & _ & E). split; [exact Fx|exact E].
Qed.
Print Assumptions C122_double_sum.
(** ... and is at most 2 ceil(log2 n) units of 2^-53 relative to the sum of the magnitudes *)
Theorem C122_double_sum_simple n : 0 < n <= 2 ^ 29 -> ((1 + ulp2) ^ height n - 1 <= 2 * INR (height n) * ulp2)%R.
Proof. intros H. pose proof (height_small n H). destruct (growth (height n) ltac:(lia)) as [_ K]. unfold ulp2. unfold u in K. lra. Qed.
Print Assumptions C122_double_sum_simple.
(** integers: the general model is that of C32 *)
Theorem C122_integers v cs k lv rv : v <> [] ->
  gclient integers v (map as_call cs) k lv rv = (s <- build v ;; s <- run cs s ;; ' (x, _) <- query0 k lv rv s ;; Ok x).
Proof. apply client_up. Qed.
Print Assumptions C122_integers.

(** With a NaN the maximum depends on where it stands. *)
Theorem C122_nan_refuted :
  ~ (forall a b, gclient doubles [a; b] [] QMax 0 1 = gclient doubles [b; a] [] QMax 0 1) /\
  gclient doubles [dof 1; dnan] [] QMax 0 1 = Ok (dof 1) /\ gclient doubles [dnan; dof 1] [] QMax 0 1 = Ok dnan.
Proof.
  assert (A : gclient doubles [dof 1; dnan] [] QMax 0 1 = Ok (dof 1)) by (vm_compute; reflexivity).
  assert (B : gclient doubles [dnan; dof 1] [] QMax 0 1 = Ok dnan) by (vm_compute; reflexivity).
  split; [|split; [exact A|exact B]]. intros H. specialize (H (dof 1) dnan). rewrite A, B in H. discriminate.
Qed.
Print Assumptions C122_nan_refuted.
(** querySum is not the sum from left to right. *)
Theorem C122_left_to_right_refuted :
  ~ (forall v, v <> [] -> Forall (fun x => dvalid x = true /\ dfinite x = true) v ->
       gclient doubles v [] QSum 0 (len v - 1) = Ok (fold_left dadd (tl v) (hd dzero v))).
Proof.
  intros H. specialize (H [dof (2 ^ 53); dof 0; dof 1; dof 1] ltac:(discriminate)).
  assert (F : Forall (fun x => dvalid x = true /\ dfinite x = true) [dof (2 ^ 53); dof 0; dof 1; dof 1]).
  { repeat constructor. }
  specialize (H F). vm_compute in H. discriminate.
Qed.
Print Assumptions C122_left_to_right_refuted.
(** Additions to a range of doubles are not added to the elements one after the other: two pending
    additions are first added to each other. *)
Theorem C122_additions_refuted :
  ~ (forall v x y, v <> [] -> Forall (fun x => dvalid x = true /\ dfinite x = true) (x :: y :: v) ->
       gclient doubles v [GUpdate (GAdd x) 0 (len v - 1); GUpdate (GAdd y) 0 (len v - 1)] QSum 0 0
         = Ok (dadd (dadd (hd dzero v) x) y)) /\
  gclient doubles [dof (2 ^ 60); dzero] [GUpdate (GAdd (dof (- 2 ^ 60))) 0 1; GUpdate (GAdd (dof 1)) 0 1] QSum 0 0 = Ok dzero /\
  dadd (dadd (dof (2 ^ 60)) (dof (- 2 ^ 60))) (dof 1) = dof 1.
Proof.
  assert (A : gclient doubles [dof (2 ^ 60); dzero] [GUpdate (GAdd (dof (- 2 ^ 60))) 0 1; GUpdate (GAdd (dof 1)) 0 1] QSum 0 0 = Ok dzero)
    by (vm_compute; reflexivity).
  split; [|split; [exact A|vm_compute; reflexivity]]. intros H.
  specialize (H [dof (2 ^ 60); dzero] (dof (- 2 ^ 60)) (dof 1) ltac:(discriminate)).
  assert (F : Forall (fun x => dvalid x = true /\ dfinite x = true) [dof (- 2 ^ 60); dof 1; dof (2 ^ 60); dzero]) by repeat constructor.
  specialize (H F). vm_compute in H. discriminate.
Qed.
Print Assumptions C122_additions_refuted.

Definition sample : list double := [dmake 1 (-1); dinf; dof 3; dof (-7); dof 5].
(** five doubles, one infinite: all three queries after other queries *)
Example C122_example :
  valid_range (len sample) 2 4 /\ @only_queries double (len sample) [GQuery QMax 0 4; GQuery QSum 1 3] /\
  (forall i, 0 <= i <= 4 -> number (nth_of sample dzero i)) /\
  (forall i, 2 <= i <= 4 -> dvalid (nth_of sample dzero i) = true /\ dfinite (nth_of sample dzero i) = true) /\
  height (len sample) = 3%nat /\
  gclient doubles sample [GQuery QMax 0 4; GQuery QSum 1 3] QMax 0 4 = Ok dinf /\
  gclient doubles sample [GQuery QMax 0 4; GQuery QSum 1 3] QMin 1 4 = Ok (dof (-7)) /\
  gclient doubles sample [GQuery QMax 0 4; GQuery QSum 1 3] QSum 2 4 = Ok (dof 1).
Proof.
  split; [vm_compute; repeat split; discriminate|]. split; [repeat constructor; vm_compute; intuition discriminate|].
  split; [|split; [|split; [|split; [|split]]]]; try (vm_compute; reflexivity).
  - intros i Hi. assert (i = 0 \/ i = 1 \/ i = 2 \/ i = 3 \/ i = 4) as K by lia.
    destruct K as [->|[->|[->|[->| ->]]]]; (split; [vm_compute; reflexivity|vm_compute; discriminate]).
  - intros i Hi. assert (i = 2 \/ i = 3 \/ i = 4) as K by lia. destruct K as [->|[->| ->]]; split; vm_compute; reflexivity.
Qed.
(** the sums of the sample meet the bound *)
Example C122_example_sum : (over (fun i => Rabs (real (nth_of sample dzero i))) 2 4 <= bpow radix2 1022)%R.
Proof.
  apply Rle_trans with (bpow radix2 5); [|apply bpow_le; lia]. unfold over. change (Z.to_nat (4 - 2 + 1)) with 3%nat. cbn [total].
  change (nth_of sample dzero 2) with (dof 3). change (nth_of sample dzero (2 + 1)) with (dof (-7)). change (nth_of sample dzero (2 + 1 + 1)) with (dof 5).
  destruct (dof_exact 3 ltac:(lia)) as (_ & _ & ->). destruct (dof_exact (-7) ltac:(lia)) as (_ & _ & ->). destruct (dof_exact 5 ltac:(lia)) as (_ & _ & ->).
  rewrite <- !abs_IZR. change (bpow radix2 5) with 32%R. cbn [Z.abs]. lra.
Qed.
