(** Property theorem C114: SegmentTree at every integer type. *)
From Verif Require Import Base SegModel SegSpec SegProperties IntTyModel IntTySpec IntTyProofs SegTyModel SegTySpec SegTyProofs SegTyMainProofs.
Local Open Scope Z_scope.

(** a sum, or any query of one position, is the result in exact arithmetic modulo 2^bits *)
Theorem C114_modular : forall t v cs k lv rv x, Forall (inty t) v -> Forall (call_inty t) cs -> k = QSum \/ lv = rv ->
  client_t t v cs k lv rv = Ok x -> exists y, client v cs k lv rv = Ok y /\ residue t y x.
Proof.
  intros t v cs k lv rv x Hv Hcs Hk E. pose proof (client_sim t v cs k lv rv Hv Hcs) as K. rewrite E in K.
  destruct K as (y & Ey & R). exists y. split; [exact Ey|]. rewrite (R Hk). apply conv_residue.
Qed.
Print Assumptions C114_modular.
(** so positions hold what the calls say, modulo 2^bits *)
Theorem C114_points : forall t v cs k i x, v <> [] -> Forall (inty t) v -> Forall (call_inty t) cs ->
  Forall (valid_call (Z.of_nat (length v))) cs -> 0 <= i < Z.of_nat (length v) ->
  client_t t v cs k i i = Ok x -> residue t (after cs (at_ v) i) x.
Proof.
  intros t v cs k i x Hn Hv Hcs Hc Hi E. destruct (C114_modular t v cs k i i x Hv Hcs (or_intror eq_refl) E) as (y & Ey & R).
  now rewrite <- (C36_points v cs k i y Hn Hc Hi Ey).
Qed.
Print Assumptions C114_points.
(** and sums over ranges that every update contains or misses are right modulo 2^bits, whatever the factors *)
Theorem C114_sums : forall t v cs lv rv x, v <> [] -> Forall (inty t) v -> Forall (call_inty t) cs ->
  Forall (valid_call (Z.of_nat (length v))) cs -> valid_range (Z.of_nat (length v)) lv rv -> Forall (all_or_nothing lv rv) cs ->
  client_t t v cs QSum lv rv = Ok x -> residue t (rsum (Z.to_nat (rv - lv + 1)) (after cs (at_ v)) lv) x.
Proof.
  intros t v cs lv rv x Hn Hv Hcs Hc Hr Ha E. destruct (C114_modular t v cs QSum lv rv x Hv Hcs (or_introl eq_refl) E) as (y & Ey & R).
  assert (M : Forall (monotone QSum lv rv) cs).
  { clear. induction cs as [|c cs IH]; constructor; [|exact IH]. destruct c as [k' a b|[z|z] a b]; cbn; auto. }
  pose proof (C37_ranges v cs QSum lv rv y Hn Hc Hr Ha M Ey) as A. cbn [answers] in A. now rewrite <- A.
Qed.
Print Assumptions C114_sums.
(** unsigned int, unsigned long and, up to the given sizes, the narrow types never compute anything undefined *)
Theorem C114_defined : forall t v cs k lv rv, v <> [] -> Forall (inty t) v -> Forall (call_inty t) cs ->
  calm t (Z.of_nat (length v)) -> safe_size (Z.of_nat (length v)) ->
  Forall (valid_call (Z.of_nat (length v))) cs -> valid_range (Z.of_nat (length v)) lv rv ->
  exists x, client_t t v cs k lv rv = Ok x.
Proof.
  intros t v cs k lv rv Hn Hv Hcs C Hs Hc Hr. destruct (C34_safe_sizes v cs k lv rv Hn Hs Hc Hr) as (y & Ey).
  pose proof (client_sim t v cs k lv rv Hv Hcs) as K. fold (client v cs k lv rv) in K.
  rewrite Ey in K. destruct (client_t t v cs k lv rv) as [x| | |]; cbn [sim] in K; [eauto|discriminate|destruct K; [discriminate|contradiction]|discriminate].
Qed.
Print Assumptions C114_defined.
(** [unsigned short]: 65535 * 65535 is computed in int *)
Theorem C114_unsigned_short_refuted : exists v cs, Forall (inty u16) v /\ Forall (call_inty u16) cs /\ Forall (valid_call 1) cs /\ length v = 1%nat /\ client_t u16 v cs QSum 0 0 = UB.
Proof.
  exists [65535], [CUpdate (Mul 65535) 0 0]. split; [repeat constructor; unfold inty; cbn; lia|]. split; [repeat constructor; unfold inty; cbn; lia|].
  split; [repeat constructor; cbn; lia|]. split; [reflexivity|now vm_compute].
Qed.
Print Assumptions C114_unsigned_short_refuted.
(** minima and maxima are not: after adding 10 to 250 and 0 in unsigned char (4 and 10) the minimum is said to be 10 and the maximum 4 *)
Theorem C114_extrema_refuted : exists v cs, let u8 := Ty false W8 in Forall (inty u8) v /\ Forall (call_inty u8) cs /\ Forall (valid_call 2) cs /\ Forall (all_or_nothing 0 1) cs /\
  client_t u8 v cs QMin 0 1 = Ok 10 /\ client_t u8 v cs QMax 0 1 = Ok 4 /\ client_t u8 v cs QMin 0 0 = Ok 4 /\ client_t u8 v cs QMin 1 1 = Ok 10.
Proof.
  exists [250; 0], [CUpdate (Add 10) 0 1]. cbv zeta. split; [repeat constructor; unfold inty; cbn; lia|]. split; [repeat constructor; unfold inty; cbn; lia|].
  split; [repeat constructor; cbn; lia|]. split; [repeat constructor; cbn; lia|]. repeat split; now vm_compute.
Qed.
Print Assumptions C114_extrema_refuted.
(** unsigned int with wrap-around, signed char, and the sizes that are allowed for the narrow types *)
Example C114_example :
  let v := [4000000000; 1; 2; 3] in let cs := [CUpdate (Add 4294967295) 0 3; CUpdate (Mul 70000) 0 1; CQuery QSum 0 3; CUpdate (Mul 70000) 0 1] in
  Forall (inty u32) v /\ Forall (call_inty u32) cs /\ Forall (valid_call 4) cs /\ Forall (all_or_nothing 0 1) cs /\ calm u32 4 /\ safe_size 4 /\
  client_t u32 v cs QSum 0 0 = Ok 2040000256 /\ after cs (at_ v) 0 mod 2 ^ 32 = 2040000256 /\
  client_t u32 v cs QSum 0 1 = Ok (((after cs (at_ v) 0 + after cs (at_ v) 1) mod 2 ^ 32)) /\
  client_t (Ty true W8) [100; 100] [CUpdate (Add 100) 0 1; CUpdate (Mul (-1)) 0 1] QSum 0 0 = Ok 56 /\
  calm (Ty true W8) 16777215 /\ calm (Ty false W8) 8421503 /\ calm i16 65535.
Proof.
  cbv zeta. split; [repeat constructor; unfold inty; cbn; lia|]. split; [repeat constructor; unfold inty; cbn; lia|]. split; [repeat constructor; cbn; lia|].
  split; [repeat constructor; cbn; lia|]. split; [exact I|]. split; [exists 2; split; [lia|auto]|]. split; [vm_compute; reflexivity|]. split; [vm_compute; reflexivity|].
  split; [vm_compute; reflexivity|]. split; [vm_compute; reflexivity|]. cbn [calm i16]. lia.
Qed.
