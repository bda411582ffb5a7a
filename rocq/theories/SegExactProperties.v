(** Properties of SegmentTree (C119): exactly what a query says after any history. *)
From Verif Require Import Base SegModel SegSpec SegProofs SegMainProofs SegSizeProofs SegProperties SegExactSpec SegExactProofs.
Local Open Scope Z_scope.

(** the pieces of a range exist, are unique and cut the range up *)
Theorem C119_pieces : forall n lv rv, valid_range n lv rv ->
  exists ps, cut lv rv 0 (n - 1) ps /\ tiles lv rv ps /\ forall qs, cut lv rv 0 (n - 1) qs -> qs = ps.
Proof.
  intros n lv rv H. assert (H' := H). destruct H' as (H1 & H2 & H3).
  destruct (cut_exists lv rv H2 (S (Z.to_nat (n - 1 - 0))) 0 (n - 1) ltac:(lia) ltac:(lia)) as (ps & C).
  exists ps. split; [exact C|]. split; [now apply (cut_facts n)|]. intros qs Q. symmetry. exact (cut_unique _ _ _ _ _ C qs Q).
Qed.
(** any query after any history of valid calls that returns *)
Theorem C119_exact : forall v cs k lv rv x ps, v <> [] ->
  Forall (valid_call (Z.of_nat (length v))) cs -> valid_range (Z.of_nat (length v)) lv rv ->
  client v cs k lv rv = Ok x -> cut lv rv 0 (Z.of_nat (length v) - 1) ps ->
  exists ys, Forall2 (piece_value k v cs) ps ys /\ joined k ys x.
Proof.
  intros v cs k lv rv x ps Hv Hcs Hr E C.
  pose proof (client_outc (bad (Z.of_nat (length v))) v cs k lv rv
    (fun x => forall ps, cut lv rv 0 (Z.of_nat (length v) - 1) ps -> exists ys, Forall2 (piece_value k v cs) ps ys /\ joined k ys x)
    (exact_history v cs k lv rv Hv Hcs Hr)) as A.
  rewrite E in A. exact (A ps C).
Qed.
(** the answer is right when every update contains or misses each piece, even
    if it cuts through the range *)
Theorem C119_right_when : forall v cs k lv rv x ps, v <> [] ->
  Forall (valid_call (Z.of_nat (length v))) cs -> valid_range (Z.of_nat (length v)) lv rv ->
  client v cs k lv rv = Ok x -> cut lv rv 0 (Z.of_nat (length v) - 1) ps ->
  (forall a b, In (a, b) ps -> Forall (all_or_nothing a b) cs /\ Forall (monotone k a b) cs) ->
  answers k (after cs (at_ v)) lv rv x.
Proof.
  intros v cs k lv rv x ps Hv Hcs Hr E C H. destruct (C119_exact v cs k lv rv x ps Hv Hcs Hr E C) as (ys & F & J).
  destruct (cut_facts _ _ _ _ Hr C) as (T & N). exact (pieces_right v cs k lv rv ps ys x T N H F J).
Qed.
(** if every update adds a positive number, no query overstates *)
Theorem C119_never_over : forall v cs k lv rv x z, v <> [] ->
  Forall (valid_call (Z.of_nat (length v))) cs -> valid_range (Z.of_nat (length v)) lv rv -> Forall adds_positive cs ->
  client v cs k lv rv = Ok x -> answers k (after cs (at_ v)) lv rv z -> x <= z.
Proof.
  intros v cs k lv rv x z Hv Hcs Hr HP E Hz. destruct (C119_pieces _ _ _ Hr) as (ps & C & T & _).
  destruct (C119_exact v cs k lv rv x ps Hv Hcs Hr E C) as (ys & F & J).
  exact (under_pieces v cs k lv rv ps ys x T (proj2 (cut_facts _ _ _ _ Hr C)) HP F J z Hz).
Qed.
(** ... and then a sum is right exactly when no update cuts through a piece *)
Theorem C119_sum_right_iff : forall v cs lv rv x ps, v <> [] ->
  Forall (valid_call (Z.of_nat (length v))) cs -> valid_range (Z.of_nat (length v)) lv rv -> Forall adds_positive cs ->
  client v cs QSum lv rv = Ok x -> cut lv rv 0 (Z.of_nat (length v) - 1) ps ->
  (answers QSum (after cs (at_ v)) lv rv x <-> forall a b, In (a, b) ps -> Forall (all_or_nothing a b) cs).
Proof.
  intros v cs lv rv x ps Hv Hcs Hr HP E C. destruct (C119_exact v cs QSum lv rv x ps Hv Hcs Hr E C) as (ys & F & J).
  destruct (cut_facts _ _ _ _ Hr C) as (T & N). exact (sum_pieces_iff _ v cs lv rv ps ys x T N HP Hcs F J).
Qed.
(** adding 5 to positions 3..4 and asking for the sum of 2..7 of eight numbers:
    the pieces are 2..3 and 4..7, neither inside 3..4, so nothing is added;
    the sum of 3..7 has the pieces 3, 4..7 and misses only the half of the
    update inside 4..7 *)
Example C119_example :
  let v := [1;2;3;4;5;6;7;8] in let cs := [CUpdate (Add 5) 3 4] in
  Forall (valid_call 8) cs /\ Forall adds_positive cs /\
  cut 2 7 0 7 [(2, 3); (4, 7)] /\ client v cs QSum 2 7 = Ok 33 /\ rsum 6 (after cs (at_ v)) 2 = 43 /\
  cut 3 7 0 7 [(3, 3); (4, 7)] /\ client v cs QSum 3 7 = Ok 35 /\ rsum 5 (after cs (at_ v)) 3 = 40 /\
  client v cs QSum 3 4 = Ok 19 /\ rsum 2 (after cs (at_ v)) 3 = 19.
Proof.
  cbv zeta. split; [repeat constructor; cbn; lia|]. split; [repeat constructor; cbn; lia|].
  split; [|split; [now vm_compute|split; [now vm_compute|split; [|now vm_compute]]]].
  - apply (cut_halve 2 7 0 7 [(2, 3)] [(4, 7)]); try lia; [|apply cut_inside; cbn; lia].
    apply (cut_halve 2 7 0 3 [] [(2, 3)]); try lia; [apply cut_outside; cbn; lia|apply cut_inside; cbn; lia].
  - apply (cut_halve 3 7 0 7 [(3, 3)] [(4, 7)]); try lia; [|apply cut_inside; cbn; lia].
    apply (cut_halve 3 7 0 3 [] [(3, 3)]); try lia; [apply cut_outside; cbn; lia|].
    apply (cut_halve 3 7 2 3 [] [(3, 3)]); try lia; [apply cut_outside; cbn; lia|apply cut_inside; cbn; lia].
Qed.

Print Assumptions C119_pieces.
Print Assumptions C119_exact.
Print Assumptions C119_right_when.
Print Assumptions C119_never_over.
Print Assumptions C119_sum_right_iff.
