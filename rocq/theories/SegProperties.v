(** Properties of SegmentTree (C34-C37). *)
From Verif Require Import Base SegModel SegSpec SegProofs SegMainProofs SegSizeProofs.
Local Open Scope Z_scope.

(** all calls of a client on a tree built from v, then one query *)
Definition client (v : list Z) (cs : list call) (k : kind) (lv rv : Z) : outcome Z :=
  s <- build v ;; s <- run cs s ;; omap fst (query0 k lv rv s).
Lemma client_query v cs k lv rv : client v cs k lv rv = omap fst (s <- build v ;; s <- run cs s ;; query0 k lv rv s).
Proof. unfold client. destruct (build v); try reflexivity. cbn [bind]. destruct (run cs a); reflexivity. Qed.
Lemma client_outc B v cs k lv rv P : outc B (s <- build v ;; s <- run cs s ;; query0 k lv rv s) (fun xs => P (fst xs)) ->
  outc B (client v cs k lv rv) P.
Proof. rewrite client_query. destruct (s <- build v ;; s <- run cs s ;; query0 k lv rv s); cbn; auto. Qed.

(** C34 *)
(** sizes for which the vectors are long enough *)
Definition safe_size (n : Z) : Prop := exists k, 0 <= k /\ (n = 2 ^ k - 1 \/ n = 2 ^ k \/ n = 2 ^ k + 1).
Lemma safe_not_bad n : 0 < n -> safe_size n -> ~ bad n.
Proof. intros Hn (k & Hk & H) HB. destruct (proj1 (bad_sizes n Hn) HB k Hk) as (A & B & C). tauto. Qed.

Theorem C34_safe_sizes : forall v cs k lv rv, v <> [] -> safe_size (Z.of_nat (length v)) ->
  Forall (valid_call (Z.of_nat (length v))) cs -> valid_range (Z.of_nat (length v)) lv rv ->
  exists x, client v cs k lv rv = Ok x.
Proof.
  intros v cs k lv rv Hv Hs Hcs (H1 & H2 & H3). set (n := Z.of_nat (length v)) in *. assert (Hn : 0 < n) by lia.
  pose proof (safe_not_bad n Hn Hs) as NB. unfold client.
  destruct (build_spec v Hv) as (s0 & E0 & L0 & C0 & A0). fold n in L0. rewrite E0. cbn [bind].
  assert (Hr : outc (bad n) (run cs s0) (fun s => Z.of_nat (length s) = 4 * n)).
  { clear C0 A0 E0. revert s0 L0. induction Hcs as [|c cs Hc Hcs IH]; intros s L; cbn [run]; [exact L|].
    eapply outc_bind; [|intros s' Ls; apply IH; exact Ls].
    destruct c as [k' a b|u a b]; cbn [valid_call] in Hc; destruct Hc as (A1 & A2 & A3); cbn [step].
    - unfold query0. rewrite (size_of n s L). eapply outc_bind.
      + apply (query_spec (bad n) (fun _ => True) n k' a b (fun _ _ _ => True) Hn (update_spec_any n Hn) (fun _ _ _ _ _ _ _ _ => I) _ xH 0 (n - 1) s I L eq_refl); auto; lia.
      + intros [x s'] (_ & Ls & _). cbn [snd outc] in *. congruence.
    - unfold interval0. rewrite (size_of n s L). eapply outc_weak.
      + apply (interval_spec n u a b Hn _ xH 0 (n - 1) s L eq_refl); auto; lia.
      + intros s' [Ls _ _ _]. congruence. }
  destruct (run cs s0) as [s| | |]; cbn [outc bind] in *; try contradiction.
  pose proof (query_spec (bad n) (fun _ => True) n k lv rv (fun _ _ _ => True) Hn (update_spec_any n Hn) (fun _ _ _ _ _ _ _ _ => I) (S (length s)) xH 0 (n - 1) s I Hr eq_refl
     (fun _ _ _ _ _ _ => I) ltac:(lia) H2 ltac:(lia) ltac:(lia) eq_refl) as Q.
  unfold query0. rewrite (size_of n s Hr).
  destruct (query (S (length s)) k lv rv 0 (n - 1) 1 s) as [[x s']| | |]; cbn [outc] in *; try contradiction. exists x. reflexivity.
Qed.
Theorem C34_unsafe_sizes : forall v k, v <> [] -> ~ safe_size (Z.of_nat (length v)) ->
  exists l, valid_range (Z.of_nat (length v)) l l /\ client v [CUpdate (Add 1) l l] k l l = UB.
Proof.
  intros v k Hv Hs. assert (Hn : 0 < Z.of_nat (length v)) by (destruct v; [congruence|cbn [length]; lia]).
  assert (HB : bad (Z.of_nat (length v))).
  { apply bad_sizes; [assumption|]. intros j Hj. repeat split; intros E; apply Hs; exists j; auto. }
  destruct (bad_history v k Hv HB) as (l & Hl & HU). exists l. split; [assumption|].
  rewrite client_query. cbn [run step].
  destruct (build v) as [s| | |]; cbn [bind] in *; try discriminate; [|reflexivity].
  destruct (interval0 (Add 1) l l s) as [s'| | |]; cbn [bind] in *; try discriminate; [|reflexivity].
  rewrite HU. reflexivity.
Qed.
(** the constructor never returns on an empty vector *)
Theorem C34_empty : forall fuel s, init fuel [] 0 (-1) 1 s = Fuel.
Proof.
  intros fuel s. enough (K : forall o, init fuel [] 0 (-1) (Z.pos o) s = Fuel) by apply K. induction fuel as [|f IH]; intros o; [reflexivity|].
  cbn [init]. change (0 =? -1) with false. cbv iota zeta. change (Z.shiftr (0 + -1) 1) with (-1).
  change (2 * Z.pos o) with (Z.pos o~0). rewrite IH. reflexivity.
Qed.
(** size 6 is the first unsafe size *)
Theorem C34_all_sizes_refuted : exists v cs, length v = 6%nat /\ Forall (valid_call 6) cs /\ client v cs QMax 4 4 = UB.
Proof. exists [3;1;4;1;5;9], [CUpdate (Add 1) 4 4]. split; [reflexivity|]. split; [repeat constructor; cbn; lia|now vm_compute]. Qed.
Example C34_example : safe_size 7 /\ ~ safe_size 6 /\
  client [1;2;3;4;5;6;7] [CUpdate (Mul 3) 2 6; CUpdate (Add 1) 6 6; CQuery QMin 0 6; CUpdate (Add 5) 0 6] QSum 6 6 = Ok 27.
Proof.
  split; [exists 3; split; [lia|left; reflexivity]|]. split; [|now vm_compute].
  intros H. apply (safe_not_bad 6 ltac:(lia) H). exists 13%positive, 4. split; [reflexivity|lia].
Qed.

(** C35 *)
Theorem C35_fresh : forall v k lv rv, v <> [] -> valid_range (Z.of_nat (length v)) lv rv ->
  exists x, client v [] k lv rv = Ok x /\ answers k (at_ v) lv rv x.
Proof.
  intros v k lv rv Hv H. destruct (fresh_query v k lv rv Hv H) as (s & x & s' & E & Q & A).
  exists x. unfold client. rewrite E. cbn [bind run]. rewrite Q. auto.
Qed.
Example C35_example : valid_range 6 1 4 /\ client [3;1;4;1;5;9] [] QMax 1 4 = Ok 5 /\
  client [3;1;4;1;5;9] [] QMin 1 4 = Ok 1 /\ client [3;1;4;1;5;9] [] QSum 1 4 = Ok 11.
Proof. split; [unfold valid_range; lia|]. now vm_compute. Qed.

(** C36: whatever happened before, a point query that stays in bounds is right *)
Theorem C36_points : forall v cs k i x, v <> [] ->
  Forall (valid_call (Z.of_nat (length v))) cs -> 0 <= i < Z.of_nat (length v) ->
  client v cs k i i = Ok x -> x = after cs (at_ v) i.
Proof.
  intros v cs k i x Hv Hcs Hi E.
  assert (A : outc (bad (Z.of_nat (length v))) (client v cs k i i) (answers k (after cs (at_ v)) i i)).
  { apply client_outc. apply (history_query v cs k i i Hv Hcs); [unfold valid_range; lia| |].
    - apply Forall_forall. intros [|u lv rv] _; cbn; lia.
    - apply Forall_forall. intros [|[]] _; cbn; auto. }
  rewrite E in A. cbn [outc] in A. destruct k; cbn [answers] in A.
  - destruct A as ((j & Hj & <-) & _). f_equal. lia.
  - destruct A as ((j & Hj & <-) & _). f_equal. lia.
  - replace (Z.to_nat (i - i + 1)) with 1%nat in A by lia. cbn [rsum] in A. lia.
Qed.
Theorem C36_points_total : forall v cs k i, v <> [] -> safe_size (Z.of_nat (length v)) ->
  Forall (valid_call (Z.of_nat (length v))) cs -> 0 <= i < Z.of_nat (length v) ->
  client v cs k i i = Ok (after cs (at_ v) i).
Proof.
  intros v cs k i Hv Hs Hcs Hi. destruct (C34_safe_sizes v cs k i i Hv Hs Hcs ltac:(unfold valid_range; lia)) as (x & E).
  rewrite E. f_equal. exact (C36_points v cs k i x Hv Hcs Hi E).
Qed.
Example C36_example :
  let cs := [CUpdate (Add 100) 0 0; CUpdate (Mul (-3)) 0 2; CQuery QSum 1 3; CUpdate (Add 1) 0 1] in
  Forall (valid_call 4) cs /\ client [0;1;2;3] cs QMax 0 0 = Ok (-299) /\ after cs (at_ [0;1;2;3]) 0 = -299.
Proof. cbv zeta. split; [repeat constructor; cbn; lia|]. now vm_compute. Qed.

(** C37: range queries are right when every update so far contains or misses the
    whole queried range (and does not multiply it by a negative number, for
    max and min) *)
Theorem C37_ranges : forall v cs k lv rv x, v <> [] ->
  Forall (valid_call (Z.of_nat (length v))) cs -> valid_range (Z.of_nat (length v)) lv rv ->
  Forall (all_or_nothing lv rv) cs -> Forall (monotone k lv rv) cs ->
  client v cs k lv rv = Ok x -> answers k (after cs (at_ v)) lv rv x.
Proof.
  intros v cs k lv rv x Hv Hcs Hr HA HM E.
  assert (A : outc (bad (Z.of_nat (length v))) (client v cs k lv rv) (answers k (after cs (at_ v)) lv rv)).
  { apply client_outc. now apply (history_query v cs k lv rv). }
  rewrite E in A. exact A.
Qed.
Theorem C37_stale_refuted : exists v cs x, Forall (valid_call (Z.of_nat (length v))) cs /\
  client v cs QMax 0 3 = Ok x /\ ~ answers QMax (after cs (at_ v)) 0 3 x.
Proof.
  exists [0;1;2;3], [CUpdate (Add 100) 0 0], 3. split; [repeat constructor; cbn; lia|]. split; [now vm_compute|].
  intros (_ & H). specialize (H 0 ltac:(lia)). vm_compute in H. now apply H.
Qed.
Theorem C37_negative_refuted : exists v cs x, Forall (valid_call (Z.of_nat (length v))) cs /\ Forall (all_or_nothing 0 1) cs /\
  client v cs QMax 0 1 = Ok x /\ ~ answers QMax (after cs (at_ v)) 0 1 x.
Proof.
  exists [1;2], [CUpdate (Mul (-1)) 0 1], (-2). split; [repeat constructor; cbn; lia|]. split; [repeat constructor; cbn; lia|]. split; [now vm_compute|].
  intros (_ & H). specialize (H 0 ltac:(lia)). vm_compute in H. now apply H.
Qed.
Example C37_example :
  let cs := [CUpdate (Add 10) 0 4; CUpdate (Mul 2) 1 3; CUpdate (Add 7) 0 0] in
  Forall (valid_call 5) cs /\ Forall (all_or_nothing 1 3) cs /\ Forall (monotone QMax 1 3) cs /\
  client [5;1;4;2;3] cs QMax 1 3 = Ok 28 /\ client [5;1;4;2;3] cs QSum 1 3 = Ok 74.
Proof.
  cbv zeta. split; [repeat constructor; cbn; lia|]. split; [repeat constructor; cbn; lia|]. split; [repeat constructor; cbn; lia|].
  now vm_compute.
Qed.

Print Assumptions C34_safe_sizes.
Print Assumptions C34_unsafe_sizes.
Print Assumptions C35_fresh.
Print Assumptions C36_points_total.
Print Assumptions C37_ranges.
Print Assumptions C34_empty.
Print Assumptions C34_all_sizes_refuted.
Print Assumptions C36_points.
Print Assumptions C37_stale_refuted.
Print Assumptions C37_negative_refuted.
