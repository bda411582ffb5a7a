From Verif Require Import Base KmpModel KmpSpec.
Local Open Scope Z_scope.

Definition ch (l : bytes) (i : Z) : ascii := nth (Z.to_nat i) l NUL.
Definition len (l : bytes) : Z := Z.of_nat (length l).

Lemma aget_ch l i : 0 <= i < len l -> aget l i = Ok (ch l i).
Proof. intros. now apply aget_ok. Qed.

Section KMP.
Variable p : bytes.
Notation P := (ch p).
Notation psize := (len p).

(** prefix of length k is a suffix of the prefix of length j *)
Definition B (j k : Z) : Prop := 0 <= k <= j /\ forall t, 0 <= t < k -> P t = P (j - k + t).

Definition isnext (j v : Z) : Prop :=
  -1 <= v < j /\
  (0 <= v -> B j v /\ P v <> P j) /\
  (forall x, v < x < j -> B j x -> P x = P j).

Lemma B_trans j k x : B j k -> B k x -> B j x.
Proof.
  intros [H1 H2] [H3 H4]. split; [lia|]. intros t Ht.
  rewrite H4 by lia. rewrite H2 by lia. f_equal. lia.
Qed.
Lemma B_sub j k x : B j k -> B j x -> x <= k -> B k x.
Proof.
  intros [H1 H2] [H3 H4] Hx. split; [lia|]. intros t Ht.
  rewrite H4 by lia. rewrite (H2 (k - x + t)) by lia. f_equal. lia.
Qed.
Lemma B_step j k : B j k -> P k = P j -> B (j + 1) (k + 1).
Proof.
  intros [H1 H2] E. split; [lia|]. intros t Ht.
  replace (j + 1 - (k + 1) + t) with (j - k + t) by lia.
  destruct (Z.eq_dec t k) as [->|]; [|apply H2; lia].
  rewrite E. f_equal. lia.
Qed.
Lemma B_unstep j k : B (j + 1) (k + 1) -> 0 <= k -> B j k /\ P k = P j.
Proof.
  intros [H1 H2] Hk. split.
  - split; [lia|]. intros t Ht. rewrite H2 by lia. f_equal. lia.
  - rewrite H2 by lia. f_equal. lia.
Qed.
Lemma B_zero j : 0 <= j -> B j 0.
Proof. intros. split; [lia|]. intros; lia. Qed.

Definition tab_ok (next : list (option Z)) (j : Z) : Prop :=
  Z.of_nat (length next) = psize /\
  forall x, 0 <= x <= j -> exists v, nth (Z.to_nat x) next None = Some v /\ isnext x v.

Lemma tget_ok next j x : tab_ok next j -> 0 <= x <= j -> j < psize ->
  exists v, tget next x = Ok v /\ isnext x v.
Proof.
  intros [L H] Hx Hj. destruct (H x Hx) as (v & E & Hv). exists v. split; [|assumption].
  unfold tget. rewrite (aget_ok next x None) by lia. cbn [bind]. now rewrite E.
Qed.

Lemma tab_extend next j v : tab_ok next j -> 0 <= j -> j + 1 < psize -> isnext (j + 1) v ->
  aset next (j + 1) (Some v) = Ok (upd next (Z.to_nat (j + 1)) (Some v)) /\
  tab_ok (upd next (Z.to_nat (j + 1)) (Some v)) (j + 1).
Proof.
  intros [L H] Hj0 Hj Hv. split; [apply aset_ok; lia|].
  split; [now rewrite upd_length|]. intros x Hx.
  destruct (Z.eq_dec x (j + 1)) as [->|].
  - exists v. rewrite nth_upd_eq by lia. auto.
  - rewrite nth_upd_neq by lia. apply H. lia.
Qed.

Lemma next_step next j k : tab_ok next j -> 0 <= j -> j + 1 < psize -> -1 <= k < j ->
  (0 <= k -> B j k /\ P k = P j) ->
  (forall x, k < x < j -> B j x -> P x <> P j) ->
  B (j + 1) (k + 1) /\
  (forall x, k + 1 < x < j + 1 -> B (j + 1) x -> False) /\
  (P (j + 1) <> P (k + 1) -> isnext (j + 1) (k + 1)) /\
  (P (j + 1) = P (k + 1) -> forall v, isnext (k + 1) v -> isnext (j + 1) v).
Proof.
  intros T Hj Hjp Hk HB Hmax.
  assert (B1 : B (j + 1) (k + 1)).
  { destruct (Z.eq_dec k (-1)) as [->|]; [apply B_zero; lia|].
    destruct HB; [lia|]. now apply B_step. }
  assert (M : forall x, k + 1 < x < j + 1 -> B (j + 1) x -> False).
  { intros x Hx HBx. destruct (B_unstep j (x - 1)) as [H1 H2].
    - now replace (x - 1 + 1) with x by lia.
    - lia.
    - apply (Hmax (x - 1)); [lia|assumption|assumption]. }
  split; [assumption|split; [assumption|split]].
  - intros Hne. split; [lia|split].
    + intros _. split; [assumption|congruence].
    + intros x Hx HBx. exfalso. eapply M; eauto.
  - intros Heq v (V1 & V2 & V3). split; [lia|split].
    + intros Hv0. destruct (V2 Hv0) as [HBv Hne]. split; [eapply B_trans; eauto|congruence].
    + intros x Hx HBx.
      destruct (Z.lt_trichotomy x (k + 1)) as [Hlt|[->|Hgt]].
      * rewrite Heq. apply V3; [lia|]. eapply B_sub; [exact B1|exact HBx|lia].
      * congruence.
      * exfalso. eapply M; [|exact HBx]. lia.
Qed.

Lemma gen_loop_ok : forall fuel next j k,
  tab_ok next j -> 0 <= j < psize -> -1 <= k -> (k < j) ->
  (0 <= k -> B j k) ->
  (forall x, k < x < j -> B j x -> P x <> P j) ->
  2 * (psize - j) + k + 1 <= Z.of_nat fuel ->
  exists next', gen_loop fuel p psize next j k = Ok next' /\ tab_ok next' (psize - 1).
Proof.
  induction fuel as [|f IH]; intros next j k T Hj Hk Hkj HB Hmax Hf; [lia|].
  cbn [gen_loop]. destruct (Z.ltb_spec j (psize - 1)) as [Hlt|Hge].
  2:{ exists next. split; [reflexivity|]. now replace (psize - 1) with j by lia. }
  assert (Hc : (if k =? -1 then Ok true
                else pj <- aget p j ;; pk <- aget p k ;; Ok (Ascii.eqb pj pk))
               = Ok ((k =? -1) || Ascii.eqb (P j) (P k))).
  { destruct (Z.eqb_spec k (-1)); [reflexivity|].
    rewrite !aget_ch by lia. reflexivity. }
  rewrite Hc. cbn [bind].
  destruct ((k =? -1) || Ascii.eqb (P j) (P k)) eqn:E.
  - destruct (next_step next j k) as (B1 & M & N1 & N2); try assumption; try lia.
    { intros H0. split; [auto|]. apply orb_prop in E. destruct E as [E|E]; [lia|].
      apply Ascii.eqb_eq in E. congruence. }
    rewrite !aget_ch by lia. cbn [bind].
    destruct (Ascii.eqb_spec (P (j + 1)) (P (k + 1))) as [Heq|Hne].
    + destruct (tget_ok next j (k + 1)) as (v & -> & Hv); [assumption|lia|lia|].
      cbn [bind].
      destruct (tab_extend next j v) as [-> T']; try assumption; try lia.
      { now apply N2. }
      cbn [bind]. apply IH; try assumption; try lia.
      all: first [intros _; exact B1 | intros x Hx HBx; exfalso; eapply M; eauto].
    + destruct (tab_extend next j (k + 1)) as [-> T']; try assumption; try lia.
      { now apply N1. }
      cbn [bind]. apply IH; try assumption; try lia.
      all: first [intros _; exact B1 | intros x Hx HBx; exfalso; eapply M; eauto].
  - apply orb_false_elim in E. destruct E as [E1 E2].
    apply Ascii.eqb_neq in E2. assert (0 <= k) by lia.
    destruct (tget_ok next j k) as (v & -> & V1 & V2 & V3); [assumption|lia|lia|].
    cbn [bind]. apply IH; try assumption; try lia.
    + intros Hv. eapply B_trans; [apply HB; lia|]. now apply V2.
    + intros x Hx HBx.
      destruct (Z.lt_trichotomy x k) as [Hl|[->|Hg]]; [|congruence|apply Hmax; [lia|assumption]].
      rewrite (V3 x); [congruence|lia|]. eapply B_sub; [apply HB; lia|exact HBx|lia].
Qed.

Variable b : bytes.
Notation bsize := (len b).
Notation C := (ch b).

(** occurrence, in index form *)
Definition occ (q : Z) : Prop := 0 <= q /\ q + psize <= bsize /\ forall t, 0 <= t < psize -> C (q + t) = P t.

Definition Res (start r : Z) : Prop :=
  (start <= r /\ occ r /\ forall q, start <= q < r -> ~ occ q) \/
  (r = -1 /\ forall q, start <= q -> ~ occ q).

Lemma search_ok next start : tab_ok next (psize - 1) -> 0 < psize -> 0 <= start ->
  forall fuel m i,
  start <= m -> (m <= bsize \/ i = 0) -> -1 <= i <= psize -> start <= m - i ->
  (forall t, 0 <= t < i -> C (m - i + t) = P t) ->
  (forall q, start <= q < m - i -> ~ occ q) ->
  2 * Z.max 0 (bsize - m) + i + 1 < Z.of_nat fuel ->
  exists r, search_loop fuel b p bsize psize next m i = Ok r /\ Res start r.
Proof.
  intros T Hp Hs. induction fuel as [|f IH]; intros m i Hm Hmb Hi Hmi Hmatch Hno Hf; [lia|].
  cbn [search_loop].
  destruct (Z.ltb_spec m bsize) as [Hlt|Hge]; cbn [andb].
  - destruct (Z.ltb_spec i psize) as [Hip|Hip].
    + assert (Hc : (if i =? -1 then Ok true
                else bm <- aget b m ;; pi <- aget p i ;; Ok (Ascii.eqb bm pi))
               = Ok ((i =? -1) || Ascii.eqb (C m) (P i))).
      { destruct (Z.eqb_spec i (-1)); [reflexivity|].
        rewrite !aget_ch by lia. reflexivity. }
      rewrite Hc. cbn [bind].
      destruct ((i =? -1) || Ascii.eqb (C m) (P i)) eqn:E.
      * apply IH; try lia.
        -- intros t Ht. replace (m + 1 - (i + 1) + t) with (m - i + t) by lia.
           destruct (Z.eq_dec t i) as [->|]; [|apply Hmatch; lia].
           apply orb_prop in E. destruct E as [E|E]; [lia|].
           apply Ascii.eqb_eq in E. rewrite <- E. f_equal. lia.
        -- intros q Hq. apply Hno. lia.
      * apply orb_false_elim in E. destruct E as [E1 E2].
        apply Ascii.eqb_neq in E2. assert (0 <= i) by lia.
        destruct (tget_ok next (psize - 1) i) as (v & -> & V1 & V2 & V3);
          [assumption|lia|lia|]. cbn [bind].
        apply IH; try lia.
        -- intros t Ht. destruct V2 as [[_ HB] _]; [lia|].
           rewrite HB by lia. rewrite <- Hmatch by lia. f_equal. lia.
        -- intros q Hq Hocc.
           destruct (Z.lt_ge_cases q (m - i)) as [|Hq2]; [apply (Hno q); [lia|assumption]|].
           destruct Hocc as (O1 & O2 & O3).
           assert (Hx : C m = P (m - q)).
           { rewrite <- (O3 (m - q)) by lia. f_equal. lia. }
           destruct (Z.eq_dec q (m - i)) as [->|].
           ++ apply E2. rewrite Hx. f_equal. lia.
           ++ apply E2. rewrite Hx. apply V3; [lia|]. split; [lia|].
              intros t Ht. rewrite <- (O3 t) by lia. rewrite <- Hmatch by lia. f_equal. lia.
    + destruct (Z.eqb_spec i psize); [|lia]. subst i. exists (m - psize).
      split; [reflexivity|]. left. split; [lia|split; [|assumption]].
      split; [lia|split; [lia|assumption]].
  - destruct (Z.eqb_spec i psize).
    + subst i. exists (m - psize). split; [reflexivity|]. left.
      split; [lia|split; [|assumption]].
      split; [lia|split; [lia|assumption]].
    + exists (-1). split; [reflexivity|]. right. split; [reflexivity|].
      intros q Hq Hocc.
      destruct (Z.lt_ge_cases q (m - i)); [eapply Hno; eauto; lia|].
      destruct Hocc as (O1 & O2 & O3). lia.
Qed.

End KMP.

Lemma nth_firstn_lt {A} (l : list A) n i d : (i < n)%nat -> nth i (firstn n l) d = nth i l d.
Proof.
  revert l i; induction n as [|n IH]; intros l i H; [lia|].
  destruct l, i; cbn; auto. apply IH. lia.
Qed.

Lemma occ_iff b p q : 0 <= q -> occ p b q <-> occurs_at b p (Z.to_nat q).
Proof.
  intros Hq. unfold occ, occurs_at, ch, len. split.
  - intros (_ & H2 & H3).
    exists (firstn (Z.to_nat q) b), (skipn (length p) (skipn (Z.to_nat q) b)).
    split; [|rewrite firstn_length; lia].
    rewrite <- (firstn_skipn (Z.to_nat q) b) at 1. f_equal.
    rewrite <- (firstn_skipn (length p) (skipn (Z.to_nat q) b)) at 1. f_equal.
    apply nth_ext with (d := NUL) (d' := NUL).
    + rewrite firstn_length, skipn_length. lia.
    + intros n Hn. rewrite firstn_length, skipn_length in Hn.
      rewrite nth_firstn_lt by lia.
      specialize (H3 (Z.of_nat n) ltac:(lia)).
      rewrite Nat2Z.id in H3. rewrite <- H3.
      replace (Z.to_nat (q + Z.of_nat n)) with (Z.to_nat q + n)%nat by lia.
      rewrite <- (firstn_skipn (Z.to_nat q) b) at 2.
      rewrite app_nth2 by (rewrite firstn_length; lia).
      f_equal. rewrite firstn_length. lia.
  - intros (u & v & -> & Hu). split; [assumption|].
    rewrite !app_length. split; [lia|]. intros t Ht.
    rewrite app_nth2 by lia. rewrite app_nth1 by lia. f_equal. lia.
Qed.

Lemma kmp_correct b p start fuel :
  p <> [] -> len b <= int32_max -> len p <= int32_max -> 0 <= start <= int32_max ->
  (2 * (length b + length p) + 2 <= fuel)%nat ->
  exists r, kmpSearch fuel b p start = Ok r /\ first_occurrence b p (Z.to_nat start) r.
Proof.
  intros Hp Hb Hpl Hs Hf. unfold int32_max in *. unfold kmpSearch.
  assert (0 < len p) by (destruct p; [contradiction|unfold len; cbn [length]; lia]).
  fold (len p) (len b). assert (0 <= len b) by (unfold len; lia).
  rewrite !wrap32_id by (unfold in_int32, int32_min, int32_max; lia).
  destruct (Z.ltb_spec (len p) 0); [lia|].
  rewrite aset_ok by (rewrite repeat_length; lia). cbn [bind].
  destruct (gen_loop_ok p fuel (upd (repeat None (Z.to_nat (len p))) (Z.to_nat 0) (Some (-1))) 0 (-1))
    as (next & -> & T); try lia.
  { split; [rewrite upd_length, repeat_length; lia|].
    intros x Hx. replace x with 0 by lia. exists (-1). split.
    - rewrite nth_upd_eq; [reflexivity|rewrite repeat_length; lia].
    - split; [lia|]. split; intros; lia. }
  { unfold len in *. lia. }
  cbn [bind].
  destruct (search_ok p b next start T) with (fuel := fuel) (m := start) (i := 0)
    as (r & -> & Hr); try lia.
  { unfold len in *. lia. }
  exists r. split; [reflexivity|]. unfold first_occurrence.
  destruct Hr as [(R1 & R2 & R3)|(-> & R)].
  - left. exists (Z.to_nat r). destruct R2 as [R2 R2']. split; [lia|]. split; [lia|].
    split; [apply occ_iff; [lia|split; [lia|assumption]]|].
    intros j Hj Hocc. apply (R3 (Z.of_nat j)); [lia|].
    apply occ_iff; [lia|]. now rewrite Nat2Z.id.
  - right. split; [reflexivity|]. intros i Hi Hocc. apply (R (Z.of_nat i)); [lia|].
    apply occ_iff; [lia|]. now rewrite Nat2Z.id.
Qed.

Lemma first_occurrence_unique b p s r r' :
  first_occurrence b p s r -> first_occurrence b p s r' -> r = r'.
Proof.
  intros [(i & -> & Hi & Oi & Mi)|(-> & M)] [(j & -> & Hj & Oj & Mj)|(-> & M')].
  - destruct (Nat.lt_trichotomy i j) as [H|[H|H]]; [|lia|].
    + exfalso; apply (Mj i); [lia|assumption].
    + exfalso; apply (Mi j); [lia|assumption].
  - exfalso; apply (M' i); assumption.
  - exfalso; apply (M j); assumption.
  - reflexivity.
Qed.

Lemma kmp_empty_pattern b start fuel : kmpSearch fuel b [] start = UB.
Proof. reflexivity. Qed.

Lemma kmp_negative_start b p start fuel :
  p <> [] -> len b <= int32_max -> len p <= int32_max ->
  wrap32 start < 0 ->
  (2 * (length b + length p) + 2 <= fuel)%nat ->
  kmpSearch fuel b p start = UB.
Proof.
  intros Hp Hb Hpl Hs Hf. unfold int32_max in *. unfold kmpSearch.
  assert (0 < len p) by (destruct p; [contradiction|unfold len; cbn [length]; lia]).
  fold (len p) (len b).
  rewrite (wrap32_id (len p)) by (unfold in_int32, int32_min, int32_max; lia).
  rewrite (wrap32_id (len b)) by (unfold in_int32, int32_min, int32_max, len in *; lia).
  destruct (Z.ltb_spec (len p) 0); [lia|].
  rewrite aset_ok by (rewrite repeat_length; lia). cbn [bind].
  destruct (gen_loop_ok p fuel (upd (repeat None (Z.to_nat (len p))) (Z.to_nat 0) (Some (-1))) 0 (-1))
    as (next & -> & T); try lia.
  { split; [rewrite upd_length, repeat_length; lia|].
    intros x Hx. replace x with 0 by lia. exists (-1). split.
    - rewrite nth_upd_eq; [reflexivity|rewrite repeat_length; lia].
    - split; [lia|]. split; intros; lia. }
  { unfold len in *. lia. }
  cbn [bind]. destruct fuel as [|f]; [lia|]. cbn [search_loop].
  destruct (Z.ltb_spec (wrap32 start) (len b)); [|unfold len in *; lia].
  destruct (Z.ltb_spec 0 (len p)); [|lia]. cbn [andb].
  destruct (Z.eqb_spec 0 (-1)); [lia|].
  unfold aget at 1. destruct (Z.ltb_spec (wrap32 start) 0); [|lia]. reflexivity.
Qed.
