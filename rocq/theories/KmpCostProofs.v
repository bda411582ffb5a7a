From Verif Require Import Base KmpModel KmpCostModel KmpSpec KmpProofs.
Local Open Scope Z_scope.

(** without the counters: KmpModel *)
Lemma gen_erase p psize fuel : forall next j k c, omap fst (gen_count fuel p psize next j k c) = gen_loop fuel p psize next j k.
Proof.
  induction fuel as [|f IH]; intros next j k c; cbn [gen_count gen_loop]; destruct (j <? psize - 1); try reflexivity.
  destruct (k =? -1).
  - cbn [bind]. destruct (aget p (j + 1)) as [x| | |]; try reflexivity. cbn [bind]. destruct (aget p (k + 1)) as [y| | |]; try reflexivity. cbn [bind]. destruct (Ascii.eqb x y).
    + destruct (tget next (k + 1)) as [v| | |]; try reflexivity. cbn [bind]. destruct (aset next (j + 1) (Some v)); try reflexivity. cbn [bind]. apply IH.
    + destruct (aset next (j + 1) (Some (k + 1))); try reflexivity. cbn [bind]. apply IH.
  - destruct (aget p j) as [x| | |]; try reflexivity. cbn [bind]. destruct (aget p k) as [y| | |]; try reflexivity. cbn [bind]. destruct (Ascii.eqb x y).
    + destruct (aget p (j + 1)) as [x'| | |]; try reflexivity. cbn [bind]. destruct (aget p (k + 1)) as [y'| | |]; try reflexivity. cbn [bind]. destruct (Ascii.eqb x' y').
      * destruct (tget next (k + 1)) as [v| | |]; try reflexivity. cbn [bind]. destruct (aset next (j + 1) (Some v)); try reflexivity. cbn [bind]. apply IH.
      * destruct (aset next (j + 1) (Some (k + 1))); try reflexivity. cbn [bind]. apply IH.
    + destruct (tget next k) as [v| | |]; try reflexivity. cbn [bind]. apply IH.
Qed.
Lemma search_erase b p bsize psize next fuel : forall m i c, omap fst (search_count fuel b p bsize psize next m i c) = search_loop fuel b p bsize psize next m i.
Proof.
  induction fuel as [|f IH]; intros m i c; cbn [search_count search_loop]; destruct ((m <? bsize) && (i <? psize)); try reflexivity; try (destruct (i =? psize); reflexivity).
  destruct (i =? -1).
  - cbn [bind]. apply IH.
  - destruct (aget b m) as [x| | |]; try reflexivity. cbn [bind]. destruct (aget p i) as [y| | |]; try reflexivity. cbn [bind]. destruct (Ascii.eqb x y); [apply IH|].
    destruct (tget next i) as [v| | |]; try reflexivity. cbn [bind]. apply IH.
Qed.
Lemma kmp_erase fuel b p start : omap (fun t => fst (fst t)) (kmpCount fuel b p start) = kmpSearch fuel b p start.
Proof.
  unfold kmpCount, kmpSearch. destruct (wrap32 (Z.of_nat (length p)) <? 0); [reflexivity|]. destruct (aset _ 0 (Some (-1))) as [next| | |]; try reflexivity. cbn [bind].
  rewrite <- (gen_erase p _ fuel next 0 (-1) 0). destruct (gen_count fuel p _ next 0 (-1) 0) as [[t c]| | |]; try reflexivity. cbn [bind omap fst].
  rewrite <- (search_erase b p _ _ t fuel _ 0 0). destruct (search_count fuel b p _ _ t _ 0 0) as [[r c']| | |]; reflexivity.
Qed.

(** entries point to the left *)
Definition falls (next : list (option Z)) : Prop := forall x v, tget next x = Ok v -> -1 <= v < x.
Lemma tget_aset next j w next' x v : aset next j w = Ok next' -> tget next' x = Ok v -> (x = j /\ w = Some v) \/ tget next x = Ok v.
Proof.
  unfold aset, tget, aget. intros H G. destruct ((j <? 0) || (Z.of_nat (length next) <=? j)) eqn:E; [discriminate|]. injection H as <-.
  destruct (Z.ltb_spec x 0); [discriminate|]. destruct (Z.eq_dec x j) as [->|N].
  - left. split; [reflexivity|]. rewrite nth_error_upd_eq in G by lia. cbn in G. destruct w; [injection G as ->; reflexivity|discriminate].
  - right. rewrite nth_error_upd_neq in G by lia. exact G.
Qed.
Lemma falls_set next j w next' : falls next -> -1 <= w < j -> aset next j (Some w) = Ok next' -> falls next'.
Proof. intros F B H x v G. destruct (tget_aset _ _ _ _ _ _ H G) as [[-> E]|G']; [injection E as ->; exact B|now apply F]. Qed.

Definition left1 (n i : Z) : Z := if n <=? 0 then 0 else if i <? 0 then Z.max 0 (2 * n - 3) else 2 * n - 1 + i.
Lemma gen_bound p psize fuel : forall next j k c next' c', falls next -> -1 <= k < j \/ (k = -1 /\ j = 0) -> 0 <= j ->
  gen_count fuel p psize next j k c = Ok (next', c') -> falls next' /\ c <= c' <= c + left1 (psize - 1 - j) k + Z.max 0 (psize - 1 - j).
Proof.
  induction fuel as [|f IH]; intros next j k c next' c' F K J H; cbn [gen_count] in H; destruct (Z.ltb_spec j (psize - 1)) as [L|L]; try discriminate;
    try (injection H as <- <-; split; [exact F|]; unfold left1; destruct (Z.leb_spec (psize - 1 - j) 0); lia).
  assert (STEP : forall t c1, (if k =? -1 then Ok (true, c) else pj <- aget p j ;; pk <- aget p k ;; Ok (Ascii.eqb pj pk, c + 1)) = Ok (t, c1) -> k = -1 /\ t = true /\ c1 = c \/ k <> -1 /\ c1 = c + 1).
  { intros t c1 X. destruct (Z.eqb_spec k (-1)); [injection X as <- <-; left; repeat split; assumption|]. destruct (aget p j); try discriminate. cbn [bind] in X. destruct (aget p k); try discriminate. injection X as <- <-. right. split; [assumption|reflexivity]. }
  destruct (if k =? -1 then _ else _) as [[t c1]| | |]; try discriminate. cbn [bind] in H. specialize (STEP t c1 eq_refl).
  destruct t.
  - destruct (aget p (j + 1)) as [x| | |]; try discriminate. cbn [bind] in H. destruct (aget p (k + 1)) as [y| | |]; try discriminate. cbn [bind] in H.
    assert (GO : forall n2, falls n2 -> gen_count f p psize n2 (j + 1) (k + 1) (c1 + 1) = Ok (next', c') -> falls next' /\ c <= c' <= c + left1 (psize - 1 - j) k + Z.max 0 (psize - 1 - j)).
    { intros n2 F2 H2. apply IH in H2; [|exact F2|lia|lia]. destruct H2 as [A B]. split; [exact A|]. clear - STEP B L K J. unfold left1 in *.
      destruct (Z.leb_spec (psize - 1 - (j + 1)) 0), (Z.leb_spec (psize - 1 - j) 0), (Z.ltb_spec (k + 1) 0), (Z.ltb_spec k 0); lia. }
    destruct (Ascii.eqb x y).
    + destruct (tget next (k + 1)) as [v| | |] eqn:V; try discriminate. cbn [bind] in H. destruct (aset next (j + 1) (Some v)) as [n2| | |] eqn:S; try discriminate. apply (GO n2); [|exact H].
      apply (falls_set next (j + 1) v); [exact F| |exact S]. apply F in V. lia.
    + destruct (aset next (j + 1) (Some (k + 1))) as [n2| | |] eqn:S; try discriminate. apply (GO n2); [|exact H]. apply (falls_set next (j + 1) (k + 1)); [exact F|lia|exact S].
  - destruct (tget next k) as [v| | |] eqn:V; try discriminate. cbn [bind] in H. apply F in V. apply IH in H; [|exact F|lia|lia]. destruct H as [A B]. split; [exact A|].
    clear - STEP B L K J V. unfold left1 in *. destruct (Z.leb_spec (psize - 1 - j) 0), (Z.ltb_spec v 0), (Z.ltb_spec k 0); lia.
Qed.
Lemma search_bound b p bsize psize next fuel : falls next -> 0 < psize -> forall m i c r c', 0 <= m -> -1 <= i <= psize -> i <= m ->
  search_count fuel b p bsize psize next m i c = Ok (r, c') ->
  c <= c' <= c + left1 (bsize - m) i /\ (r <> -1 -> c' - c <= 2 * (r + psize - m) - psize + i).
Proof.
  intros F P. induction fuel as [|f IH]; intros m i c r c' M I IM H; cbn [search_count] in H.
  - destruct (Z.ltb_spec m bsize) as [L|L]; cbn [andb] in H; [destruct (Z.ltb_spec i psize) as [L2|L2]; [discriminate|]|]; destruct (Z.eqb_spec i psize) as [E|E]; injection H as <- <-; unfold left1;
      destruct (Z.leb_spec (bsize - m) 0), (Z.ltb_spec i 0); lia.
  - destruct (Z.ltb_spec m bsize) as [L|L]; cbn [andb] in H; [destruct (Z.ltb_spec i psize) as [L2|L2]|].
    2:{ destruct (Z.eqb_spec i psize) as [E|E]; injection H as <- <-; unfold left1; destruct (Z.leb_spec (bsize - m) 0), (Z.ltb_spec i 0); lia. }
    2:{ destruct (Z.eqb_spec i psize) as [E|E]; injection H as <- <-; unfold left1; destruct (Z.leb_spec (bsize - m) 0), (Z.ltb_spec i 0); lia. }
    assert (STEP : forall t c1, (if i =? -1 then Ok (true, c) else bm <- aget b m ;; pi <- aget p i ;; Ok (Ascii.eqb bm pi, c + 1)) = Ok (t, c1) -> i = -1 /\ t = true /\ c1 = c \/ i <> -1 /\ c1 = c + 1).
    { intros t c1 X. destruct (Z.eqb_spec i (-1)); [injection X as <- <-; left; repeat split; assumption|]. destruct (aget b m); try discriminate. cbn [bind] in X. destruct (aget p i); try discriminate. injection X as <- <-. right. split; [assumption|reflexivity]. }
    destruct (if i =? -1 then _ else _) as [[t c1]| | |]; try discriminate. cbn [bind] in H. specialize (STEP t c1 eq_refl).
    destruct t.
    + apply IH in H; [|lia|lia|lia]. destruct H as [A B]. clear - STEP A B L L2 I M P. unfold left1 in *.
      destruct (Z.leb_spec (bsize - (m + 1)) 0), (Z.leb_spec (bsize - m) 0), (Z.ltb_spec (i + 1) 0), (Z.ltb_spec i 0); lia.
    + destruct (tget next i) as [v| | |] eqn:V; try discriminate. cbn [bind] in H. apply F in V. apply IH in H; [|lia|lia|lia]. destruct H as [A B].
      clear - STEP A B L L2 I M P V. unfold left1 in *. destruct (Z.leb_spec (bsize - m) 0), (Z.ltb_spec v 0), (Z.ltb_spec i 0); lia.
Qed.
Lemma start_falls n : falls (upd (repeat None n) 0 (Some (-1))).
Proof.
  intros x v H. unfold tget, aget in H. destruct (Z.ltb_spec x 0) as [|L]; [discriminate|]. destruct (nth_error (upd (repeat None n) 0 (Some (-1))) (Z.to_nat x)) as [w|] eqn:E; [|discriminate]. cbn [bind] in H. destruct w as [w|]; [|discriminate]. injection H as ->.
  destruct (Z.to_nat x) as [|y] eqn:X.
  - destruct n; cbn in E; [discriminate|]. injection E as <-. lia.
  - exfalso. rewrite nth_error_upd_neq in E by lia. apply nth_error_In, repeat_spec in E. discriminate.
Qed.
Lemma kmp_cost b p start fuel : p <> [] -> len b <= int32_max -> len p <= int32_max -> 0 <= start <= int32_max -> (2 * (length b + length p) + 2 <= fuel)%nat ->
  exists r ct cs, kmpCount fuel b p start = Ok (r, ct, cs) /\ first_occurrence b p (Z.to_nat start) r /\
    0 <= ct <= Z.max 0 (3 * len p - 5) /\ 0 <= cs <= Z.max 0 (2 * (len b - start) - 1) /\ (r <> -1 -> cs <= 2 * (r - start) + len p).
Proof.
  intros Hp Hb Hpl Hs Hf. destruct (kmp_correct b p start fuel Hp Hb Hpl Hs Hf) as (r & E & FO). rewrite <- kmp_erase in E.
  destruct (kmpCount fuel b p start) as [[[r0 ct] cs]| | |] eqn:K; try discriminate. cbn in E. injection E as ->. exists r, ct, cs. split; [reflexivity|]. split; [exact FO|].
  assert (0 < len p) by (destruct p; [contradiction|unfold len; cbn [length]; lia]). assert (0 <= len b) by (unfold len; lia).
  unfold kmpCount in K. fold (len p) (len b) in K. rewrite !wrap32_id in K by (unfold in_int32, int32_min, int32_max in *; lia). destruct (Z.ltb_spec (len p) 0); [lia|].
  rewrite aset_ok in K by (rewrite repeat_length; lia). cbn [bind] in K. change (Z.to_nat 0) with 0%nat in K.
  destruct (gen_count fuel p (len p) _ 0 (-1) 0) as [[nx c1]| | |] eqn:G; try discriminate. cbn [bind] in K. apply gen_bound in G; [|apply start_falls|lia|lia]. destruct G as [F G].
  destruct (search_count fuel b p (len b) (len p) nx start 0 0) as [[r1 c2]| | |] eqn:S; try discriminate. cbn [bind] in K. injection K as -> -> ->.
  apply search_bound in S; [|exact F|assumption|lia|lia|lia]. destruct S as [S1 S2]. split; [|split].
  - unfold left1 in G. change (-1 <? 0) with true in G. cbv iota in G. destruct (Z.leb_spec (len p - 1 - 0) 0); lia.
  - unfold left1 in S1. change (0 <? 0) with false in S1. cbv iota in S1. destruct (Z.leb_spec (len b - start) 0); lia.
  - intros N. specialize (S2 N). lia.
Qed.
(** a text of n letters a, the pattern ab *)
Definition ca : ascii := ch (str "a") 0.
Definition ab : bytes := str "ab".
Lemma aget_rep n m : 0 <= m < Z.of_nat n -> aget (repeat ca n) m = Ok ca.
Proof. intros H. rewrite (aget_ok _ _ ca) by (rewrite repeat_length; lia). f_equal. apply nth_repeat. Qed.
Lemma worst_loop n : forall d fuel m c, 0 <= m -> Z.of_nat n - m = Z.of_nat d -> (2 * d <= fuel)%nat ->
  search_count fuel (repeat ca n) ab (Z.of_nat n) 2 [Some (-1); Some 0] m 1 c = Ok (-1, c + 2 * Z.of_nat d).
Proof.
  induction d as [|d IH]; intros fuel m c M D F.
  - destruct fuel; cbn [search_count]; (destruct (Z.ltb_spec m (Z.of_nat n)); [lia|]); cbn; do 2 f_equal; lia.
  - destruct fuel as [|[|fuel]]; [lia|lia|]. cbn [search_count]. assert (X : (m <? Z.of_nat n) = true) by lia. rewrite X. cbn [andb Z.ltb Z.compare Z.eqb]. rewrite aget_rep by lia. change (aget ab 1) with (Ok (ch (str "b") 0)). cbn [bind].
    change (Ascii.eqb ca (ch (str "b") 0)) with false. cbv iota. change (tget [Some (-1); Some 0] 1) with (Ok 0). cbn [bind]. cbn [andb Z.ltb Z.compare Z.eqb].
    change (aget ab 0) with (Ok ca). cbn [bind]. change (Ascii.eqb ca ca) with true. cbv iota. change (0 + 1) with 1. rewrite IH by lia. change (1 <? 2) with true. cbv iota. match goal with |- Ok (_, ?a) = Ok (_, ?b) => replace a with b by lia; reflexivity end.
Qed.
Lemma worst n fuel : (1 <= n)%nat -> Z.of_nat n <= int32_max -> (2 * n + 2 <= fuel)%nat -> kmpCount fuel (repeat ca n) ab 0 = Ok (-1, 1, 2 * Z.of_nat n - 1).
Proof.
  intros N I F. unfold kmpCount. rewrite repeat_length. change (wrap32 (Z.of_nat (length ab))) with 2. rewrite wrap32_id by (unfold in_int32, int32_min, int32_max in *; lia). change (wrap32 0) with 0.
  cbn [Z.ltb Z.compare]. change (aset (repeat None (Z.to_nat 2)) 0 (Some (-1))) with (Ok [Some (-1); None]). cbn [bind].
  destruct fuel as [|[|fuel]]; [lia|lia|].
  assert (G : gen_count (S (S fuel)) ab 2 [Some (-1); None] 0 (-1) 0 = Ok ([Some (-1); Some 0], 1)) by reflexivity. rewrite G. cbn [bind].
  cbn [search_count]. assert (X : (0 <? Z.of_nat n) = true) by lia. rewrite X. cbn [andb Z.ltb Z.compare Z.eqb]. rewrite aget_rep by lia. change (aget ab 0) with (Ok ca). cbn [bind]. change (Ascii.eqb ca ca) with true. cbv iota. change (0 + 1) with 1.
  pose proof (worst_loop n (n - 1) (S fuel) 1 1) as W. cbn [search_count] in W. rewrite W by lia. cbn [bind]. match goal with |- Ok (_, ?a) = Ok (_, ?b) => replace a with b by lia; reflexivity end.
Qed.
