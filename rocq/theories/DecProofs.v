(** Lemmas on decimal numerals. *)
From Verif Require Import Base DecModel.
Local Open Scope Z_scope.

Lemma byteZ_digit_char d : 0 <= d <= 9 -> byteZ (digit_char d) = 48 + d.
Proof.
  intros H. unfold byteZ, digit_char. rewrite N_ascii_embedding by lia. lia.
Qed.
Lemma is_digit_char d : 0 <= d <= 9 -> is_digit (digit_char d) = true.
Proof. intros H. unfold is_digit. rewrite byteZ_digit_char by assumption. lia. Qed.
Lemma digit_char_byte c : is_digit c = true -> digit_char (byteZ c - 48) = c.
Proof.
  unfold is_digit. intros H. apply byteZ_inj. rewrite byteZ_digit_char by lia. lia.
Qed.
Lemma digit_char_inj a b : 0 <= a <= 9 -> 0 <= b <= 9 -> digit_char a = digit_char b -> a = b.
Proof. intros Ha Hb E. apply (f_equal byteZ) in E. rewrite !byteZ_digit_char in E by assumption. lia. Qed.
Lemma digit_char_0 d : 0 <= d <= 9 -> digit_char d = "0"%char -> d = 0.
Proof. intros H E. apply (digit_char_inj d 0); [assumption|lia|]. rewrite E. reflexivity. Qed.

Lemma dec_value_fold s a :
  fold_left (fun acc c => 10 * acc + (byteZ c - 48)) s a = a * 10 ^ Z.of_nat (length s) + dec_value s.
Proof.
  unfold dec_value. revert a. induction s as [|c t IH]; intros a.
  - cbn. lia.
  - cbn [fold_left]. rewrite IH, (IH (10 * 0 + _)).
    cbn [length]. rewrite Nat2Z.inj_succ, Z.pow_succ_r by lia. lia.
Qed.
Lemma dec_value_cons c t : dec_value (c :: t) = (byteZ c - 48) * 10 ^ Z.of_nat (length t) + dec_value t.
Proof. unfold dec_value at 1. cbn [fold_left]. rewrite dec_value_fold. lia. Qed.
Lemma dec_value_app s t : dec_value (s ++ t) = dec_value s * 10 ^ Z.of_nat (length t) + dec_value t.
Proof.
  unfold dec_value at 1. rewrite fold_left_app. rewrite dec_value_fold. reflexivity.
Qed.
Lemma dec_value_bound s : forallb is_digit s = true -> 0 <= dec_value s < 10 ^ Z.of_nat (length s).
Proof.
  induction s as [|c t IH]; intros H.
  - cbn. lia.
  - cbn [forallb] in H. apply andb_true_iff in H. destruct H as [Hc Ht].
    specialize (IH Ht). rewrite dec_value_cons. cbn [length].
    rewrite Nat2Z.inj_succ, Z.pow_succ_r by lia.
    unfold is_digit in Hc. assert (0 <= byteZ c - 48 <= 9) by lia. nia.
Qed.

Lemma dec_loop_app f n acc : dec_loop f n acc = dec_loop f n [] ++ acc.
Proof.
  revert n acc; induction f as [|f IH]; intros n acc; cbn [dec_loop]; [reflexivity|].
  destruct (n <? 10); [reflexivity|].
  rewrite IH, (IH _ [_]). rewrite <- app_assoc. reflexivity.
Qed.

Lemma dec_loop_spec f n : 0 <= n -> n < 2 ^ Z.of_nat f -> (0 < f)%nat ->
  canon_digits (dec_loop f n []) /\ dec_value (dec_loop f n []) = n.
Proof.
  revert n; induction f as [|f IH]; intros n H0 Hf Hp; [lia|].
  cbn [dec_loop]. destruct (Z.ltb_spec n 10).
  - split.
    + split; [discriminate|]. split; [|left; reflexivity].
      cbn [forallb]. rewrite is_digit_char by lia. reflexivity.
    + unfold dec_value. cbn [fold_left]. rewrite byteZ_digit_char by lia. lia.
  - assert (Hd : 0 <= n / 10 /\ n / 10 < 2 ^ Z.of_nat f /\ 1 <= n / 10).
    { split; [apply Z.div_pos; lia|]. split.
      - apply Z.div_lt_upper_bound; [lia|].
        rewrite Nat2Z.inj_succ, Z.pow_succ_r in Hf by lia. lia.
      - apply Z.div_le_lower_bound; lia. }
    assert (Hf0 : (0 < f)%nat).
    { destruct f; [|lia]. cbn in Hd. lia. }
    destruct (IH (n / 10)) as [(Hne & Hdig & Hlead) Hv]; [lia|lia|assumption|].
    pose proof (Z.mod_pos_bound n 10 ltac:(lia)) as Hm.
    rewrite dec_loop_app. split.
    + split; [|split].
      * destruct (dec_loop f (n / 10) []); discriminate.
      * rewrite forallb_app, Hdig. cbn [forallb]. rewrite is_digit_char by lia. reflexivity.
      * right. destruct (dec_loop f (n / 10) []) as [|c t] eqn:E; [congruence|].
        cbn [hd_error app]. destruct Hlead as [Hl|Hl]; [|assumption].
        destruct t; [|discriminate]. intros Hc. injection Hc as ->.
        change (dec_value ["0"%char]) with 0 in Hv. lia.
    + rewrite dec_value_app, Hv. cbn [length].
      unfold dec_value. cbn [fold_left]. rewrite byteZ_digit_char by lia.
      change (10 ^ Z.of_nat 1) with 10. pose proof (Z_div_mod_eq_full n 10). lia.
Qed.

Lemma dec_nat_spec n : 0 <= n -> canon_digits (dec_nat n) /\ dec_value (dec_nat n) = n.
Proof.
  intros H. unfold dec_nat. apply dec_loop_spec; [assumption| |lia].
  destruct (Z.eq_dec n 0) as [->|].
  - cbn. lia.
  - rewrite Nat2Z.inj_succ, Z2Nat.id by apply Z.log2_nonneg.
    apply Z.log2_spec. lia.
Qed.

Lemma to_string_Z_numeral z : numeral (to_string_Z z) z.
Proof.
  unfold to_string_Z. destruct (Z.ltb_spec z 0).
  - right. exists (dec_nat (- z)). destruct (dec_nat_spec (- z)) as [H1 H2]; [lia|].
    split; [reflexivity|]. split; [assumption|]. rewrite H2. lia.
  - left. now apply dec_nat_spec.
Qed.

Lemma canon_digits_lower s : canon_digits s -> s <> ["0"%char] -> 10 ^ (Z.of_nat (length s) - 1) <= dec_value s.
Proof.
  intros (Hne & Hd & Hl) H0. destruct s as [|c t]; [congruence|].
  cbn [forallb] in Hd. apply andb_true_iff in Hd. destruct Hd as [Hc Ht].
  assert (Hc0 : c <> "0"%char).
  { intros ->. destruct Hl as [Hl|Hl]; [|now apply Hl].
    cbn in Hl. destruct t; [|discriminate]. now apply H0. }
  assert (1 <= byteZ c - 48).
  { unfold is_digit in Hc. enough (byteZ c <> 48) by lia.
    intros E. apply Hc0. apply byteZ_inj. rewrite E. reflexivity. }
  rewrite dec_value_cons. pose proof (dec_value_bound t Ht).
  cbn [length]. rewrite Nat2Z.inj_succ. replace (Z.succ (Z.of_nat (length t)) - 1) with (Z.of_nat (length t)) by lia.
  pose proof (Z.pow_nonneg 10 (Z.of_nat (length t)) ltac:(lia)). nia.
Qed.

Lemma digits_inj s t : length s = length t -> forallb is_digit s = true -> forallb is_digit t = true ->
  dec_value s = dec_value t -> s = t.
Proof.
  revert t; induction s as [|c s IH]; intros [|d t] Hl Hs Ht E; try discriminate; [reflexivity|].
  cbn [forallb] in *. apply andb_true_iff in Hs, Ht. destruct Hs as [Hc Hs], Ht as [Hd Ht].
  rewrite !dec_value_cons in E. injection Hl as Hl. rewrite <- Hl in E.
  pose proof (dec_value_bound s Hs) as B1. pose proof (dec_value_bound t Ht) as B2. rewrite <- Hl in B2.
  set (P := 10 ^ Z.of_nat (length s)) in *.
  assert (byteZ c = byteZ d) by nia.
  rewrite (byteZ_inj c d) by assumption. f_equal. apply IH; try assumption. nia.
Qed.

Lemma canon_digits_inj s t : canon_digits s -> canon_digits t -> dec_value s = dec_value t -> s = t.
Proof.
  intros Hs Ht E.
  assert (Hz : forall u, canon_digits u -> dec_value u = 0 -> u = ["0"%char]).
  { intros u Hu E0. destruct (list_eq_dec ascii_dec u ["0"%char]) as [|Hn]; [assumption|].
    pose proof (canon_digits_lower u Hu Hn). pose proof (Z.pow_pos_nonneg 10 (Z.of_nat (length u) - 1)).
    destruct Hu as (Hne & _). destruct u; [congruence|]. cbn [length] in *. lia. }
  destruct (Z.eq_dec (dec_value s) 0) as [E0|N0].
  - rewrite (Hz s Hs E0), (Hz t Ht); congruence.
  - assert (Hs0 : s <> ["0"%char]) by (intros ->; cbv in N0; lia).
    assert (Ht0 : t <> ["0"%char]) by (intros ->; rewrite E in N0; cbv in N0; lia).
    pose proof (canon_digits_lower s Hs Hs0) as L1. pose proof (canon_digits_lower t Ht Ht0) as L2.
    destruct Hs as (Hs1 & Hs2 & _), Ht as (Ht1 & Ht2 & _).
    pose proof (dec_value_bound s Hs2) as B1. pose proof (dec_value_bound t Ht2) as B2.
    apply digits_inj; try assumption. rewrite E in *.
    assert (Hlt : forall a b : nat, 10 ^ (Z.of_nat a - 1) <= dec_value t -> dec_value t < 10 ^ Z.of_nat b -> (a <= b)%nat).
    { intros a b H1 H2. destruct (Nat.le_gt_cases a b) as [|Hab]; [assumption|].
      assert (10 ^ Z.of_nat b <= 10 ^ (Z.of_nat a - 1)) by (apply Z.pow_le_mono_r; lia). lia. }
    apply Nat.le_antisymm; apply Hlt; lia.
Qed.

Lemma numeral_unique s t z : numeral s z -> numeral t z -> s = t.
Proof.
  intros [[H1 E1]|(s' & -> & H1 & N1 & E1)] [[H2 E2]|(t' & -> & H2 & N2 & E2)].
  - apply canon_digits_inj; congruence.
  - exfalso. destruct H1 as (_ & D1 & _), H2 as (_ & D2 & _).
    pose proof (dec_value_bound _ D1). pose proof (dec_value_bound _ D2). lia.
  - exfalso. destruct H1 as (_ & D1 & _), H2 as (_ & D2 & _).
    pose proof (dec_value_bound _ D1). pose proof (dec_value_bound _ D2). lia.
  - f_equal. apply canon_digits_inj; [assumption..|]. lia.
Qed.
