(** SegmentTree: for which sizes do pending flags stay inside the vectors? *)
From Verif Require Import Base SegModel SegSpec SegProofs SegMainProofs.
Local Open Scope Z_scope.
Notation len s := (Z.of_nat (length s)).

(** closed form of the width of a node *)
Fixpoint R (p : positive) : Z :=
  match p with xH => 0 | xO p => R p + 2 ^ depth p | xI p => R p end.
Lemma pow2_pos d : 0 <= d -> 0 < 2 ^ d.
Proof. intros; apply Z.pow_pos_nonneg; lia. Qed.
Lemma pow2_S d : 0 <= d -> 2 ^ (1 + d) = 2 * 2 ^ d.
Proof. intros. rewrite Z.pow_add_r by lia. reflexivity. Qed.
Lemma R_bounds p : 0 <= R p < 2 ^ depth p.
Proof.
  induction p as [p IH|p IH|]; cbn [R depth]; [| |cbn; lia]; rewrite pow2_S by apply depth_nonneg; pose proof (pow2_pos _ (depth_nonneg p)); lia.
Qed.
Lemma R_top p : R p = 2 ^ depth p - 1 -> Zpos p = 2 ^ depth p.
Proof.
  induction p as [p IH|p IH|]; cbn [R depth]; [| |reflexivity]; rewrite pow2_S by apply depth_nonneg;
    pose proof (pow2_pos _ (depth_nonneg p)); pose proof (R_bounds p); intros HH; [lia|].
  rewrite Pos2Z.inj_xO. rewrite IH by lia. reflexivity.
Qed.
Lemma R_ones p : Zpos p = 2 ^ (depth p + 1) - 1 -> R p = 0.
Proof.
  induction p as [p IH|p IH|]; cbn [R depth]; intros H; [| |reflexivity]; pose proof (depth_nonneg p) as D;
  rewrite <- Z.add_assoc, pow2_S in H by lia; [|lia]. apply IH. lia.
Qed.
Lemma div_div_step n d b : 0 < d -> (n / d + b) / 2 = (n + b * d) / (2 * d).
Proof. intros H. rewrite <- Z.div_add by lia. rewrite Z.div_div by lia. f_equal. lia. Qed.
Lemma range_w n p : 0 < n -> forall l r, range n p = Some (l, r) -> r - l + 1 = (n + R p) / 2 ^ depth p.
Proof.
  intros Hn. induction p as [p IH|p IH|]; cbn [range R depth]; intros l r H.
  - destruct (range n p) as [(l', r')|]; [|discriminate]. specialize (IH _ _ eq_refl).
    destruct (Z.ltb_spec l' r'); [|discriminate]. injection H as <- <-.
    pose proof (pow2_pos _ (depth_nonneg p)). rewrite pow2_S by apply depth_nonneg.
    replace (n + R p) with (n + R p + 0 * 2 ^ depth p) by lia. rewrite <- div_div_step by lia. rewrite <- IH, mid_div.
    replace (l' + r') with (r' - l' + 1 - 1 + l' * 2) by lia. rewrite Z.div_add by lia.
    pose proof (Z_div_mod_eq_full (r' - l' + 1 - 1) 2). pose proof (Z.mod_pos_bound (r' - l' + 1 - 1) 2).
    pose proof (Z_div_mod_eq_full (r' - l' + 1 + 0) 2). pose proof (Z.mod_pos_bound (r' - l' + 1 + 0) 2). lia.
  - destruct (range n p) as [(l', r')|]; [|discriminate]. specialize (IH _ _ eq_refl).
    destruct (Z.ltb_spec l' r'); [|discriminate]. injection H as <- <-.
    pose proof (pow2_pos _ (depth_nonneg p)). rewrite pow2_S by apply depth_nonneg.
    replace (n + (R p + 2 ^ depth p)) with (n + R p + 1 * 2 ^ depth p) by lia. rewrite <- div_div_step by lia. rewrite <- IH, mid_div.
    replace (l' + r') with (r' - l' + 1 - 1 + l' * 2) by lia. rewrite Z.div_add by lia.
    pose proof (Z_div_mod_eq_full (r' - l' + 1 - 1) 2). pose proof (Z.mod_pos_bound (r' - l' + 1 - 1) 2).
    pose proof (Z_div_mod_eq_full (r' - l' + 1 + 1) 2). pose proof (Z.mod_pos_bound (r' - l' + 1 + 1) 2). lia.
  - injection H as <- <-. rewrite Z.pow_0_r, Z.add_0_r, Z.div_1_r. lia.
Qed.
Lemma range_wide n p : 0 < n -> 2 <= (n + R p) / 2 ^ depth p -> exists l r, range n p = Some (l, r) /\ l < r.
Proof.
  intros Hn. induction p as [p IH|p IH|]; intros H.
  - cbn [R depth] in H. rewrite pow2_S in H by apply depth_nonneg. pose proof (pow2_pos _ (depth_nonneg p)).
    replace (n + R p) with (n + R p + 0 * 2 ^ depth p) in H by lia. rewrite <- div_div_step in H by lia.
    pose proof (Z_div_mod_eq_full ((n + R p) / 2 ^ depth p + 0) 2). pose proof (Z.mod_pos_bound ((n + R p) / 2 ^ depth p + 0) 2).
    destruct IH as (l & r & E & L); [lia|]. exists (mid l r + 1), r. pose proof (range_r n p l r E L) as E'. split; [assumption|].
    pose proof (range_w n _ Hn _ _ E') as W. cbn [R depth] in W. rewrite pow2_S in W by apply depth_nonneg.
    replace (n + R p) with (n + R p + 0 * 2 ^ depth p) in W by lia. rewrite <- div_div_step in W by lia. lia.
  - cbn [R depth] in H. rewrite pow2_S in H by apply depth_nonneg. pose proof (pow2_pos _ (depth_nonneg p)).
    replace (n + (R p + 2 ^ depth p)) with (n + R p + 1 * 2 ^ depth p) in H by lia. rewrite <- div_div_step in H by lia.
    pose proof (Z_div_mod_eq_full ((n + R p) / 2 ^ depth p + 1) 2). pose proof (Z.mod_pos_bound ((n + R p) / 2 ^ depth p + 1) 2).
    destruct IH as (l & r & E & L); [lia|]. exists l, (mid l r). pose proof (range_l n p l r E L) as E'. split; [assumption|].
    pose proof (range_w n _ Hn _ _ E') as W. cbn [R depth] in W. rewrite pow2_S in W by apply depth_nonneg.
    replace (n + (R p + 2 ^ depth p)) with (n + R p + 1 * 2 ^ depth p) in W by lia. rewrite <- div_div_step in W by lia. lia.
  - cbn [R depth] in H. rewrite Z.pow_0_r, Z.add_0_r, Z.div_1_r in H. exists 0, (n - 1). split; [reflexivity|lia].
Qed.
(** a two-element node q at depth k with large index gives a bad leaf *)
Lemma bad_of n q : 0 < n -> n < Zpos q + 1 -> n + R q < 3 * 2 ^ depth q -> 2 * 2 ^ depth q <= n + R q -> bad n.
Proof.
  intros Hn H1 H2 H3. pose proof (pow2_pos _ (depth_nonneg q)) as P.
  assert (W : (n + R q) / 2 ^ depth q = 2) by (symmetry; apply (Z.div_unique _ _ 2 (n + R q - 2 * 2 ^ depth q)); lia).
  destruct (range_wide n q Hn ltac:(lia)) as (l & r & E & L).
  pose proof (range_w n q Hn l r E) as W'. rewrite W in W'.
  exists q~1%positive, r. pose proof (range_r n q l r E L) as E'.
  assert (mid l r + 1 = r). { rewrite mid_div. replace (l + r) with (1 + l * 2) by lia. rewrite Z.div_add by lia. change (1 / 2) with 0. lia. }
  rewrite H in E'. split; [assumption|]. rewrite Pos2Z.inj_xI. lia.
Qed.
Definition ones (k : nat) : positive := Nat.iter k xI xH.
Definition oneone (k : nat) : positive := Nat.iter k xO (xI xH).
Lemma ones_facts k : depth (ones k) = Z.of_nat k /\ R (ones k) = 0 /\ Zpos (ones k) = 2 * 2 ^ Z.of_nat k - 1.
Proof.
  induction k as [|k (H1 & H2 & H3)]; [auto|]. change (ones (S k)) with ((ones k)~1)%positive. cbn [depth R]. rewrite (Pos2Z.inj_xI (ones k)), H1, H2, H3.
  rewrite Nat2Z.inj_succ, Z.pow_succ_r by lia. repeat split; lia.
Qed.
Lemma oneone_facts k : depth (oneone k) = Z.of_nat k + 1 /\ R (oneone k) = 2 * 2 ^ Z.of_nat k - 2 /\ Zpos (oneone k) = 3 * 2 ^ Z.of_nat k.
Proof.
  induction k as [|k (H1 & H2 & H3)]; [auto|]. change (oneone (S k)) with ((oneone k)~0)%positive. cbn [depth R]. rewrite (Pos2Z.inj_xO (oneone k)), H1, H2, H3.
  rewrite Nat2Z.inj_succ, Z.pow_succ_r by lia. rewrite Z.pow_add_r by lia. change (2 ^ 1) with 2. repeat split; lia.
Qed.
Theorem bad_sizes n : 0 < n -> (bad n <-> forall k, 0 <= k -> n <> 2 ^ k - 1 /\ n <> 2 ^ k /\ n <> 2 ^ k + 1).
Proof.
  intros Hn. set (k := Z.log2 n). destruct (Z.log2_spec n Hn) as [K1 K2]. fold k in K1, K2.
  assert (K0 : 0 <= k) by apply Z.log2_nonneg. rewrite Z.pow_succ_r in K2 by assumption.
  split.
  - intros (p & l & Hp & Hi).
    assert (Hpar : p = xH \/ exists q, (p = xO q \/ p = xI q) /\ exists l' r', range n q = Some (l', r') /\ l' < r').
    { destruct p as [q|q|]; [right|right|left; reflexivity]; exists q; (split; [auto|]); apply range_parent; eauto. }
    destruct Hpar as [->|(q & Hq & l' & r' & Hr & L)]; [lia|].
    assert (Hqi : n <= Zpos q) by (destruct Hq as [->| ->]; lia).
    pose proof (range_w n q Hn l' r' Hr) as W. pose proof (R_bounds q) as RB. pose proof (depth_bounds q) as DB. pose proof (depth_nonneg q) as D0.
    rewrite Z.pow_add_r in DB by lia. change (2 ^ 1) with 2 in DB.
    assert (2 * 2 ^ depth q <= n + R q).
    { assert (2 <= (n + R q) / 2 ^ depth q) by lia. pose proof (Z_div_mod_eq_full (n + R q) (2 ^ depth q)).
      pose proof (Z.mod_pos_bound (n + R q) (2 ^ depth q) ltac:(lia)). nia. }
    (* so 2^d < n <= 2^(d+1) - 1: the depth of q is k *)
    assert (Hd : depth q = k).
    { assert (A1 : 2 ^ depth q < 2 ^ (k + 1)) by (rewrite Z.pow_add_r by lia; change (2 ^ 1) with 2; lia).
      assert (A2 : 2 ^ k < 2 ^ (depth q + 1)) by (rewrite Z.pow_add_r by lia; change (2 ^ 1) with 2; lia).
      apply Z.pow_lt_mono_r_iff in A1; [|lia|lia]. apply Z.pow_lt_mono_r_iff in A2; lia. }
    rewrite Hd in *.
    assert (N1 : n <> 2 ^ k) by lia.
    assert (N2 : n <> 2 ^ k + 1).
    { intros E. assert (RT : R q = 2 ^ depth q - 1) by (rewrite Hd; lia). apply R_top in RT. rewrite Hd in RT. lia. }
    assert (N3 : n <> 2 * 2 ^ k - 1).
    { intros E. assert (RT : Zpos q = 2 ^ (depth q + 1) - 1) by (rewrite Hd, Z.pow_add_r by lia; change (2 ^ 1) with 2; lia).
      apply R_ones in RT. lia. }
    intros j Hj. destruct (Z.lt_trichotomy j k) as [Hjk|[->|Hjk]].
    + assert (2 * 2 ^ j <= 2 ^ k) by (rewrite <- Z.pow_succ_r by lia; apply Z.pow_le_mono_r; lia).
      assert (0 < 2 ^ j) by (apply pow2_pos; lia).
      destruct (Z.eq_dec (2 ^ j) 1); lia.
    + lia.
    + assert (2 * 2 ^ k <= 2 ^ j) by (rewrite <- Z.pow_succ_r by lia; apply Z.pow_le_mono_r; lia). lia.
  - intros H. assert (T : 2 ^ k + 2 <= n <= 2 * 2 ^ k - 2).
    { destruct (H k K0) as (_ & B & C). destruct (H (k + 1) ltac:(lia)) as (D & _). rewrite Z.pow_add_r in D by lia. change (2 ^ 1) with 2 in D. lia. }
    assert (K3 : 1 <= k) by (destruct (Z.eq_dec k 0) as [E|]; [rewrite E in T; cbn in T; lia|lia]).
    assert (Hpow : 2 ^ k = 2 * 2 ^ (k - 1)) by (rewrite <- Z.pow_succ_r by lia; f_equal; lia).
    destruct (Z.le_gt_cases n (2 ^ k + 2 ^ (k - 1))) as [C|C].
    + destruct (oneone_facts (Z.to_nat (k - 1))) as (D & RR & V). rewrite Z2Nat.id in * by lia.
      replace (k - 1 + 1) with k in D by lia.
      apply (bad_of n (oneone (Z.to_nat (k - 1))) Hn); rewrite ?D, ?RR, ?V; lia.
    + destruct (ones_facts (Z.to_nat (k - 1))) as (D & RR & V). rewrite Z2Nat.id in * by lia.
      apply (bad_of n (xO (ones (Z.to_nat (k - 1)))) Hn); cbn [depth R]; rewrite ?(Pos2Z.inj_xO (ones _)), ?D, ?RR, ?V, ?Z.add_simpl_r;
        replace (1 + (k - 1)) with k by lia; lia.
Qed.

(** ** bad sizes are reachable: one update and one query of a bad leaf *)
Lemma query_dirty n k p l : 0 < n -> range n p = Some (l, l) -> 2 * n <= Zpos p ->
  forall fuel a la ra s, len s = 4 * n -> range n a = Some (la, ra) -> desc a p -> ra - la < Z.of_nat fuel ->
  above s a = idt -> E s p <> idt -> query fuel k l l la ra (Zpos a) s = UB.
Proof.
  intros Hn Hp Hbad. pose proof (range_index n p l l Hn Hp) as Hpi.
  induction fuel as [|f IH]; intros a la ra s Hl Ha Hd Hf Hab HE;
    pose proof (range_bounds n a Hn la ra Ha) as Hb; [lia|].
  cbn [query]. pose proof (update_spec n s a la ra Hn Hl Ha) as U.
  destruct (Pos.eq_dec a p) as [->|N].
  - pose proof (update_oob s p la ra ltac:(lia) ltac:(lia)) as O.
    destruct (update (Z.pos p) la ra s) as [s1| | |]; cbn [outc bind] in *; try contradiction; [|reflexivity].
    exfalso. destruct O as [_ O]. apply HE. rewrite E_above, Hab. change (pg s p) with (gt s (Zpos p)). rewrite O. reflexivity.
  - destruct (update (Z.pos a) la ra s) as [s1| | |]; cbn [outc bind] in *; try contradiction; [|reflexivity].
    destruct (range_desc n a Hn p Hd la ra l l Ha Hp) as [B1 B2].
    assert (HE1 : E s1 a = idt) by (rewrite (gu_Ep _ _ _ _ _ _ U); assumption).
    assert (HE2 : E s1 p <> idt) by (rewrite (gu_E _ _ _ _ _ _ U) by congruence; assumption).
    pose proof (gu_len _ _ _ _ _ _ U) as L1.
    destruct (desc_cases a p Hd) as [Q|Hd']; [congruence|].
    assert (Hlt : la < ra).
    { destruct (Z.eq_dec la ra) as [->|]; [|lia]. exfalso.
      assert (R0 : range n a~0 = None /\ range n a~1 = None) by (cbn [range]; rewrite Ha, Z.ltb_irrefl; auto).
      assert (RN : forall x t, range n x = None -> desc x t -> range n t = None).
      { intros x. induction t as [t IHt|t IHt|]; cbn [desc]; intros Hx [Q|Q]; try (rewrite Q; assumption); try contradiction;
          cbn [range]; rewrite (IHt Hx Q); reflexivity. }
      destruct R0 as [R0 R1]. destruct Hd' as [Hd'|Hd']; [rewrite (RN _ _ R0 Hd') in Hp|rewrite (RN _ _ R1 Hd') in Hp]; discriminate. }
    pose proof (mid_bounds la ra Hlt). pose proof (range_l n a la ra Ha Hlt) as Hal. pose proof (range_r n a la ra Ha Hlt) as Har.
    replace ((l <=? la) && (ra <=? l)) with false by lia.
    cbv zeta. change (Z.shiftr (la + ra) 1) with (mid la ra).
    change (2 * Z.pos a) with (Z.pos a~0). change (Z.pos a~0 + 1) with (Z.pos a~1).
    destruct Hd' as [Hd'|Hd'].
    + destruct (range_desc n a~0 Hn p Hd' _ _ l l Hal Hp). replace (l <=? mid la ra) with true by lia.
      apply IH; try assumption; try lia.
    + destruct (range_desc n a~1 Hn p Hd' _ _ l l Har Hp). replace (l <=? mid la ra) with false by lia.
      replace (mid la ra <? l) with true by lia. apply IH; try assumption; try lia.
Qed.
Theorem bad_history v k : v <> [] -> bad (len v) -> exists l, valid_range (len v) l l /\
  (s <- build v ;; s <- interval0 (Add 1) l l s ;; query0 k l l s) = UB.
Proof.
  intros Hv (p & l & Hp & Hbad). assert (Hn : 0 < len v) by (destruct v; [congruence|cbn [length]; lia]).
  pose proof (range_bounds _ p Hn l l Hp) as B. exists l. split; [unfold valid_range; lia|].
  destruct (build_spec v Hv) as (s0 & E0 & L0 & C0 & A0). rewrite E0. cbn [bind].
  unfold interval0. rewrite (size_of _ _ L0).
  pose proof (interval_spec (len v) (Add 1) l l Hn (S (length s0)) xH 0 (len v - 1) s0 L0 eq_refl ltac:(lia) ltac:(lia) ltac:(lia) ltac:(lia) eq_refl) as U.
  destruct (interval (S (length s0)) (Add 1) l l 0 (len v - 1) 1 s0) as [s1| | |]; cbn [outc bind] in *; try contradiction; [|reflexivity].
  destruct U as [L1 F1 Ef1 Fd1]. unfold query0. assert (L1' : len s1 = 4 * len v) by congruence. rewrite (size_of _ _ L1').
  apply (query_dirty (len v) k p l Hn Hp Hbad); try assumption; try reflexivity; try lia.
  - apply desc_root.
  - intros HE. specialize (Ef1 QMax p l l (desc_root p) Hp). unfold eff in Ef1.
    rewrite HE, (clean_E s0 C0), !ap_id, Fd1 in Ef1 by lia. unfold covers in Ef1. rewrite !Z.leb_refl in Ef1.
    cbn [andb ap tagu fst snd] in Ef1. lia.
Qed.
