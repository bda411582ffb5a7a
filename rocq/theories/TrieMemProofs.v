(** Sizes of the arrays of a trie. *)
From Verif Require Import Base TrieModel TrieSpec TrieProofs TrieOpsProofs TrieMemSpec.
Local Open Scope Z_scope.

Lemma binv {A B} (m : outcome A) (k : A -> outcome B) b : (x <- m ;; k x) = Ok b -> exists a, m = Ok a /\ k a = Ok b.
Proof. destruct m; cbn; intros H; try discriminate. eauto. Qed.
Ltac binv H x E := apply binv in H; destruct H as (x & E & H).

Lemma chars_app a b : chars (a ++ b) = chars a + chars b.
Proof. induction a; cbn; [reflexivity|]. fold (chars (a0 ++ b)) (chars a0). lia. Qed.
Lemma chars_nonneg a : 0 <= chars a.
Proof. induction a; cbn; [lia|]. fold (chars a0). lia. Qed.
Lemma chars_empty k : chars (repeat [] k) = 0.
Proof. induction k; cbn; [reflexivity|assumption]. Qed.
Lemma chars_upd l : forall i s, chars (upd l i s) <= chars l + Z.of_nat (length s) - Z.of_nat (length (nth i l [])) .
Proof.
  induction l as [|a l IH]; intros [|i] s; cbn [upd nth length]; unfold chars; cbn [fold_right]; try fold (chars l); try lia.
  fold (chars (upd l i s)). specialize (IH i s). lia.
Qed.

(** ** one assignment *)
Lemma aset_inv {A} (l : list A) i x l' : aset l i x = Ok l' -> 0 <= i < Z.of_nat (length l) /\ l' = upd l (Z.to_nat i) x.
Proof.
  intros H. destruct (Z_lt_dec i 0) as [N|N]; [|destruct (Z_lt_dec i (Z.of_nat (length l))) as [M|M]].
  - unfold aset in H. replace (i <? 0) with true in H by (symmetry; now apply Z.ltb_lt). discriminate H.
  - rewrite aset_ok in H by lia. split; [lia|congruence].
  - unfold aset in H. replace (Z.of_nat (length l) <=? i) with true in H by (symmetry; apply Z.leb_le; lia). rewrite orb_true_r in H. discriminate H.
Qed.
Lemma iset_inv a x v a' : iset a x v = Ok a' ->
  0 <= x /\ Z.of_nat (length a) <= Z.of_nat (length a') <= Z.max (Z.of_nat (length a)) (x + 27) /\
  forall y, In y a' -> y = v \/ y = -1 \/ In y a.
Proof.
  unfold iset, set. intros H. apply aset_inv in H. destruct H as [R ->]. rewrite upd_length.
  split; [lia|]. split.
  - destruct (Z.leb_spec (Z.of_nat (length a)) x); [rewrite app_length, repeat_length|]; lia.
  - intros y I. apply (In_nth _ _ 0) in I. destruct I as (i & L & <-). rewrite upd_length in L.
    destruct (Nat.eq_dec (Z.to_nat x) i) as [<-|N]; [left; apply nth_upd_eq; assumption|]. right. rewrite nth_upd_neq by assumption.
    assert (J : In (nth i (if Z.of_nat (length a) <=? x then a ++ repeat (-1) (Z.to_nat (x + 1 + 26 - Z.of_nat (length a))) else a) 0)
      (if Z.of_nat (length a) <=? x then a ++ repeat (-1) (Z.to_nat (x + 1 + 26 - Z.of_nat (length a))) else a)) by now apply nth_In.
    destruct (_ <=? x); [apply in_app_or in J; destruct J as [J|J]; [now right|left; now apply repeat_spec in J]|now right].
Qed.
Lemma tset_inv a x v a' : tset a x v = Ok a' ->
  0 <= x /\ Z.of_nat (length a') = Z.max (Z.of_nat (length a)) (x + 1) /\ chars a' <= chars a + Z.of_nat (length v) - Z.of_nat (length (tat a x)).
Proof.
  unfold tset, set. intros H. apply aset_inv in H. destruct H as [R ->]. rewrite upd_length.
  split; [lia|]. split.
  - change (@length (list ascii) a) with (@length bytes a) in *. revert R. destruct (_ <=? x) eqn:Q; [apply Z.leb_le in Q|apply Z.leb_gt in Q]; rewrite ?app_length, ?repeat_length; unfold bytes in *; lia.
  - eapply Z.le_trans; [apply chars_upd|]. unfold tat. destruct (_ <=? x); [rewrite chars_app, chars_empty, nth_app_repeat|]; lia.
Qed.
Lemma aget_inv {A} (l : list A) i x : aget l i = Ok x -> 0 <= i < Z.of_nat (length l) /\ In x l /\ forall d, nth (Z.to_nat i) l d = x.
Proof.
  intros H. destruct (Z_lt_dec i 0) as [N|N]; [|destruct (Z_lt_dec i (Z.of_nat (length l))) as [M|M]].
  - unfold aget in H. replace (i <? 0) with true in H by (symmetry; now apply Z.ltb_lt). discriminate H.
  - rewrite (aget_ok l i x) in H by lia. injection H as H. split; [lia|]. split; [rewrite <- H; apply nth_In; lia|].
    intros d. rewrite (nth_indep _ d x) by lia. assumption.
  - unfold aget in H. replace (i <? 0) with false in H by (symmetry; apply Z.ltb_ge; lia). destruct (nth_error l (Z.to_nat i)) eqn:E; [|discriminate].
    assert (Z.to_nat i < length l)%nat by (apply nth_error_Some; congruence). lia.
Qed.

(** ** nothing shrinks *)
Definition mono (t t' : trie) : Prop :=
  (length (base t) <= length (base t'))%nat /\ (length (check t) <= length (check t'))%nat /\ (length (tail t) <= length (tail t'))%nat.
Lemma mono_refl t : mono t t. Proof. unfold mono. lia. Qed.
Lemma mono_trans a b c : mono a b -> mono b c -> mono a c. Proof. unfold mono. lia. Qed.
Lemma setb_mono t x v t' : setb t x v = Ok t' -> mono t t'.
Proof. unfold setb. intros H. binv H a E. injection H as <-. apply iset_inv in E. unfold mono. cbn. lia. Qed.
Lemma setc_mono t x v t' : setc t x v = Ok t' -> mono t t'.
Proof. unfold setc. intros H. binv H a E. injection H as <-. apply iset_inv in E. unfold mono. cbn. lia. Qed.
Lemma sett_mono t x v t' : sett t x v = Ok t' -> mono t t'.
Proof. unfold sett. intros H. binv H a E. injection H as <-. apply tset_inv in E. unfold mono. cbn. lia. Qed.
Lemma nextTail_mono t t' p : nextTail t = (t', p) -> mono t t'.
Proof. unfold nextTail. destruct (tailList t); intros [= <- <-]; unfold mono; cbn; lia. Qed.
Ltac mono1 := first [apply mono_refl | eapply mono_trans; [first [eapply setb_mono; eassumption|eapply setc_mono; eassumption|eapply sett_mono; eassumption|eapply nextTail_mono; eassumption]|]].

Section Maps.
Context (smap omap : ascii -> outcome Z).
Lemma setTail_mono t n x r t' : setTail t n x r = Ok t' -> mono t t'.
Proof.
  unfold setTail. destruct (nextTail t) as [t1 p] eqn:E. intros H. binv H t2 E2. binv H t3 E3.
  repeat (mono1; try eassumption).
Qed.
Lemma chain_mono l : forall t x t' x', chain_loop smap t x l = Ok (t', x') -> mono t t'.
Proof.
  induction l as [|c l IH]; cbn [chain_loop]; intros t x t' x' H; [injection H as <- <-; apply mono_refl|].
  binv H j E1. binv H a E2. binv H t1 E3. binv H t2 E4. binv H b E5. apply IH in H. mono1. mono1. assumption.
Qed.
Lemma split_mono t x r t' : split_leaf smap omap t x r = Ok t' -> mono t t'.
Proof.
  unfold split_leaf. intros H. binv H b E1. binv H s E2. binv H y E3. destruct y as [t1 x1]. apply chain_mono in E3.
  eapply mono_trans; [exact E3|]. clear E3. binv H c1 F1. binv H v1 F2. binv H c2 F3. binv H v2 F4. binv H q F5.
  binv H t2 G1. binv H t3 G2. binv H t4 G3. binv H t5 G4. mono1.
  assert (M3 : mono t2 t3).
  { destruct (Ascii.eqb c1 endChar); binv G2 u K; [injection G2 as <-; apply setb_mono in K; exact K|]. mono1. eapply sett_mono; eassumption. }
  eapply mono_trans; [exact M3|]. mono1.
  assert (M5 : mono t4 t5).
  { destruct (Ascii.eqb c2 endChar); [eapply setb_mono; eassumption|]. destruct (nextTail t4) as [u p] eqn:N. binv G4 u' K. mono1. mono1. eapply sett_mono; eassumption. }
  eapply mono_trans; [exact M5|]. eapply setc_mono; eassumption.
Qed.
Lemma reparent_mono l : forall t o n t', reparent_loop t o n l = Ok t' -> mono t t'.
Proof.
  induction l as [|c l IH]; cbn [reparent_loop]; intros t x n t' H; [injection H as <-; apply mono_refl|].
  binv H b E1. binv H t1 E3. apply IH in H. mono1. assumption.
Qed.
Lemma move_mono l : forall t a b o t' o', move_loop t a b o l = Ok (t', o') -> mono t t'.
Proof.
  induction l as [|c l IH]; cbn [move_loop]; intros t x n o t' o' H; [injection H as <- <-; apply mono_refl|].
  binv H b E1. binv H t1 E2. binv H d E3. binv H t2 E4. binv H b' E5. binv H t3 E6. binv H t4 E7. binv H t5 E8. apply IH in H.
  mono1. mono1. eapply mono_trans with t3.
  { destruct (b' >? -1); [binv E6 li K; now apply reparent_mono in E6|injection E6 as <-; apply mono_refl]. }
  mono1. mono1. assumption.
Qed.
Lemma resolve_mono t n x i r t' : resolve_conflict t n x i r = Ok t' -> mono t t'.
Proof.
  unfold resolve_conflict. intros H. binv H ln E1. binv H m E2. binv H lc E3. binv H y E4. destruct y as [[nm ml] nb]. binv H tb E5. binv H t1 E6.
  binv H z E7. destruct z as [t2 no]. apply move_mono in E7. binv H b E8. binv H t3 E9. mono1. eapply mono_trans; [exact E7|].
  eapply mono_trans with t3; [|eapply setc_mono; eassumption].
  destruct (i =? 1); [eapply setb_mono; eassumption|]. destruct (nextTail t2) as [u p] eqn:N. binv E9 u' K. mono1. mono1. eapply sett_mono; eassumption.
Qed.
Lemma insert_mono l : forall t n t', insert_loop smap omap t n l = Ok t' -> mono t t'.
Proof.
  induction l as [|ch rest IH]; cbn [insert_loop]; intros t n t' H; [injection H as <-; apply mono_refl|].
  binv H i E1. binv H bn E2. binv H c E3. destruct (c =? -1); [now apply setTail_mono in H|].
  binv H c' E4. destruct (c' =? n); [|now apply resolve_mono in H]. binv H b E5. destruct (b <? -1); [now apply split_mono in H|eauto].
Qed.
Lemma remove_mono l : forall t n t' b, remove_loop smap t n l = Ok (t', b) -> mono t t'.
Proof.
  induction l as [|ch rest IH]; cbn [remove_loop]; intros t n t' r H.
  - binv H t1 E. injection H as <- <-. eapply setc_mono; eassumption.
  - binv H i E1. binv H bn E2. binv H c E3. destruct (negb _); [injection H as <- <-; apply mono_refl|].
    binv H b E4. destruct (b <? -1); [|eauto]. binv H s E5. destruct (list_eq_dec _ _ _); [|injection H as <- <-; apply mono_refl].
    binv H t1 E6. binv H t2 E7. injection H as <- <-. mono1. eapply setc_mono; eassumption.
Qed.

(** ** upper bounds *)
Definition Bnd (L B : Z) (t : trie) : Prop :=
  Z.of_nat (length (base t)) <= L /\ Z.of_nat (length (check t)) <= L /\ forall y, In y (base t) -> y <= B.
Definition same_tails (t t' : trie) : Prop := tail t' = tail t /\ pos t' = pos t /\ tailList t' = tailList t.
Lemma same_trans a b c : same_tails a b -> same_tails b c -> same_tails a c.
Proof. unfold same_tails. intros (?&?&?) (?&?&?). repeat split; congruence. Qed.
Lemma same_refl a : same_tails a a. Proof. repeat split. Qed.
Lemma Bnd_le L B L' B' t : Bnd L B t -> L <= L' -> B <= B' -> Bnd L' B' t.
Proof. intros (?&?&H) ? ?. split; [lia|]. split; [lia|]. intros y I. apply H in I. lia. Qed.
Lemma setb_bnd L B t x v t' : setb t x v = Ok t' -> Bnd L B t -> x + 27 <= L -> v <= B -> -1 <= B -> Bnd L B t' /\ same_tails t t'.
Proof.
  unfold setb. intros H (P1&P2&P3) ? ? ?. binv H a E. injection H as <-. apply iset_inv in E. destruct E as (R1 & R2 & R3).
  split; [|repeat split]. unfold Bnd. cbn. split; [lia|]. split; [lia|]. intros y I. apply R3 in I. destruct I as [I|[I|I]]; [lia|lia|auto].
Qed.
Lemma setc_bnd L B t x v t' : setc t x v = Ok t' -> Bnd L B t -> x + 27 <= L -> Bnd L B t' /\ same_tails t t'.
Proof.
  unfold setc. intros H (P1&P2&P3) ?. binv H a E. injection H as <-. apply iset_inv in E. destruct E as (R1 & R2 & R3).
  split; [|repeat split]. unfold Bnd. cbn. split; [lia|]. split; [lia|]. auto.
Qed.
Lemma iget_bnd L B t x v : iget (base t) x = Ok v -> Bnd L B t -> v <= B /\ x < L.
Proof. intros H (P1&P2&P3). apply aget_inv in H. destruct H as (R & I & _). split; [now apply P3|lia]. Qed.
Lemma cget_bnd L B t x v : iget (check t) x = Ok v -> Bnd L B t -> x < L.
Proof. intros H (P1&P2&P3). apply aget_inv in H. lia. Qed.
Lemma avail_le f c l : forall q r, avail_loop f c q l = Ok r -> r < q + Z.of_nat f.
Proof.
  induction f as [|f IH]; cbn [avail_loop]; intros q r H; [discriminate|]. binv H b E. destruct b; [injection H as <-; lia|]. apply IH in H. lia.
Qed.
Lemma avail_bnd L B t l q : checkAvailable t l = Ok q -> Bnd L B t -> q <= L.
Proof. unfold checkAvailable. intros H (P1&P2&P3). apply avail_le in H. lia. Qed.
Lemma arcs_le k t n bn : forall i l, arcs_loop k t n bn i = Ok l -> Forall (fun j => j < i + Z.of_nat k) l.
Proof.
  induction k as [|k IH]; cbn [arcs_loop]; intros i l H; [injection H as <-; constructor|]. binv H c E. binv H r E2. apply IH in E2.
  assert (Forall (fun j => j < i + Z.of_nat (S k)) r) by (eapply Forall_impl; [|exact E2]; cbn; intros; lia).
  destruct (c =? n); injection H as <-; [constructor; [lia|]|]; assumption.
Qed.
Lemma outArcs_le t n l : outArcs t n = Ok l -> Forall (fun j => j <= 27) l.
Proof. unfold outArcs. intros H. binv H b E. apply arcs_le in H. eapply Forall_impl; [|exact H]. cbn. intros. lia. Qed.

Definition Tails (P C : Z) (t : trie) : Prop :=
  Z.of_nat (length (tail t)) = pos t /\ pos t <= P /\ chars (tail t) <= C /\ Forall (fun x => 0 <= x < pos t) (tailList t).
Lemma Tails_same P C t t' : same_tails t t' -> Tails P C t -> Tails P C t'.
Proof. intros (E1&E2&E3). unfold Tails. now rewrite E1, E2, E3. Qed.
Lemma Tails_le P C P' C' t : Tails P C t -> P <= P' -> C <= C' -> Tails P' C' t.
Proof. intros (?&?&?&?) ? ?. refine (conj _ (conj _ (conj _ _))); [lia|lia|lia|assumption]. Qed.
Lemma tails_next P C t t1 p t2 s t3 : Tails P C t -> nextTail t = (t1, p) -> same_tails t1 t2 -> sett t2 p s = Ok t3 ->
  Tails (P + 1) (C + Z.of_nat (length s)) t3 /\ base t3 = base t2 /\ check t3 = check t2.
Proof.
  intros (T1&T2&T3&T4) N (S1&S2&S3) H. unfold sett in H. binv H a E. injection H as <-. split; [|split; reflexivity].
  apply tset_inv in E. destruct E as (R1 & R2 & R3). unfold Tails. cbn [with_tail tail pos tailList]. rewrite S1 in *. rewrite S2, S3.
  unfold nextTail in N. destruct (tailList t) as [|h q] eqn:Q; injection N as <- <-; cbn [tail pos tailList] in *; unfold bytes in *.
  - refine (conj _ (conj _ (conj _ _))); [lia|lia|lia|constructor].
  - inversion T4; subst. refine (conj _ (conj _ (conj _ _))); [lia|lia|lia|assumption].
Qed.
Lemma next_same t t1 p : nextTail t = (t1, p) -> base t1 = base t /\ check t1 = check t.
Proof. unfold nextTail. destruct (tailList t); intros [= <- <-]; auto. Qed.
Lemma Bnd_same L B t t' : base t' = base t -> check t' = check t -> Bnd L B t -> Bnd L B t'.
Proof. unfold Bnd. now intros -> ->. Qed.
Lemma next_val t t1 p P C : nextTail t = (t1, p) -> Tails P C t -> 0 <= p.
Proof. unfold nextTail. intros N (T1&T2&T3&T4). destruct (tailList t) as [|h q]; injection N as <- <-; [lia|]. inversion T4; lia. Qed.

Context (smap_le : forall c n, smap c = Ok n -> n <= 27) (omap_le : forall c n, omap c = Ok n -> n <= 27).

Lemma setTail_bnd M P C t n x r t' : 0 <= M -> setTail t n x r = Ok t' -> Bnd M M t -> Tails P C t -> x <= M + 27 ->
  Bnd (M + 54) (M + 54) t' /\ Tails (P + 1) (C + Z.of_nat (length r)) t'.
Proof.
  unfold setTail. intros HM H HB HT Hx. destruct (nextTail t) as [t1 p] eqn:N. binv H t2 E2. binv H t3 E3.
  destruct (tails_next _ _ _ _ _ _ _ _ HT N (same_refl t1) E2) as (T & S1 & S2). pose proof (next_val _ _ _ _ _ N HT). destruct (next_same _ _ _ N) as [S3 S4].
  assert (B2 : Bnd (M + 54) (M + 54) t2) by (eapply Bnd_le; [eapply Bnd_same; [| |exact HB]; congruence|lia|lia]).
  destruct (setb_bnd _ _ _ _ _ _ E3 B2) as [B3 S5]; try lia. destruct (setc_bnd _ _ _ _ _ _ H B3) as [B4 S6]; try lia.
  split; [assumption|]. eapply Tails_same; [exact (same_trans _ _ _ S5 S6)|assumption].
Qed.
Lemma chain_bnd l : forall M t x t' x', 0 <= M -> chain_loop smap t x l = Ok (t', x') -> Bnd M M t -> x <= M + 27 ->
  Bnd (M + 54 * Z.of_nat (length l)) (M + 54 * Z.of_nat (length l)) t' /\ x' <= M + 54 * Z.of_nat (length l) + 27 /\ same_tails t t'.
Proof.
  induction l as [|c l IH]; cbn [chain_loop]; intros M t x t' x' HM H HB Hx.
  - injection H as <- <-. cbn [length]. change (54 * Z.of_nat 0) with 0. rewrite Z.add_0_r. split; [assumption|]. split; [lia|apply same_refl].
  - binv H j E1. binv H a E2. binv H t1 E3. binv H t2 E4. binv H b E5. apply smap_le in E1. pose proof (avail_bnd _ _ _ _ _ E2 HB) as Ha.
    assert (B0 : Bnd (M + 54) M t) by (eapply Bnd_le; [exact HB|lia|lia]).
    destruct (setb_bnd _ _ _ _ _ _ E3 B0) as [B1 S1]; try lia. destruct (setc_bnd _ _ _ _ _ _ E4 B1) as [B2 S2]; try lia.
    destruct (iget_bnd _ _ _ _ _ E5 B2) as [Hb _].
    assert (B3 : Bnd (M + 54) (M + 54) t2) by (eapply Bnd_le; [exact B2|lia|lia]).
    destruct (IH (M + 54) _ _ _ _ ltac:(lia) H B3 ltac:(lia)) as (R1 & R2 & R3). cbn [length].
    replace (M + 54 * Z.of_nat (S (length l))) with (M + 54 + 54 * Z.of_nat (length l)) by lia.
    split; [assumption|]. split; [assumption|]. eauto using same_trans.
Qed.
Lemma common_le a : forall b, (length (common a b) <= length a)%nat /\ (length (common a b) <= length b)%nat.
Proof. induction a as [|x a IH]; intros [|y b]; cbn [common length]; try lia. destruct (Ascii.eqb x y); cbn [length]; [specialize (IH b); lia|lia]. Qed.
Lemma prefix_le a b : (length (commonPrefix a b) <= length a)%nat.
Proof.
  unfold commonPrefix. destruct (Nat.ltb_spec (length b) (length a)).
  - pose proof (common_le b a). destruct (Nat.eqb _ _); [destruct (Nat.eqb _ _); cbn [length]|]; lia.
  - pose proof (common_le a b). destruct (Nat.eqb _ _); [destruct (Nat.eqb _ _); cbn [length]|]; lia.
Qed.
Lemma sett_tails P C t x s t' : sett t x s = Ok t' -> Tails P C t -> x < pos t -> (length s <= length (tat (tail t) x))%nat -> Tails P C t' /\ base t' = base t /\ check t' = check t.
Proof.
  unfold sett. intros H (T1&T2&T3&T4) Hx Hs. binv H a E. injection H as <-. apply tset_inv in E. destruct E as (R1&R2&R3). split; [|split; reflexivity].
  unfold Tails. cbn [with_tail tail pos tailList]. unfold bytes in *. refine (conj _ (conj _ (conj _ _))); [lia|lia|lia|assumption].
Qed.
Lemma split_bnd M P C t x r t' : 0 <= M -> split_leaf smap omap t x r = Ok t' -> Bnd M M t -> Tails P C t ->
  Bnd (M + 54 * (Z.of_nat (length r) + 1)) (M + 54 * (Z.of_nat (length r) + 1)) t' /\ Tails (P + 1) (C + Z.of_nat (length r)) t'.
Proof.
  unfold split_leaf. intros HM H HB HT. binv H b E1. destruct (iget_bnd _ _ _ _ _ E1 HB) as [Hb Hx]. binv H s E2. binv H y E3. destruct y as [t1 x1].
  destruct (chain_bnd _ _ _ _ _ _ HM E3 HB ltac:(lia)) as (B1 & Hx1 & S1). pose proof (prefix_le r s) as HP. set (k := length (commonPrefix r s)) in *.
  assert (T1 : Tails P C t1) by now apply Tails_same with t. set (M1 := M + 54 * Z.of_nat k) in *. assert (HM1 : 0 <= M1) by lia.
  binv H c1 F1. binv H v1 F2. binv H c2 F3. binv H v2 F4. binv H q F5. apply omap_le in F2, F4. pose proof (avail_bnd _ _ _ _ _ F5 B1) as Hq.
  binv H t2 G1. binv H t3 G2. binv H t4 G3. binv H t5 G4.
  assert (B1' : Bnd (M1 + 54) M1 t1) by (eapply Bnd_le; [exact B1|lia|lia]).
  destruct (setb_bnd _ _ _ _ _ _ G1 B1') as [B2 S2]; try lia. assert (T2 : Tails P C t2) by now apply Tails_same with t1.
  assert (B3 : Bnd (M1 + 54) M1 t3 /\ Tails P C t3).
  { apply aget_inv in E2. destruct E2 as (R & _ & Rv). destruct S1 as (Q1 & Q2 & Q3), S2 as (Q4 & Q5 & Q6).
    assert (HL : - b - 2 < pos t) by (destruct HT as (K & _); lia).
    destruct (Ascii.eqb c1 endChar); binv G2 u K.
    - destruct (setb_bnd _ _ _ _ _ _ K B2) as [B3 S3]; try lia. injection G2 as <-. split; [exact B3|].
      destruct (Tails_same _ _ _ _ S3 T2) as (W1&W2&W3&W4). refine (conj _ (conj _ (conj _ _))); cbn; [assumption..|]. apply Forall_app. split; [assumption|].
      constructor; [|constructor]. destruct S3 as (_ & K2 & _). rewrite K2. lia.
    - destruct (setb_bnd _ _ _ _ _ _ K B2) as [B3 S3]; try lia.
      pose proof (Tails_same _ _ _ _ S3 T2) as T3. destruct (sett_tails _ _ _ _ _ _ G2 T3) as (T4 & W1 & W2).
      + destruct S3 as (_ & K2 & _). rewrite K2. lia.
      + destruct S3 as (K1 & _). rewrite K1, Q4, Q1. unfold tat. rewrite Rv, skipn_length. lia.
      + split; [eapply Bnd_same; eassumption|assumption]. }
  destruct B3 as [B3 T3]. destruct (setc_bnd _ _ _ _ _ _ G3 B3) as [B4 S4]; try lia. assert (T4 : Tails P C t4) by now apply Tails_same with t3.
  assert (B5 : Bnd (M1 + 54) M1 t5 /\ Tails (P + 1) (C + Z.of_nat (length r)) t5).
  { destruct (Ascii.eqb c2 endChar).
    - destruct (setb_bnd _ _ _ _ _ _ G4 B4) as [B5 S5]; try lia. split; [assumption|]. eapply Tails_le; [eapply Tails_same; eassumption|lia|lia].
    - destruct (nextTail t4) as [u p] eqn:N. binv G4 u' K. destruct (next_same _ _ _ N) as [W1 W2]. pose proof (next_val _ _ _ _ _ N T4).
      assert (Bu : Bnd (M1 + 54) M1 u) by now apply Bnd_same with t4.
      destruct (setb_bnd _ _ _ _ _ _ K Bu) as [B5 S5]; try lia.
      destruct (tails_next _ _ _ _ _ _ _ _ T4 N S5 G4) as (T5 & W3 & W4). split; [now apply Bnd_same with u'|].
      eapply Tails_le; [exact T5|lia|]. rewrite skipn_length. lia. }
  destruct B5 as [B5 T5]. destruct (setc_bnd _ _ _ _ _ _ H B5) as [B6 S6]; try lia.
  split; [eapply Bnd_le; [exact B6|lia|lia]|now apply Tails_same with t5].
Qed.
Lemma reparent_bnd M l : Forall (fun j => j <= 27) l -> forall t o n t', reparent_loop t o n l = Ok t' -> Bnd (M + 54) M t -> Bnd (M + 54) M t' /\ same_tails t t'.
Proof.
  induction 1 as [|c l Hc Hl IH]; cbn [reparent_loop]; intros t o n t' H HB; [injection H as <-; split; [assumption|apply same_refl]|].
  binv H b E1. binv H t1 E2. destruct (iget_bnd _ _ _ _ _ E1 HB) as [Hb _]. destruct (setc_bnd _ _ _ _ _ _ E2 HB) as [B1 S1]; [lia|].
  destruct (IH _ _ _ _ H B1) as [B2 S2]. split; [assumption|eauto using same_trans].
Qed.
Lemma move_bnd M l : 0 <= M -> Forall (fun j => j <= 27) l -> forall t a b o t' o', move_loop t a b o l = Ok (t', o') -> Bnd (M + 54) M t -> a <= M -> b <= M ->
  Bnd (M + 54) M t' /\ same_tails t t'.
Proof.
  intros HM. induction 1 as [|c l Hc Hl IH]; cbn [move_loop]; intros t a b o t' o' H HB Ha Hb; [injection H as <- <-; split; [assumption|apply same_refl]|].
  binv H v E1. binv H t1 E2. binv H d E3. binv H t2 E4. binv H v' E5. binv H t3 E6. binv H t4 E7. binv H t5 E8.
  destruct (iget_bnd _ _ _ _ _ E1 HB) as [Hv _]. destruct (setb_bnd _ _ _ _ _ _ E2 HB) as [B1 S1]; try lia.
  destruct (setc_bnd _ _ _ _ _ _ E4 B1) as [B2 S2]; try lia.
  assert (B3 : Bnd (M + 54) M t3 /\ same_tails t2 t3).
  { destruct (v' >? -1); [|injection E6 as <-; split; [assumption|apply same_refl]]. binv E6 li K. eapply reparent_bnd; [eapply outArcs_le; exact K|exact E6|assumption]. }
  destruct B3 as [B3 S3]. destruct (setb_bnd _ _ _ _ _ _ E7 B3) as [B4 S4]; try lia. destruct (setc_bnd _ _ _ _ _ _ E8 B4) as [B5 S5]; try lia.
  destruct (IH _ _ _ _ _ _ H B5 Ha Hb) as [B6 S6]. split; [assumption|]. eauto 8 using same_trans.
Qed.
Lemma resolve_bnd M P C t n x i r t' : 0 <= M -> i <= 27 -> resolve_conflict t n x i r = Ok t' -> Bnd M M t -> Tails P C t ->
  Bnd (M + 54) (M + 54) t' /\ Tails (P + 1) (C + Z.of_nat (length r)) t'.
Proof.
  unfold resolve_conflict. intros HM Hi H HB HT. binv H ln E1. binv H m E2. binv H lc E3. binv H y E4. destruct y as [[nm ml] nb]. binv H tb E5. binv H t1 E6.
  apply outArcs_le in E1, E3.
  assert (K : nb <= M /\ Forall (fun j => j <= 27) ml).
  { destruct (Nat.ltb _ _); binv E4 z K; injection E4 as <- <- <-; (split; [eapply avail_bnd; eassumption|assumption]). }
  destruct K as [Hnb Hml]. destruct (iget_bnd _ _ _ _ _ E5 HB) as [Htb Hnm].
  assert (B0 : Bnd (M + 54) M t) by (eapply Bnd_le; [exact HB|lia|lia]).
  destruct (setb_bnd _ _ _ _ _ _ E6 B0) as [B1 S1]; try lia. binv H z E7. destruct z as [t2 no].
  destruct (move_bnd M ml HM Hml _ _ _ _ _ _ E7 B1 Htb Hnb) as [B2 S2]. binv H b E8. destruct (iget_bnd _ _ _ _ _ E8 B2) as [Hb _]. binv H t3 E9.
  assert (T2 : Tails P C t2) by (eapply Tails_same; [exact (same_trans _ _ _ S1 S2)|assumption]).
  assert (B3 : Bnd (M + 54) M t3 /\ Tails (P + 1) (C + Z.of_nat (length r)) t3).
  { destruct (i =? 1).
    - destruct (setb_bnd _ _ _ _ _ _ E9 B2) as [B5 S5]; try lia. split; [assumption|]. eapply Tails_le; [eapply Tails_same; eassumption|lia|lia].
    - destruct (nextTail t2) as [u p] eqn:N. binv E9 u' K. destruct (next_same _ _ _ N) as [W1 W2]. pose proof (next_val _ _ _ _ _ N T2).
      assert (Bu : Bnd (M + 54) M u) by now apply Bnd_same with t2.
      destruct (setb_bnd _ _ _ _ _ _ K Bu) as [B5 S5]; try lia.
      destruct (tails_next _ _ _ _ _ _ _ _ T2 N S5 E9) as (T5 & W3 & W4). split; [now apply Bnd_same with u'|assumption]. }
  destruct B3 as [B3 T3]. destruct (setc_bnd _ _ _ _ _ _ H B3) as [B6 S6]; try lia.
  split; [eapply Bnd_le; [exact B6|lia|lia]|now apply Tails_same with t3].
Qed.
Lemma insert_loop_bnd l : forall M P C t n t', 0 <= M -> insert_loop smap omap t n l = Ok t' -> Bnd M M t -> Tails P C t ->
  Bnd (M + 54 * Z.of_nat (length l)) (M + 54 * Z.of_nat (length l)) t' /\ Tails (P + 1) (C + Z.of_nat (pred (length l))) t'.
Proof.
  induction l as [|ch rest IH]; cbn [insert_loop length pred]; intros M P C t n t' HM H HB HT.
  - injection H as <-. split; [eapply Bnd_le; [exact HB|lia|lia]|eapply Tails_le; [exact HT|lia|lia]].
  - binv H i E1. apply smap_le in E1. binv H bn E2. destruct (iget_bnd _ _ _ _ _ E2 HB) as [Hbn _]. binv H c E3. destruct (c =? -1).
    + destruct (setTail_bnd _ _ _ _ _ _ _ _ HM H HB HT ltac:(lia)) as [B T]. split; [eapply Bnd_le; [exact B|lia|lia]|assumption].
    + binv H c' E4. destruct (c' =? n).
      * binv H b E5. destruct (b <? -1).
        -- destruct (split_bnd _ _ _ _ _ _ _ HM H HB HT) as [B T]. split; [eapply Bnd_le; [exact B|lia|lia]|assumption].
        -- destruct (IH _ _ _ _ _ _ HM H HB HT) as [B T]. split; [eapply Bnd_le; [exact B|lia|lia]|eapply Tails_le; [exact T|lia|lia]].
      * destruct (resolve_bnd _ _ _ _ _ _ _ _ _ HM E1 H HB HT) as [B T]. split; [eapply Bnd_le; [exact B|lia|lia]|assumption].
Qed.
Lemma remove_loop_bnd M l : 27 <= M -> forall P C t n t' r, remove_loop smap t n l = Ok (t', r) -> Bnd M M t -> Tails P C t ->
  n = 0 \/ 0 <= n < Z.of_nat (length (check t)) -> Bnd M M t' /\ Tails P C t'.
Proof.
  intros HM. assert (INC : forall t x v t', setc t x v = Ok t' -> Bnd M M t -> x = 0 \/ x < Z.of_nat (length (check t)) -> Bnd M M t' /\ same_tails t t').
  { unfold setc. intros t x v t' H (P1&P2&P3) Hx. binv H a E. injection H as <-. split; [|repeat split]. unfold Bnd. cbn. split; [assumption|]. split; [|assumption].
    apply iset_inv in E as E'. destruct Hx as [->|Hx]; [lia|]. unfold iset, set in E. destruct (Z.leb_spec (Z.of_nat (length (check t))) x); [lia|]. apply aset_inv in E. destruct E as [_ ->]. now rewrite upd_length. }
  assert (INB : forall t x t', setb t x (-1) = Ok t' -> Bnd M M t -> x < Z.of_nat (length (base t)) -> Bnd M M t' /\ same_tails t t').
  { unfold setb. intros t x t' H (P1&P2&P3) Hx. binv H a E. injection H as <-. split; [|repeat split]. unfold Bnd. cbn. apply iset_inv in E as E'. destruct E' as (_ & _ & E').
    unfold iset, set in E. destruct (Z.leb_spec (Z.of_nat (length (base t))) x); [lia|]. apply aset_inv in E. destruct E as [_ EE].
    split; [rewrite EE, upd_length; assumption|]. split; [assumption|]. intros y I. apply E' in I. destruct I as [I|[I|I]]; [lia|lia|auto]. }
  induction l as [|ch rest IH]; cbn [remove_loop]; intros P C t n t' r H HB HT Hn.
  - binv H t1 E. injection H as <- <-. destruct (INC _ _ _ _ E HB ltac:(lia)) as [B S]. split; [assumption|now apply Tails_same with t].
  - binv H i E1. binv H bn E2. binv H c E3. destruct (negb _); [injection H as <- <-; auto|].
    apply aget_inv in E3. destruct E3 as (R3 & _). binv H b E4. destruct (b <? -1); [|eapply IH; eauto].
    apply aget_inv in E4. destruct E4 as (R4 & _).
    binv H s E5. destruct (list_eq_dec _ _ _); [|injection H as <- <-; auto]. binv H t1 E6. binv H t2 E7. injection H as <- <-.
    destruct (INB _ _ _ E6 HB ltac:(lia)) as [B1 S1].
    assert (check t1 = check t). { unfold setb in E6. binv E6 a K. injection E6 as <-. reflexivity. }
    destruct (INC _ _ _ _ E7 B1) as [B2 S2]; [right; rewrite H; lia|]. split; [assumption|]. eapply Tails_same; [exact (same_trans _ _ _ S1 S2)|assumption].
Qed.
End Maps.

Lemma step_mono f t o t' a : step f t o = Ok (t', a) -> mono t t'.
Proof.
  destruct o as [w|w|w]; cbn [step]; intros H.
  - binv H t1 E. injection H as <- <-. unfold insert in E. binv E b E1. destruct b; [injection E as <-; apply mono_refl|]. binv E t2 E2. injection E as <-. apply insert_mono in E2. exact E2.
  - binv H t1 E. injection H as <- <-. unfold remove in E. binv E y E1. destruct y as [t2 r]. injection E as <-. apply remove_mono in E1. destruct r; exact E1.
  - binv H b E. injection H as <- <-. apply mono_refl.
Qed.
Lemma run_bnd f (F : forall c n, f c = Ok n -> n <= 27) ops : forall M P C t t' a, 27 <= M -> run f t ops = Ok (t', a) -> Bnd M M t -> Tails P C t ->
  Bnd (M + 54 * (letters ops + inserts ops)) (M + 54 * (letters ops + inserts ops)) t' /\ Tails (P + inserts ops) (C + letters ops) t'.
Proof.
  induction ops as [|o ops IH]; cbn [run]; intros M P C t t' a HM H HB HT.
  - injection H as <- <-. cbn [letters inserts]. change (54 * (0 + 0)) with 0. now rewrite !Z.add_0_r.
  - binv H y E. destruct y as [t1 a1]. binv H z E'. destruct z as [t2 a2]. injection H as <- <-. destruct o as [w|w|w]; cbn [step] in E; cbn [letters inserts].
    + binv E u E1. injection E as <- <-.
      assert (K : Bnd (M + 54 * (Z.of_nat (length w) + 1)) (M + 54 * (Z.of_nat (length w) + 1)) u /\ Tails (P + 1) (C + Z.of_nat (length w)) u).
      { unfold insert in E1. binv E1 b E2. destruct b; [injection E1 as <-; split; [eapply Bnd_le; [exact HB|lia|lia]|eapply Tails_le; [exact HT|lia|lia]]|].
        binv E1 v E3. injection E1 as <-. destruct (insert_loop_bnd f f F F _ M P C _ _ _ ltac:(lia) E3 HB HT) as [B T].
        rewrite app_length in B, T. cbn [length] in B, T. replace (pred (length w + 1)) with (length w) in T by lia.
        split; [|exact T]. replace (Z.of_nat (length w) + 1) with (Z.of_nat (length w + 1)) by lia. exact B. }
      destruct K as [B T]. destruct (IH (M + 54 * (Z.of_nat (length w) + 1)) _ _ _ _ _ ltac:(lia) E' B T) as [B' T']. split.
      * eapply Bnd_le; [exact B'|lia|lia].
      * eapply Tails_le; [exact T'|lia|lia].
    + binv E u E1. injection E as <- <-.
      assert (K : Bnd M M u /\ Tails P C u).
      { unfold remove in E1. binv E1 v E2. destruct v as [v r]. injection E1 as <-. destruct (remove_loop_bnd f f F F M _ HM P C _ _ _ _ E2 HB HT) as [B T]; [auto|].
        destruct r; (split; [exact B|exact T]). }
      destruct K as [B T]. exact (IH _ _ _ _ _ _ HM E' B T).
    + binv E u E1. injection E as <- <-. exact (IH _ _ _ _ _ _ HM E' HB HT).
Qed.
Lemma client_bnd f (F : forall c n, f c = Ok n -> n <= 27) ops t a : client f ops = Ok (t, a) ->
  Bnd (27 + 54 * (letters ops + inserts ops)) (27 + 54 * (letters ops + inserts ops)) t /\ Tails (inserts ops) (letters ops) t.
Proof.
  unfold client. intros H. binv H t0 E. apply (run_bnd f F ops 27 0 0 t0 t a ltac:(lia) H).
  - vm_compute in E. injection E as <-. unfold Bnd. cbn [base check length]. split; [vm_compute; discriminate|]. split; [vm_compute; discriminate|].
    intros y I. repeat (destruct I as [<-|I]; [lia|]). destruct I.
  - vm_compute in E. injection E as <-. unfold Tails. cbn. refine (conj _ (conj _ (conj _ _))); [lia|lia|lia|constructor].
Qed.

(** ** what removal keeps *)
Record Empty (n : nat) (k : Z) (t : trie) : Prop := {
  e_base : forall y, at_ (base t) y = if y =? 0 then 0 else -1;
  e_check : forall y, at_ (check t) y = -1;
  e_list : tailList t = [];
  e_pos : pos t = k;
  e_tail : Z.of_nat (length (tail t)) = k;
  e_chars : chars (tail t) = k * Z.of_nat n }.

Lemma chars_last l s : forall a', tset l (Z.of_nat (length l)) s = Ok a' -> chars a' = chars l + Z.of_nat (length s) /\ Z.of_nat (length a') = Z.of_nat (length l) + 1.
Proof.
  intros a' H. unfold tset, set in H. unfold bytes in *. rewrite Z.leb_refl in H. replace (Z.to_nat (Z.of_nat (length l) + 1 + 0 - Z.of_nat (length l))) with 1%nat in H by lia.
  cbn [repeat] in H. apply aset_inv in H. destruct H as [_ ->]. rewrite Nat2Z.id, upd_length, app_length. cbn [length]. split; [|lia].
  assert (U : upd (l ++ [[]]) (length l) s = l ++ [s]). { clear. induction l as [|x l IH]; cbn; [reflexivity|now rewrite IH]. }
  rewrite U, chars_app. cbn. lia.
Qed.
Lemma cycle_ok f ch rest i k t : f ch = Ok i -> 1 <= i <= 27 -> Empty (length rest) k t ->
  forall w, w ++ [endChar] = ch :: rest ->
  exists t1 t2, insert f f t w = Ok t1 /\ remove f t1 w = Ok t2 /\ Empty (length rest) (k + 1) t2.
Proof.
  intros Fi Hi [EB EC EL EP ET EX] w Ew.
  assert (B0 : iget (base t) 0 = Ok 0). { rewrite iget_live; rewrite EB; [reflexivity|discriminate]. }
  unfold insert, contain, retrieve, remove. rewrite Ew. cbn [retrieve_loop insert_loop]. rewrite Fi, B0. cbn [bind]. rewrite Z.add_0_l.
  rewrite igetc_at, EC by lia. cbn [bind Z.eqb Pos.eqb negb]. change (-1 =? -1) with true. cbv iota.
  unfold setTail, nextTail. rewrite EL. set (t0 := Trie (base t) (check t) (tail t) (pos t + 1) [] (size t)).
  destruct (sett_spec t0 (pos t) rest ltac:(lia)) as (t1 & E1 & X1 & X2 & X3 & X4 & X5 & X6 & _). rewrite E1. cbn [bind].
  assert (K1 : chars (tail t1) = chars (tail t) + Z.of_nat (length rest) /\ Z.of_nat (length (tail t1)) = k + 1).
  { unfold sett in E1. destruct (binv _ _ _ E1) as (a & Ea & Eb). injection Eb as Eb. rewrite <- Eb. cbn [with_tail tail]. cbn [t0 tail] in Ea.
    rewrite EP, <- ET in Ea. apply chars_last in Ea. rewrite <- ET. exact Ea. }
  assert (XT : Tt t1 (pos t) = rest). { rewrite X1, Z.eqb_refl by lia. reflexivity. }
  destruct (setb_spec t1 i (- pos t - 2) ltac:(lia)) as (t2 & E2 & Y1 & Y2 & Y3 & Y4 & Y5 & Y6 & _). rewrite E2. cbn [bind].
  destruct (setc_spec t2 i 0 ltac:(lia)) as (t3 & E3 & Z1 & Z2 & Z3 & Z4 & Z5 & Z6). rewrite E3. cbn [bind].
  eexists. cbn [remove_loop]. 
  assert (BB : forall y, at_ (base t3) y = if y =? i then - pos t - 2 else if y =? 0 then 0 else -1).
  { intros y. rewrite Z2. fold (Bt t2 y). rewrite Y1. destruct (y =? i); [reflexivity|]. unfold Bt. rewrite X2. apply EB. }
  assert (CC : forall y, at_ (check t3) y = if y =? i then 0 else -1).
  { intros y. fold (Ct t3 y). rewrite Z1. destruct (y =? i); [reflexivity|]. unfold Ct. rewrite Y2, X3. apply EC. }
  assert (TT : tail t3 = tail t1) by congruence.
  destruct (setb_spec (with_size t3 (size t3 + 1)) i (-1) ltac:(lia)) as (t4 & E4 & U1 & U2 & U3 & U4 & U5 & U6 & _).
  destruct (setc_spec t4 i (-1) ltac:(lia)) as (t5 & E5 & V1 & V2 & V3 & V4 & V5 & V6).
  exists (with_size t5 (size t5 - 1)). split; [reflexivity|].
  cbn [with_size base check tail] in *.
  assert (NB : (0 =? i) = false) by (apply Z.eqb_neq; lia).
  rewrite Fi. cbn [bind]. rewrite (iget_live (base t3) 0) by (rewrite BB, NB; discriminate). rewrite BB, NB. cbn [bind Z.eqb]. rewrite Z.add_0_l.
  rewrite (iget_live (check t3) i) by (rewrite CC, Z.eqb_refl; discriminate). rewrite CC, Z.eqb_refl. cbn [bind Z.eqb negb].
  rewrite (iget_live (base t3) i) by (rewrite BB, Z.eqb_refl; lia). rewrite BB, Z.eqb_refl. cbn [bind].
  replace (- pos t - 2 <? -1) with true by (symmetry; apply Z.ltb_lt; lia).
  replace (- (- pos t - 2) - 2) with (pos t) by lia.
  assert (G : tgetc (tail t3) (pos t) = Ok rest).
  { unfold tgetc, getWithCheck. rewrite TT. destruct (pos t <? _) eqn:Q; [|apply Z.ltb_ge in Q; unfold bytes in *; lia].
    rewrite tget_at by (unfold bytes in *; lia). f_equal. exact XT. }
  rewrite G. cbn [bind]. destruct (list_eq_dec ascii_dec rest rest) as [_|N]; [|contradiction].
  rewrite E4. cbn [bind]. rewrite E5. cbn [bind]. split; [reflexivity|].
  assert (TT5 : tail t5 = tail t1) by congruence.
  constructor; cbn [with_size base check tail pos tailList].
  - intros y. rewrite V2. fold (Bt t4 y). rewrite U1. unfold Bt. cbn [base]. rewrite BB. destruct (Z.eqb_spec y i) as [->|]; [|reflexivity]. destruct (Z.eqb_spec i 0); [lia|reflexivity].
  - intros y. fold (Ct t5 y). rewrite V1. unfold Ct. rewrite U2. cbn [check]. rewrite CC. now destruct (y =? i).
  - rewrite V5, U5. cbn [with_size tailList]. rewrite Z5, Y5, X5. reflexivity.
  - rewrite V4, U4. cbn [with_size pos]. rewrite Z4, Y4, X4. cbn. lia.
  - rewrite TT5. lia.
  - rewrite TT5. lia.
Qed.
Lemma cycles_run f w ch rest i : w ++ [endChar] = ch :: rest -> f ch = Ok i -> 1 <= i <= 27 -> forall k t z, Empty (length rest) z t ->
  exists t', run f t (cycles k w) = Ok (t', []) /\ Empty (length rest) (z + Z.of_nat k) t'.
Proof.
  intros Ew Fi Hi. induction k as [|k IH]; intros t z E.
  - exists t. split; [reflexivity|]. now rewrite Z.add_0_r.
  - destruct (cycle_ok f ch rest i z t Fi Hi E w Ew) as (t1 & t2 & I & R & E2). destruct (IH t2 _ E2) as (t3 & RR & E3).
    exists t3. cbn [cycles run step]. rewrite I. cbn [bind]. rewrite R. cbn [bind]. rewrite RR. cbn [bind app]. split; [reflexivity|].
    replace (z + Z.of_nat (S k)) with (z + 1 + Z.of_nat k) by lia. assumption.
Qed.
Lemma empty_new n : exists t, mkTrie = Ok t /\ Empty n 0 t.
Proof.
  eexists. split; [vm_compute; reflexivity|]. constructor; try reflexivity; cbn [base check].
  - intros y. unfold at_. destruct (Z.ltb_spec y 0); [now destruct (Z.eqb_spec y 0); [lia|]|].
    destruct (Z.eqb_spec y 0) as [->|N]; [reflexivity|]. assert (K : exists m, Z.to_nat y = S m) by (exists (pred (Z.to_nat y)); lia).
    destruct K as (m & ->). cbn [nth]. do 26 (destruct m as [|m]; [reflexivity|]). reflexivity.
  - intros y. unfold at_. destruct (Z.ltb_spec y 0); [reflexivity|]. generalize (Z.to_nat y). intros m. do 27 (destruct m as [|m]; [reflexivity|]). reflexivity.
Qed.
