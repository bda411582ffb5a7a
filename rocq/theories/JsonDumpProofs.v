(** Lemmas for the stack and the copying of dump. *)
From Verif Require Import Base DecModel JsonModel JsonRoundProofs JsonCostSpec JsonDumpModel JsonDumpSpec.
Local Open Scope nat_scope.

Section Dump.
Context {F : Type} (D : doubles F).
Notation mem := (list (bytes * json F)).
Section Loops.
Context (f : json F -> outcome (bytes * nat)) (g : json F -> bytes) (p : bytes).
Fixpoint oloop (skip : bool) (m : mem) (s : bytes) (w : nat) : outcome (bytes * nat) :=
  match m with
  | [] => Ok (s, w)
  | (k, v) :: m =>
      let sep := if skip then [] else [","%char; LF] in
      ' (t, w1) <- f v ;;
      let line := p ++ [DQ] ++ k ++ [DQ; " "%char; ":"%char; " "%char] ++ t in
      oloop false m (s ++ sep ++ line) (w + length sep + w1 + length line + length line)
  end.
Fixpoint aloop (skip : bool) (l : list (json F)) (s : bytes) (w : nat) : outcome (bytes * nat) :=
  match l with
  | [] => Ok (s, w)
  | v :: l =>
      let sep := if skip then [] else [","%char; " "%char] in
      ' (t, w1) <- f v ;;
      aloop false l (s ++ sep ++ t) (w + length sep + w1 + length t)
  end.
Fixpoint otext (skip : bool) (m : mem) : bytes :=
  match m with
  | [] => []
  | (k, v) :: m => (if skip then [] else [","%char; LF]) ++ p ++ [DQ] ++ k ++ [DQ; " "%char; ":"%char; " "%char] ++ g v ++ otext false m
  end.
Fixpoint atext (skip : bool) (l : list (json F)) : bytes :=
  match l with
  | [] => []
  | v :: l => (if skip then [] else [","%char; " "%char]) ++ g v ++ atext false l
  end.
End Loops.
Lemma dump_c_obj stk depth tab m : dump_c D (S stk) depth tab (JObj m) =
  (' (s, w) <- oloop (dump_c D stk (S depth) tab) (pad depth tab) true m ["{"%char; LF] (length tab + length (pad depth tab) + 2) ;;
   let last := [LF] ++ skipn 2 (pad depth tab) ++ ["}"%char] in Ok (s ++ last, w + length last + length last)).
Proof. reflexivity. Qed.
Lemma dump_c_arr stk depth tab l : dump_c D (S stk) depth tab (JArr l) =
  (' (s, w) <- aloop (dump_c D stk (S depth) tab) true l ["["%char] (length tab + length (pad depth tab) + 1) ;; Ok (s ++ ["]"%char], w + 1)).
Proof. reflexivity. Qed.
Lemma dump_obj depth tab m : dump D depth tab (JObj m) =
  ["{"%char; LF] ++ otext (dump D (S depth) tab) (pad depth tab) true m ++ [LF] ++ skipn 2 (pad depth tab) ++ ["}"%char].
Proof. reflexivity. Qed.
Lemma dump_arr depth tab l : dump D depth tab (JArr l) = ["["%char] ++ atext (dump D (S depth) tab) true l ++ ["]"%char].
Proof. reflexivity. Qed.
Lemma pad_length depth tab : length (pad depth tab) = depth * length tab.
Proof. induction depth as [|d IH]; cbn [pad]; [reflexivity|]. rewrite app_length, IH. lia. Qed.

Definition fits (f : json F -> outcome (bytes * nat)) (g : json F -> bytes) (H B : nat) (v : json F) : Prop :=
  exists w, f v = Ok (g v, w) /\ length (g v) <= w <= 2 * H * length (g v) + nodes v * B.
Definition sizes_o (m : mem) : nat := fold_right (fun p n => nodes (snd p) + n) 0 m.
Definition sizes_a (l : list (json F)) : nat := fold_right (fun v n => nodes v + n) 0 l.
Lemma oloop_ok f g H B p m : Forall (fun kv => fits f g H B (snd kv)) m -> forall skip s w,
  exists w', oloop f p skip m s w = Ok (s ++ otext g p skip m, w') /\
    w + length (otext g p skip m) <= w' <= w + (2 * H + 2) * length (otext g p skip m) + sizes_o m * B.
Proof.
  induction 1 as [|[k v] m (w1 & E & L) M IH]; intros skip s w; cbn [oloop otext].
  { exists w. rewrite app_nil_r. split; [reflexivity|]. cbn [length sizes_o fold_right]. lia. }
  cbn [snd] in E, L. rewrite E. cbn [bind]. cbv zeta.
  set (sep := if skip then [] else [","%char; LF]). set (line := p ++ [DQ] ++ k ++ [DQ; " "%char; ":"%char; " "%char] ++ g v).
  destruct (IH false (s ++ sep ++ line) (w + length sep + w1 + length line + length line)) as (w' & E' & L'). exists w'. split.
  - rewrite E'. f_equal. f_equal. unfold line. rewrite <- !app_assoc. reflexivity.
  - replace (length (sep ++ p ++ [DQ] ++ k ++ [DQ; " "%char; ":"%char; " "%char] ++ g v ++ otext g p false m))
      with (length sep + length line + length (otext g p false m)) by (unfold line; repeat rewrite app_length; lia).
    assert (Q : length (g v) <= length line) by (unfold line; repeat rewrite app_length; lia).
    cbn [sizes_o fold_right snd]. change (fold_right (fun p n => nodes (snd p) + n) 0 m) with (sizes_o m). clearbody sep line. nia.
Qed.
Lemma aloop_ok f g H B l : Forall (fits f g H B) l -> forall skip s w,
  exists w', aloop f skip l s w = Ok (s ++ atext g skip l, w') /\
    w + length (atext g skip l) <= w' <= w + (2 * H + 2) * length (atext g skip l) + sizes_a l * B.
Proof.
  induction 1 as [|v l (w1 & E & L) M IH]; intros skip s w; cbn [aloop atext].
  { exists w. rewrite app_nil_r. split; [reflexivity|]. cbn [length sizes_a fold_right]. lia. }
  rewrite E. cbn [bind]. cbv zeta.
  set (sep := if skip then [] else [","%char; " "%char]).
  destruct (IH false (s ++ sep ++ g v) (w + length sep + w1 + length (g v))) as (w' & E' & L'). exists w'. split.
  - rewrite E'. f_equal. f_equal. rewrite <- !app_assoc. reflexivity.
  - repeat rewrite app_length. cbn [sizes_a fold_right]. change (fold_right (fun v n => nodes v + n) 0 l) with (sizes_a l). clearbody sep. nia.
Qed.
Lemma oloop_bad f p m : Forall (fun kv => (exists t, f (snd kv) = Ok t) \/ f (snd kv) = UB) m ->
  Exists (fun kv => f (snd kv) = UB) m -> forall skip s w, oloop f p skip m s w = UB.
Proof.
  intros A X. induction A as [|[k v] m [(t & E)|E] M IH]; intros skip s w; [inversion X| |]; cbn [oloop snd] in *; rewrite E; cbn [bind].
  - destruct t as [t w1]. cbv zeta. apply IH. inversion X as [? ? K|? ? K]; subst; [cbn [snd] in K; congruence|exact K].
  - reflexivity.
Qed.
Lemma aloop_bad f l : Forall (fun v => (exists t, f v = Ok t) \/ f v = UB) l ->
  Exists (fun v => f v = UB) l -> forall skip s w, aloop f skip l s w = UB.
Proof.
  intros A X. induction A as [|v l [(t & E)|E] M IH]; intros skip s w; [inversion X| |]; cbn [aloop] in *; rewrite E; cbn [bind].
  - destruct t as [t w1]. cbv zeta. apply IH. inversion X as [? ? K|? ? K]; subst; [congruence|exact K].
  - reflexivity.
Qed.
(** heights of elements *)
Definition tall_o (m : mem) : nat := fold_right (fun p n => Nat.max (height (snd p)) n) 0 m.
Definition tall_a (l : list (json F)) : nat := fold_right (fun v n => Nat.max (height v) n) 0 l.
Lemma tall_o_le m h : tall_o m <= h <-> Forall (fun kv => height (snd kv) <= h) m.
Proof. induction m as [|[k v] m IH]; cbn [tall_o fold_right snd]; [split; [constructor|lia]|]. fold (tall_o m). split.
  - intros H. constructor; [cbn [snd]; lia|]. apply IH. lia.
  - intros H. inversion H as [|? ? A B]; subst. cbn [snd] in A. apply IH in B. lia. Qed.
Lemma tall_a_le l h : tall_a l <= h <-> Forall (fun v => height v <= h) l.
Proof. induction l as [|v l IH]; cbn [tall_a fold_right]; [split; [constructor|lia]|]. fold (tall_a l). split.
  - intros H. constructor; [lia|]. apply IH. lia.
  - intros H. inversion H as [|? ? A B]; subst. apply IH in B. lia. Qed.
Lemma tall_o_gt m h : h < tall_o m -> Exists (fun kv => h < height (snd kv)) m.
Proof. induction m as [|[k v] m IH]; cbn [tall_o fold_right snd]; [lia|]. fold (tall_o m). intros H.
  destruct (Nat.lt_ge_cases h (height v)) as [L|L]; [left; exact L|right; apply IH; lia]. Qed.
Lemma tall_a_gt l h : h < tall_a l -> Exists (fun v => h < height v) l.
Proof. induction l as [|v l IH]; cbn [tall_a fold_right]; [lia|]. fold (tall_a l). intros H.
  destruct (Nat.lt_ge_cases h (height v)) as [L|L]; [left; exact L|right; apply IH; lia]. Qed.
Lemma height_pos (v : json F) : 1 <= height v. Proof. destruct v; cbn [height]; lia. Qed.
Lemma nodes_pos (v : json F) : 1 <= nodes v. Proof. destruct v; cbn [nodes]; lia. Qed.

Lemma dump_c_spec v : forall stk depth tab,
  (height v <= stk -> fits (dump_c D stk depth tab) (dump D depth tab) (height v) ((depth + height v) * length tab) v) /\
  (stk < height v -> dump_c D stk depth tab v = UB).
Proof.
  induction v as [|b|z|f|s|l IH|m IH] using json_ind2; intros [|stk] depth tab; (split; [intros Hs|intros Hs]);
    try (cbn [height] in Hs; lia); try reflexivity.
  1-5: eexists; (split; [reflexivity|]); cbn [dump height nodes]; rewrite pad_length; lia.
  - cbn [height] in Hs. fold (tall_a l) in Hs.
    assert (A : Forall (fits (dump_c D stk (S depth) tab) (dump D (S depth) tab) (tall_a l) ((depth + S (tall_a l)) * length tab)) l).
    { assert (T : Forall (fun v => height v <= tall_a l) l) by now apply tall_a_le.
      assert (Hs' : tall_a l <= stk) by lia. clear Hs. revert T Hs'. generalize (tall_a l) as h. intros h T Hs'.
      rewrite Forall_forall in *. intros v Hv. destruct (IH v Hv stk (S depth) tab) as [K _]. specialize (T v Hv).
      destruct (K ltac:(lia)) as (w & E & L). exists w. split; [exact E|]. split; [lia|]. eapply Nat.le_trans; [apply L|].
      apply Nat.add_le_mono; [apply Nat.mul_le_mono_r; lia|]. apply Nat.mul_le_mono_l, Nat.mul_le_mono_r. lia. }
    destruct (aloop_ok _ _ _ _ l A true ["["%char] (length tab + length (pad depth tab) + 1)) as (w' & E & L).
    unfold fits. rewrite dump_c_arr, E. cbn [bind]. exists (w' + 1). split; [rewrite dump_arr; rewrite <- app_assoc; reflexivity|].
    rewrite dump_arr. repeat rewrite app_length. cbn [length]. cbn [height nodes]. fold (tall_a l). fold (sizes_a l).
    rewrite pad_length in L. clear - L. set (t := length (atext _ _ _)) in *. clearbody t. set (h := tall_a l) in *. clearbody h.
    set (n := sizes_a l) in *. clearbody n. set (b := length tab) in *. clearbody b. replace (1 + h) with (S h) by lia. nia.
  - cbn [height] in Hs. fold (tall_a l) in Hs. rewrite dump_c_arr. rewrite aloop_bad; [reflexivity| |].
    + rewrite Forall_forall in *. intros v Hv. destruct (IH v Hv stk (S depth) tab) as [K1 K2].
      destruct (Nat.le_gt_cases (height v) stk) as [L|L]; [left|right; auto]. destruct (K1 L) as (w & E & _). eauto.
    + assert (X : Exists (fun v => stk < height v) l) by (apply tall_a_gt; lia). apply Exists_exists in X. destruct X as (v & Hv & Hh).
      apply Exists_exists. exists v. split; [exact Hv|]. rewrite Forall_forall in IH. now apply (IH v Hv stk (S depth) tab).
  - cbn [height] in Hs. fold (tall_o m) in Hs.
    assert (A : Forall (fun kv => fits (dump_c D stk (S depth) tab) (dump D (S depth) tab) (tall_o m) ((depth + S (tall_o m)) * length tab) (snd kv)) m).
    { assert (T : Forall (fun kv => height (snd kv) <= tall_o m) m) by now apply tall_o_le.
      assert (Hs' : tall_o m <= stk) by lia. clear Hs. revert T Hs'. generalize (tall_o m) as h. intros h T Hs'.
      rewrite Forall_forall in *. intros v Hv. destruct (IH v Hv stk (S depth) tab) as [K _]. specialize (T v Hv).
      destruct (K ltac:(lia)) as (w & E & L). exists w. split; [exact E|]. split; [lia|]. eapply Nat.le_trans; [apply L|].
      apply Nat.add_le_mono; [apply Nat.mul_le_mono_r; lia|]. apply Nat.mul_le_mono_l, Nat.mul_le_mono_r. lia. }
    destruct (oloop_ok _ _ _ _ (pad depth tab) m A true ["{"%char; LF] (length tab + length (pad depth tab) + 2)) as (w' & E & L).
    unfold fits. rewrite dump_c_obj, E. cbn [bind]. cbv zeta. set (last := [LF] ++ skipn 2 (pad depth tab) ++ ["}"%char]).
    exists (w' + length last + length last). split; [rewrite dump_obj; rewrite <- app_assoc; reflexivity|].
    rewrite dump_obj. fold last. clearbody last. repeat rewrite app_length. cbn [length]. cbn [height nodes]. fold (tall_o m). fold (sizes_o m).
    rewrite pad_length in L. clear - L. set (t := length (otext _ _ _ _)) in *. clearbody t. set (h := tall_o m) in *. clearbody h.
    set (n := sizes_o m) in *. clearbody n. set (b := length tab) in *. clearbody b. replace (1 + h) with (S h) by lia. set (q := length last) in *. clearbody q. nia.
  - cbn [height] in Hs. fold (tall_o m) in Hs. rewrite dump_c_obj. rewrite oloop_bad; [reflexivity| |].
    + rewrite Forall_forall in *. intros v Hv. destruct (IH v Hv stk (S depth) tab) as [K1 K2].
      destruct (Nat.le_gt_cases (height (snd v)) stk) as [L|L]; [left|right; auto]. destruct (K1 L) as (w & E & _). eauto.
    + assert (X : Exists (fun kv => stk < height (snd kv)) m) by (apply tall_o_gt; lia). apply Exists_exists in X. destruct X as (v & Hv & Hh).
      apply Exists_exists. exists v. split; [exact Hv|]. rewrite Forall_forall in IH. now apply (IH v Hv stk (S depth) tab).
Qed.
End Dump.

(** ** copying and destroying *)
Section Copy.
Context {F : Type}.
Lemma copy_c_spec (v : json F) : forall stk, (height v <= stk -> copy_c stk v = Ok v) /\ (stk < height v -> copy_c stk v = UB).
Proof.
  induction v as [|b|z|f|s|l IH|m IH] using json_ind2; intros [|stk]; (split; [intros Hs|intros Hs]);
    try (cbn [height] in Hs; lia); try reflexivity; cbn [height] in Hs; cbn [copy_c].
  - fold (tall_a l) in Hs. assert (T : Forall (fun v => height v <= stk) l) by (apply tall_a_le; lia). clear Hs.
    match goal with |- omap _ (?g l) = _ => assert (E : g l = Ok l) end.
    { induction l as [|v l IHl]; [reflexivity|]. inversion IH as [|? ? A B]; inversion T as [|? ? A' B']; subst.
      destruct (A stk) as [K _]. rewrite (K A'). cbn [bind]. rewrite (IHl B B'). reflexivity. }
    rewrite E. reflexivity.
  - fold (tall_a l) in Hs. assert (T : Exists (fun v => stk < height v) l) by (apply tall_a_gt; lia). clear Hs.
    match goal with |- omap _ (?g l) = _ => assert (E : g l = UB) end.
    { induction l as [|v l IHl]; [inversion T|]. inversion IH as [|? ? A B]; subst. destruct (A stk) as [K1 K2].
      destruct (Nat.le_gt_cases (height v) stk) as [L|L]; [|now rewrite (K2 L)]. rewrite (K1 L). cbn [bind].
      rewrite (IHl B); [reflexivity|]. inversion T as [? ? Q|? ? Q]; subst; [lia|exact Q]. }
    rewrite E. reflexivity.
  - fold (tall_o m) in Hs. assert (T : Forall (fun kv => height (snd kv) <= stk) m) by (apply tall_o_le; lia). clear Hs.
    match goal with |- omap _ (?g m) = _ => assert (E : g m = Ok m) end.
    { induction m as [|[k v] m IHl]; [reflexivity|]. inversion IH as [|? ? A B]; inversion T as [|? ? A' B']; subst. cbn [snd] in *.
      destruct (A stk) as [K _]. rewrite (K A'). cbn [bind]. rewrite (IHl B B'). reflexivity. }
    rewrite E. reflexivity.
  - fold (tall_o m) in Hs. assert (T : Exists (fun kv => stk < height (snd kv)) m) by (apply tall_o_gt; lia). clear Hs.
    match goal with |- omap _ (?g m) = _ => assert (E : g m = UB) end.
    { induction m as [|[k v] m IHl]; [inversion T|]. inversion IH as [|? ? A B]; subst. cbn [snd] in *. destruct (A stk) as [K1 K2].
      destruct (Nat.le_gt_cases (height v) stk) as [L|L]; [|now rewrite (K2 L)]. rewrite (K1 L). cbn [bind].
      rewrite (IHl B); [reflexivity|]. inversion T as [? ? Q|? ? Q]; subst; [cbn [snd] in Q; lia|exact Q]. }
    rewrite E. reflexivity.
Qed.
Lemma destroy_c_spec (v : json F) : forall stk, (height v <= stk -> destroy_c stk v = Ok tt) /\ (stk < height v -> destroy_c stk v = UB).
Proof.
  induction v as [|b|z|f|s|l IH|m IH] using json_ind2; intros [|stk]; (split; [intros Hs|intros Hs]);
    try (cbn [height] in Hs; lia); try reflexivity; cbn [height] in Hs; cbn [destroy_c].
  - fold (tall_a l) in Hs. assert (T : Forall (fun v => height v <= stk) l) by (apply tall_a_le; lia). clear Hs.
    induction l as [|v l IHl]; [reflexivity|]. inversion IH as [|? ? A B]; inversion T as [|? ? A' B']; subst.
    destruct (A stk) as [K _]. rewrite (K A'). cbn [bind]. exact (IHl B B').
  - fold (tall_a l) in Hs. assert (T : Exists (fun v => stk < height v) l) by (apply tall_a_gt; lia). clear Hs.
    induction l as [|v l IHl]; [inversion T|]. inversion IH as [|? ? A B]; subst. destruct (A stk) as [K1 K2].
    destruct (Nat.le_gt_cases (height v) stk) as [L|L]; [|now rewrite (K2 L)]. rewrite (K1 L). cbn [bind].
    apply (IHl B). inversion T as [? ? Q|? ? Q]; subst; [lia|exact Q].
  - fold (tall_o m) in Hs. assert (T : Forall (fun kv => height (snd kv) <= stk) m) by (apply tall_o_le; lia). clear Hs.
    induction m as [|[k v] m IHl]; [reflexivity|]. inversion IH as [|? ? A B]; inversion T as [|? ? A' B']; subst. cbn [snd] in *.
    destruct (A stk) as [K _]. rewrite (K A'). cbn [bind]. exact (IHl B B').
  - fold (tall_o m) in Hs. assert (T : Exists (fun kv => stk < height (snd kv)) m) by (apply tall_o_gt; lia). clear Hs.
    induction m as [|[k v] m IHl]; [inversion T|]. inversion IH as [|? ? A B]; subst. cbn [snd] in *. destruct (A stk) as [K1 K2].
    destruct (Nat.le_gt_cases (height v) stk) as [L|L]; [|now rewrite (K2 L)]. rewrite (K1 L). cbn [bind].
    apply (IHl B). inversion T as [? ? Q|? ? Q]; subst; [cbn [snd] in Q; lia|exact Q].
Qed.
End Copy.

(** ** size of the text *)
Section Size.
Context {F : Type} (D : doubles F).
Lemma pad_nil depth : pad depth [] = [].
Proof. induction depth as [|d IH]; cbn [pad]; [reflexivity|]. now rewrite IH. Qed.
Lemma dump_bare v : forall depth, dump D depth [] v = dump D 0 [] v.
Proof.
  induction v as [|b|z|f|s|l IH|m IH] using json_ind2; intros depth; try reflexivity.
  - rewrite !dump_arr. f_equal. f_equal. generalize true as skip. induction l as [|v l IHl]; intros skip; [reflexivity|].
    inversion IH as [|? ? A B]; subst. cbn [atext]. rewrite (A (S depth)), (A 1). now rewrite (IHl B).
  - rewrite !dump_obj, !pad_nil. f_equal. f_equal. generalize true as skip. induction m as [|[k v] m IHl]; intros skip; [reflexivity|].
    inversion IH as [|? ? A B]; subst. cbn [snd] in A. cbn [otext]. rewrite (A (S depth)), (A 1). now rewrite (IHl B).
Qed.
Lemma dump_size v : forall depth tab,
  length (dump D 0 [] v) <= length (dump D depth tab v) <= length (dump D 0 [] v) + (2 * nodes v - 1) * ((depth + height v) * length tab).
Proof.
  induction v as [|b|z|f|s|l IH|m IH] using json_ind2; intros depth tab; try (cbn [dump]; split; [apply Nat.le_refl|apply Nat.le_add_r]).
  - rewrite !dump_arr. cbn [height nodes]. fold (tall_a l). fold (sizes_a l). set (B := (depth + (1 + tall_a l)) * length tab).
    assert (A : Forall (fun v => length (dump D 0 [] v) <= length (dump D (S depth) tab v) <= length (dump D 0 [] v) + (2 * nodes v - 1) * B) l).
    { assert (T : Forall (fun v => height v <= tall_a l) l) by now apply tall_a_le. rewrite Forall_forall in *. intros v Hv.
      specialize (IH v Hv (S depth) tab). specialize (T v Hv). split; [apply IH|]. eapply Nat.le_trans; [apply IH|].
      apply Nat.add_le_mono_l, Nat.mul_le_mono_l. unfold B. apply Nat.mul_le_mono_r. lia. }
    clearbody B. clear IH.
    assert (K : forall skip, length (atext (dump D 1 []) skip l) <= length (atext (dump D (S depth) tab) skip l)
      <= length (atext (dump D 1 []) skip l) + 2 * sizes_a l * B).
    { induction A as [|v l A M IHl]; intros skip; [cbn; lia|]. specialize (IHl false). cbn [sizes_a fold_right]. fold (sizes_a l).
      cbn [atext]. rewrite !app_length. rewrite (dump_bare v 1). pose proof (nodes_pos v).
      assert (Q : (2 * nodes v - 1) * B <= 2 * nodes v * B) by (apply Nat.mul_le_mono_r; lia). lia. }
    specialize (K true). repeat rewrite app_length. cbn [length].
    assert (Q : 2 * sizes_a l * B <= (2 * (1 + sizes_a l) - 1) * B) by (apply Nat.mul_le_mono_r; lia). lia.
  - rewrite !dump_obj. cbn [height nodes]. fold (tall_o m). fold (sizes_o m). set (B := (depth + (1 + tall_o m)) * length tab).
    assert (PB : depth * length tab <= B) by (unfold B; apply Nat.mul_le_mono_r; lia).
    assert (A : Forall (fun kv => length (dump D 0 [] (snd kv)) <= length (dump D (S depth) tab (snd kv))
        <= length (dump D 0 [] (snd kv)) + (2 * nodes (snd kv) - 1) * B) m).
    { assert (T : Forall (fun kv => height (snd kv) <= tall_o m) m) by now apply tall_o_le. rewrite Forall_forall in *. intros v Hv.
      specialize (IH v Hv (S depth) tab). specialize (T v Hv). split; [apply IH|]. eapply Nat.le_trans; [apply IH|].
      apply Nat.add_le_mono_l, Nat.mul_le_mono_l. unfold B. apply Nat.mul_le_mono_r. lia. }
    clearbody B. clear IH.
    assert (K : forall skip, length (otext (dump D 1 []) (pad 0 []) skip m) <= length (otext (dump D (S depth) tab) (pad depth tab) skip m)
      <= length (otext (dump D 1 []) (pad 0 []) skip m) + 2 * sizes_o m * B).
    { induction A as [|[k v] m A M IHl]; intros skip; [cbn; lia|]. specialize (IHl false). cbn [snd] in A. cbn [sizes_o fold_right snd]. fold (sizes_o m).
      cbn [otext]. repeat rewrite app_length. rewrite (dump_bare v 1). pose proof (nodes_pos v). rewrite !pad_length. cbn [length pad] in *.
      assert (Q : (2 * nodes v - 1) * B + B = 2 * nodes v * B) by nia. lia. }
    specialize (K true). repeat rewrite app_length. cbn [length].
    assert (P1 : length (skipn 2 (pad depth tab)) <= B) by (rewrite skipn_length, pad_length; lia).
    change (length (skipn 2 (pad 0 []))) with 0.
    assert (Q : (2 * (1 + sizes_o m) - 1) * B = 2 * sizes_o m * B + B) by nia. lia.
Qed.

(** ** objects and arrays inside each other *)
Definition two : bytes := str "  ".
Lemma dump_deep_object n : forall d,
  length (dump D (S d) two (deep_object n)) = 2 * n * n + 11 * n + 4 * n * d + 2 * d + 4.
Proof.
  induction n as [|n IH]; intros d; cbn [deep_object]; rewrite dump_obj; cbn [otext]; repeat rewrite app_length;
    rewrite skipn_length, ?pad_length; change (length two) with 2; cbn [length]; [lia|]. rewrite IH. lia.
Qed.
Lemma dump_bare_object n : length (dump D 0 [] (deep_object n)) = 9 * n + 4.
Proof.
  induction n as [|n IH]; cbn [deep_object]; rewrite dump_obj; cbn [otext]; repeat rewrite app_length;
    rewrite skipn_length, ?pad_length; cbn [length]; [lia|]. rewrite dump_bare, IH. lia.
Qed.
Lemma dump_deep_array n : forall depth tab, length (dump D depth tab (deep_array n)) = 2 * n + 2.
Proof.
  induction n as [|n IH]; intros depth tab; cbn [deep_array]; rewrite dump_arr; cbn [atext]; repeat rewrite app_length; cbn [length]; [lia|].
  rewrite IH. lia.
Qed.
Lemma height_deep_object n : height (@deep_object F n) = S n.
Proof. induction n as [|n IH]; [reflexivity|]. cbn [deep_object height fold_right snd]. rewrite IH. lia. Qed.
Lemma height_deep_array n : height (@deep_array F n) = S n.
Proof. induction n as [|n IH]; [reflexivity|]. cbn [deep_array height fold_right]. rewrite IH. lia. Qed.
Lemma deep_object_work n : forall stk d t w, dump_c D stk (S d) two (deep_object n) = Ok (t, w) -> n * n * n <= w.
Proof.
  induction n as [|n IH]; intros stk d t w H; [lia|]. destruct stk as [|stk]; [discriminate|].
  cbn [deep_object] in H. rewrite dump_c_obj in H. cbn [oloop] in H.
  destruct (Nat.le_gt_cases (height (@deep_object F n)) stk) as [L|L].
  - destruct (dump_c_spec D (deep_object n) stk (S (S d)) two) as [K _]. destruct (K L) as (w1 & E & _). rewrite E in H. cbn [bind] in H. cbv zeta in H.
    apply IH in E. match type of H with Ok (_, ?a) = Ok (_, ?b) => assert (Hw : b = a) by congruence end. rewrite Hw. clear H Hw. repeat rewrite app_length. rewrite dump_deep_object. nia.
  - destruct (dump_c_spec D (deep_object n) stk (S (S d)) two) as [_ K]. rewrite (K L) in H. discriminate.
Qed.
Lemma deep_array_work n : forall stk d tab t w, dump_c D stk d tab (deep_array n) = Ok (t, w) -> n * n <= w.
Proof.
  induction n as [|n IH]; intros stk d tab t w H; [lia|]. destruct stk as [|stk]; [discriminate|].
  cbn [deep_array] in H. rewrite dump_c_arr in H. cbn [aloop] in H.
  destruct (Nat.le_gt_cases (height (@deep_array F n)) stk) as [L|L].
  - destruct (dump_c_spec D (deep_array n) stk (S d) tab) as [K _]. destruct (K L) as (w1 & E & _). rewrite E in H. cbn [bind] in H. cbv zeta in H.
    apply IH in E. match type of H with Ok (_, ?a) = Ok (_, ?b) => assert (Hw : b = a) by congruence end. rewrite Hw. clear H Hw. cbn [length]. rewrite dump_deep_array. nia.
  - destruct (dump_c_spec D (deep_array n) stk (S d) tab) as [_ K]. rewrite (K L) in H. discriminate.
Qed.
Lemma aligned_iff tab : dump D 1 tab (JObj [(str "a", JObj [])]) = aligned tab <-> length tab = 2 \/ tab = [].
Proof.
  destruct tab as [|a [|b [|c tab]]].
  - split; [auto|]. intros _. reflexivity.
  - split; [|intros [H|H]; discriminate]. intros H. apply (f_equal (@length ascii)) in H. cbn in H. lia.
  - split; [auto|]. intros _. reflexivity.
  - split; [|intros [H|H]; [cbn in H; lia|discriminate]]. intros H. exfalso.
    rewrite dump_obj in H. cbn [otext] in H. rewrite dump_obj in H. cbn [otext] in H.
    apply (f_equal (@length ascii)) in H. unfold aligned in H. revert H. repeat rewrite app_length. rewrite !skipn_length, !pad_length. cbn [length]. cbn. lia.
Qed.
End Size.
