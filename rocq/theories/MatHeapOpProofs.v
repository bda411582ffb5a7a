(** Memory level Matrix: every operation. *)
From Coq Require Import Permutation.
From Verif Require Import Base MatModel MatSpec MatProofs MatReduceProofs MatHeapModel MatHeapSpec MatHeapProofs.
Local Open Scope Z_scope.

Lemma for_loop_add {S} (b : Z -> S -> outcome S) n k : forall i s,
  for_loop (n + k) i b s = (s' <- for_loop n i b s ;; for_loop k (i + Z.of_nat n) b s').
Proof.
  induction n as [|n IH]; intros i s; cbn [for_loop Nat.add]; [now rewrite Z.add_0_r|].
  destruct (b i s); cbn [bind]; try reflexivity. rewrite IH. replace (i + 1 + Z.of_nat n) with (i + Z.of_nat (Datatypes.S n)) by lia. reflexivity.
Qed.
Lemma for_loop_snoc {S} (b : Z -> S -> outcome S) n i s :
  for_loop (Datatypes.S n) i b s = (s' <- for_loop n i b s ;; b (i + Z.of_nat n) s').
Proof.
  replace (Datatypes.S n) with (n + 1)%nat by lia. rewrite for_loop_add. destruct (for_loop n i b s); cbn [bind for_loop]; try reflexivity.
  destruct (b (i + Z.of_nat n) a); reflexivity.
Qed.

Section Ops.
Context {A : Type} (o : ops A).
Notation heap := (heap (A := A)).
Notation ent := (ent o).

(** h' is h with n more allocated blocks *)
Definition grows (h h' : heap) (n : nat) : Prop :=
  length h' = (length h + n)%nat /\
  (forall b, (b < length h)%nat -> nth_error h' b = nth_error h b) /\
  (forall b, (length h <= b < length h')%nat -> alive h' b).
Lemma grows_refl h : grows h h 0.
Proof. split; [lia|]. split; [auto|]. intros. lia. Qed.
Lemma grows_trans h1 h2 h3 n k : grows h1 h2 n -> grows h2 h3 k -> grows h1 h3 (n + k).
Proof.
  intros (L1 & S1 & A1) (L2 & S2 & A2). split; [lia|]. split.
  - intros b Hb. rewrite S2 by lia. now apply S1.
  - intros b Hb. destruct (Nat.lt_ge_cases b (length h2)); [|apply A2; lia].
    destruct (A1 b ltac:(lia)) as (x & E). exists x. rewrite S2 by assumption. assumption.
Qed.
Lemma grows_alloc h b : grows h (h ++ [Some b]) 1.
Proof.
  split; [rewrite app_length; reflexivity|]. split.
  - intros c Hc. now apply nth_error_app1.
  - intros c Hc. rewrite app_length in Hc. cbn [length] in Hc. exists b. rewrite nth_error_app2 by lia. replace (c - length h)%nat with 0%nat by lia. reflexivity.
Qed.
Lemma grows_frame h h1 h2 n F : grows h h1 n -> frame F h1 h2 -> (forall a, In a F -> (length h <= a)%nat) -> grows h h2 n.
Proof.
  intros (L & S & Al) (L' & N & Al') HF. split; [lia|]. split.
  - intros b Hb. rewrite N by (intros Hin; apply HF in Hin; lia). now apply S.
  - intros b Hb. apply Al'. apply Al. lia.
Qed.
Lemma repr_grows k (h h' : heap) n x (m : mat A) F : repr k h x m F -> grows h h' n -> repr k h' x m F.
Proof.
  intros R (_ & S & _). apply (repr_agree k h h' x m F R). intros a Ha. apply S. eapply alive_lt, repr_alive; eassumption.
Qed.
Lemma repr_lt k (h : heap) x (m : mat A) F a : repr k h x m F -> In a F -> (a < length h)%nat.
Proof. intros R Hin. eapply alive_lt, repr_alive; eassumption. Qed.

(** adding a fresh row to an object under construction *)
Lemma alloc_row k (h : heap) e n m F (rs : list (list A)) zs :
  repr (S k) h (Obj e n m) (Mat n m rs true) F ->
  exists h', set_row (h ++ [Some (Vals zs)]) (Obj e n m) (Z.of_nat (length rs)) (length h) = Ok h' /\
    repr k h' (Obj e n m) (Mat n m (rs ++ [zs]) true) (F ++ [length h]) /\
    length h' = S (length h) /\ (forall b, ~ In b (F ++ [length h]) -> nth_error h' b = nth_error h b) /\
    (forall b, alive h b -> alive h' b) /\ alive h' (length h).
Proof.
  intros R. pose proof R as (ps & E & H2 & ND & P & _). cbn [elem cells row col live] in *.
  pose proof (Forall2_length _ _ _ H2) as HL.
  unfold set_row, ptrs, store, load. cbn [elem].
  assert (He : (e < length h)%nat) by (apply alive_lt; eexists; exact E).
  rewrite nth_error_app1 by assumption. rewrite E. cbn [bind].
  rewrite aset_ok by (rewrite app_length, map_length; cbn [repeat length]; lia). cbn [bind].
  rewrite Nat2Z.id.
  assert (Eu : upd (map Some ps ++ repeat None (S k)) (length rs) (Some (length h)) = map Some (ps ++ [length h]) ++ repeat None k).
  { rewrite map_app. cbn [map]. rewrite <- app_assoc. cbn [app repeat]. rewrite <- HL. clear.
    induction ps as [|p ps IH]; cbn; [reflexivity|]. f_equal. exact IH. }
  rewrite Eu. eexists. split; [reflexivity|].
  assert (Hps : forall a, In a ps -> (a < length h)%nat).
  { intros a Ha. apply (repr_lt _ _ _ _ _ a R). apply (Permutation_in _ (Permutation_sym P)). now right. }
  assert (Hin : In e F) by (apply (Permutation_in _ (Permutation_sym P)); now left).
  split; [|split; [|split; [|split]]].
  - exists (ps ++ [length h]). cbn [elem cells row col live].
    split; [apply nth_error_upd_eq; rewrite app_length; cbn; lia|]. split; [|split; [|split; [|auto]]].
    + inversion ND as [|? ? Hn ND']; subst. apply Forall2_app.
      * apply Forall2_intro; [assumption|]. intros i a r Ha Hr. pose proof (nth_error_In _ _ Ha) as Hia.
        rewrite nth_error_upd_neq by (intros <-; auto). rewrite nth_error_app1 by auto.
        destruct (Forall2_nth_error _ _ _ _ _ H2 Ha) as (r' & Hr' & Hv). congruence.
      * constructor; [|constructor]. rewrite nth_error_upd_neq by lia. rewrite nth_error_app2 by lia. now rewrite Nat.sub_diag.
    + change (NoDup ((e :: ps) ++ [length h])).
      apply (Permutation_NoDup (l := length h :: e :: ps)); [apply Permutation_cons_append|]. constructor; [|assumption].
      intros [Hx|Hx]; [lia|]. apply Hps in Hx. lia.
    + rewrite P. reflexivity.
  - rewrite upd_length, app_length. cbn. lia.
  - intros b Hb. rewrite in_app_iff in Hb. cbn [In] in Hb. rewrite nth_error_upd_neq by (intros <-; tauto).
    destruct (Nat.lt_ge_cases b (length h)); [now apply nth_error_app1|].
    rewrite (proj2 (nth_error_None _ _)) by (rewrite app_length; cbn; lia). symmetry. apply nth_error_None. lia.
  - intros b Hb. pose proof (alive_lt _ _ Hb) as Hlt. destruct Hb as (x & Ex). destruct (Nat.eq_dec e b) as [<-|Ne].
    + eexists. apply nth_error_upd_eq. rewrite app_length; cbn; lia.
    + exists x. rewrite nth_error_upd_neq by assumption. rewrite nth_error_app1 by assumption. assumption.
  - eexists. rewrite nth_error_upd_neq by lia. rewrite nth_error_app2 by lia. rewrite Nat.sub_diag. reflexivity.
Qed.

(** the first t rows of a construction *)
Definition fills (h : heap) (n m : Z) (fill : Z -> obj -> heap -> outcome heap) (rows : list (list A)) (i : nat) : Prop :=
  forall h1 x, let F := seq (length h) (S (S i)) in
    grows h h1 (S (S i)) ->
    repr (Z.to_nat n - S i) h1 x (Mat n m (firstn i rows ++ [repeat (o0 o) (Z.to_nat m)]) true) F ->
    exists h2, fill (Z.of_nat i) x h1 = Ok h2 /\ frame F h1 h2 /\
      repr (Z.to_nat n - S i) h2 x (Mat n m (firstn (S i) rows) true) F.
Definition constr_body (n m : Z) (fill : Z -> obj -> heap -> outcome heap) (x : obj) (i : Z) (h : heap) : outcome heap :=
  let (h, a) := alloc h (Vals (repeat (o0 o) (Z.to_nat m))) in h <- set_row h x i a ;; fill i x h.
Lemma construct_unfold h n m fill : 0 <= n -> 0 <= m -> construct o h n m fill =
  (h' <- for_loop (Z.to_nat n) 0 (constr_body n m fill (Obj (length h) n m)) (h ++ [Some (Ptrs (repeat None (Z.to_nat n)))]) ;;
   Ok (h', Obj (length h) n m)).
Proof. intros H1 H2. unfold construct. replace ((n <? 0) || (m <? 0)) with false by lia. reflexivity. Qed.
Lemma construct_prefix h n m fill rows t : 0 <= n -> 0 <= m -> (t <= Z.to_nat n)%nat -> (t <= length rows)%nat ->
  (forall i, (i < t)%nat -> fills h n m fill rows i) ->
  exists h', for_loop t 0 (constr_body n m fill (Obj (length h) n m)) (h ++ [Some (Ptrs (repeat None (Z.to_nat n)))]) = Ok h' /\
    grows h h' (S t) /\ repr (Z.to_nat n - t) h' (Obj (length h) n m) (Mat n m (firstn t rows) true) (seq (length h) (S t)).
Proof.
  intros Hn Hm. induction t as [|t IH]; intros Ht Hr Hf.
  - cbn [for_loop]. eexists. split; [reflexivity|]. split; [apply grows_alloc|]. rewrite Nat.sub_0_r.
    exists []. cbn [elem cells firstn row col live map app orow ocol].
    split; [rewrite nth_error_app2 by lia; now rewrite Nat.sub_diag|]. split; [constructor|].
    split; [constructor; [intros []|constructor]|]. auto.
  - destruct IH as (h1 & E1 & G1 & R1); [lia|lia|intros; apply Hf; lia|].
    rewrite for_loop_snoc, E1. cbn [bind]. rewrite Z.add_0_l.
    unfold constr_body at 1. unfold alloc at 1.
    replace (Z.to_nat n - t)%nat with (S (Z.to_nat n - S t)) in R1 by lia.
    destruct (alloc_row _ h1 (length h) n m _ _ (repeat (o0 o) (Z.to_nat m)) R1) as (h2 & E2 & R2 & L2 & N2 & A2 & A2').
    rewrite firstn_length, Nat.min_l in E2 by lia. rewrite E2. cbn [bind].
    assert (L1 : length h1 = (length h + S t)%nat) by apply G1.
    assert (EF : seq (length h) (S t) ++ [length h1] = seq (length h) (S (S t))).
    { rewrite L1. rewrite <- (seq_app (S t) 1). f_equal. lia. }
    rewrite EF in *.
    assert (G2 : grows h h2 (S (S t))).
    { split; [lia|]. split.
      - intros b Hb. rewrite N2; [apply G1; assumption|]. rewrite in_seq. lia.
      - intros b Hb. destruct (Nat.eq_dec b (length h1)) as [->|]; [assumption|]. apply A2. apply G1. lia. }
    destruct (Hf t ltac:(lia) h2 (Obj (length h) n m) G2 R2) as (h3 & E3 & F3 & R3).
    rewrite E3. exists h3. split; [reflexivity|]. split; [|assumption].
    apply (grows_frame h h2 h3 _ _ G2 F3). intros a Ha. apply in_seq in Ha. lia.
Qed.
Lemma construct_ok h n m fill rows : 0 <= n -> 0 <= m -> length rows = Z.to_nat n ->
  (forall i, (i < Z.to_nat n)%nat -> fills h n m fill rows i) ->
  exists h', construct o h n m fill = Ok (h', Obj (length h) n m) /\ grows h h' (S (Z.to_nat n)) /\
    repr 0 h' (Obj (length h) n m) (Mat n m rows true) (seq (length h) (S (Z.to_nat n))).
Proof.
  intros Hn Hm HL Hf. destruct (construct_prefix h n m fill rows (Z.to_nat n) Hn Hm ltac:(lia) ltac:(lia) Hf) as (h' & E & G & R).
  rewrite construct_unfold by assumption. rewrite E. cbn [bind]. exists h'. split; [reflexivity|]. split; [assumption|].
  rewrite Nat.sub_diag in R. rewrite firstn_all2 in R by lia. assumption.
Qed.
(** writing the last row, entry by entry *)
Lemma fill_row n m rs row0 (g : Z -> outcome A) : length row0 = Z.to_nat m -> 0 <= m ->
  (forall j, 0 <= j < m -> g j = Ok (nth (Z.to_nat j) row0 (o0 o))) ->
  for_loop (Z.to_nat m) 0 (fun j M => v <- g j ;; mset M (Z.of_nat (length rs)) j v) (Mat n m (rs ++ [repeat (o0 o) (Z.to_nat m)]) true)
  = Ok (Mat n m (rs ++ [row0]) true).
Proof.
  intros HL Hm Hg.
  destruct (for_loop_inv (fun j M => M = Mat n m (rs ++ [firstn (Z.to_nat j) row0 ++ repeat (o0 o) (Z.to_nat m - Z.to_nat j)]) true)
    (fun j M => v <- g j ;; mset M (Z.of_nat (length rs)) j v) (Z.to_nat m) 0
    (Mat n m (rs ++ [repeat (o0 o) (Z.to_nat m)]) true)) as (M & E & HM).
  - cbn. now rewrite Nat.sub_0_r.
  - intros j M Hj ->. rewrite Hg by lia. cbn [bind]. unfold mset. cbn [live cells row col].
    unfold aget at 1. destruct (Z.ltb_spec (Z.of_nat (length rs)) 0); [lia|]. rewrite Nat2Z.id.
    rewrite nth_error_app2, Nat.sub_diag by lia. cbn [nth_error bind].
    rewrite aset_ok by (rewrite app_length, firstn_length, repeat_length; lia). cbn [bind].
    rewrite aset_ok by (rewrite app_length; cbn; lia). cbn [bind].
    eexists. split; [reflexivity|]. f_equal. rewrite Nat2Z.id.
    assert (U : forall l (x y : list A), upd (l ++ [x]) (length l) y = l ++ [y]).
    { induction l; intros; cbn; [reflexivity|]. now rewrite IHl. }
    rewrite U. do 2 f_equal.
    replace (Z.to_nat (j + 1)) with (S (Z.to_nat j)) by lia.
    set (k := Z.to_nat j). assert (Hk : (k < length row0)%nat) by lia. rewrite <- HL. clearbody k. clear -Hk.
    revert k Hk. induction row0 as [|v r IH]; intros [|k] Hk; cbn in *; try lia; [now rewrite Nat.sub_0_r|].
    f_equal. apply IH. lia.
  - rewrite E, HM. rewrite Z.add_0_l, Nat2Z.id, Nat.sub_diag. cbn [repeat]. rewrite app_nil_r, firstn_all2 by lia. reflexivity.
Qed.
Lemma firstn_S_nth {B} (l : list B) i d : (i < length l)%nat -> firstn (S i) l = firstn i l ++ [nth i l d].
Proof. revert i; induction l as [|x l IH]; intros [|i] H; cbn in *; try lia; [reflexivity|]. f_equal. apply IH. lia. Qed.
Lemma fills_loop h n m rows i (g : heap -> Z -> Z -> outcome A) : 0 <= m -> (i < length rows)%nat ->
  length (nth i rows []) = Z.to_nat m ->
  (forall h1 F h2, grows h h1 (S (S i)) -> frame F h1 h2 -> (forall a, In a F -> (length h <= a)%nat) ->
     forall j, 0 <= j < m -> g h2 (Z.of_nat i) j = Ok (nth (Z.to_nat j) (nth i rows []) (o0 o))) ->
  fills h n m (fun i x h => for_loop (Z.to_nat m) 0 (fun j h => v <- g h i j ;; hset h x i j v) h) rows i.
Proof.
  intros Hm Hi HL Hg h1 x F G1 R1.
  assert (HF : forall a, In a F -> (length h <= a)%nat) by (intros a Ha; apply in_seq in Ha; lia).
  assert (Hlen : length (firstn i rows) = i) by (rewrite firstn_length; lia).
  pose proof (fill_row n m (firstn i rows) (nth i rows []) (fun j => if (0 <=? j) && (j <? m) then Ok (nth (Z.to_nat j) (nth i rows []) (o0 o)) else UB) HL Hm) as E.
  rewrite Hlen in E.
  assert (S : orel (Rin h1 x F (Z.to_nat n - S i))
    (for_loop (Z.to_nat m) 0 (fun j h => v <- g h (Z.of_nat i) j ;; hset h x (Z.of_nat i) j v) h1)
    (for_loop (Z.to_nat m) 0 (fun j M => v <- (if (0 <=? j) && (j <? m) then Ok (nth (Z.to_nat j) (nth i rows []) (o0 o)) else UB) ;; mset M (Z.of_nat i) j v)
       (Mat n m (firstn i rows ++ [repeat (o0 o) (Z.to_nat m)]) true))).
  { assert (K : forall k t h2 M, 0 <= t -> t + Z.of_nat k <= m -> Rin h1 x F (Z.to_nat n - S i) h2 M ->
      orel (Rin h1 x F (Z.to_nat n - S i))
        (for_loop k t (fun j h => v <- g h (Z.of_nat i) j ;; hset h x (Z.of_nat i) j v) h2)
        (for_loop k t (fun j M => v <- (if (0 <=? j) && (j <? m) then Ok (nth (Z.to_nat j) (nth i rows []) (o0 o)) else UB) ;; mset M (Z.of_nat i) j v) M)).
    { induction k as [|k IH]; intros t h2 M Ht Hk RM; cbn [for_loop]; [exact RM|].
      rewrite (Hg h1 F h2 G1 (proj2 RM) HF t) by lia. replace ((0 <=? t) && (t <? m)) with true by lia. cbn [bind].
      eapply orel_bind; [apply hset_sim; exact RM|]. intros h3 M3 R3. apply IH; [lia|lia|assumption]. }
    apply K; [lia|lia|]. apply Rin_refl. assumption. }
  rewrite E in S by (intros j Hj; replace ((0 <=? j) && (j <? m)) with true by lia; reflexivity).
  apply orel_ok in S. destruct S as (h2 & E2 & R2 & F2). exists h2. split; [exact E2|]. split; [exact F2|].
  rewrite (firstn_S_nth rows i []) by assumption. exact R2.
Qed.

(** construction *)
Lemma shape_cells (m : mat A) n c : shape m n c -> m = Mat n c (cells m) true /\ length (cells m) = Z.to_nat n /\
  forall i, (i < Z.to_nat n)%nat -> length (nth i (cells m) []) = Z.to_nat c.
Proof.
  intros (L & R & C & _ & _ & HL & F). split; [destruct m; cbn in *; congruence|]. split; [assumption|].
  intros i Hi. rewrite Forall_forall in F. apply F. apply nth_In. lia.
Qed.
Lemma hmk_ok h n m : 0 <= n -> 0 <= m -> exists h' a,
  hmk o h n m = Ok (h', Obj (length h) n m) /\ mk o n m = Ok a /\ grows h h' (S (Z.to_nat n)) /\
  repr 0 h' (Obj (length h) n m) a (seq (length h) (S (Z.to_nat n))).
Proof.
  intros Hn Hm. set (rows := repeat (repeat (o0 o) (Z.to_nat m)) (Z.to_nat n)).
  destruct (construct_ok h n m (fun _ _ h => Ok h) rows Hn Hm) as (h' & E & G & R).
  - apply repeat_length.
  - intros i Hi h1 x F G1 R1. exists h1. split; [reflexivity|]. split; [apply frame_refl|].
    rewrite (firstn_S_nth rows i (repeat (o0 o) (Z.to_nat m))) by (unfold rows; rewrite repeat_length; lia).
    unfold rows in *. rewrite nth_repeat. exact R1.
  - exists h', (Mat n m rows true). split; [exact E|]. split; [|auto].
    unfold mk. replace ((n <? 0) || (m <? 0)) with false by lia. reflexivity.
Qed.
Lemma hmk_err h n m : n < 0 \/ m < 0 -> hmk o h n m = Err /\ mk o n m = Err.
Proof. intros H. unfold hmk, construct, mk. replace ((n <? 0) || (m <? 0)) with true by lia. auto. Qed.
Lemma hcopy_ok (h : heap) x (m : mat A) n c G0 : repr 0 h x m G0 -> shape m n c -> exists h',
  hcopy o h x = Ok (h', Obj (length h) n c) /\ grows h h' (S (Z.to_nat n)) /\
  repr 0 h' (Obj (length h) n c) m (seq (length h) (S (Z.to_nat n))).
Proof.
  intros R Sm. destruct (shape_nonneg _ _ _ Sm) as (Hn & Hc & Er & Ec). destruct (repr_dims _ _ _ _ _ R) as (Or & Oc).
  destruct (shape_cells m n c Sm) as (Em & HL & Hrow).
  unfold hcopy. rewrite Or, Oc, Er, Ec.
  destruct (construct_ok h n c (fun i y h => for_loop (Z.to_nat c) 0 (fun j h => v <- hget h x i j ;; hset h y i j v) h) (cells m) Hn Hc HL) as (h' & E & G & R').
  - intros i Hi. apply (fills_loop h n c (cells m) i (fun h i j => hget h x i j)); [assumption|lia|now apply Hrow|].
    intros h1 F h2 G1 F2 HF j Hj.
    assert (R2 : repr 0 h2 x m G0).
    { apply (repr_frame 0 h1 h2 F x m G0); [eapply repr_grows; eassumption|assumption|].
      intros a H1 H2. apply HF in H1. apply (repr_lt _ _ _ _ _ _ R) in H2. lia. }
    rewrite (hget_repr _ _ _ _ _ _ _ R2). rewrite (mget_shape o m n c) by (try assumption; lia).
    unfold MatSpec.ent. rewrite Nat2Z.id. reflexivity.
  - exists h'. rewrite <- Em in R'. auto.
Qed.
(** destruction *)
Lemma hclear_ok (h : heap) x (m : mat A) n c F : repr 0 h x m F -> shape m n c -> exists h',
  hclear h x = Ok h' /\ length h' = length h /\
  (forall b, ~ In b F -> nth_error h' b = nth_error h b) /\ (forall b, In b F -> nth_error h' b = Some None).
Proof.
  intros R Sm. destruct (shape_nonneg _ _ _ Sm) as (Hn & Hc & Er & Ec). destruct (repr_dims _ _ _ _ _ R) as (Or & Oc).
  destruct (shape_cells m n c Sm) as (Em & HL & Hrow). pose proof R as (ps & E & H2 & ND & P & _).
  pose proof (Forall2_length _ _ _ H2) as HLp. cbn [repeat] in E. rewrite app_nil_r in E.
  inversion ND as [|? ? Hnin ND']; subst. unfold hclear. rewrite Or.
  destruct (for_loop_inv (fun i (h' : heap) => length h' = length h /\ forall b, nth_error h' b = if in_dec Nat.eq_dec b (firstn (Z.to_nat i) ps) then Some None else nth_error h b)
    (fun i h => a <- row_at h x i ;; free h a) (Z.to_nat (row m)) 0 h) as (h1 & E1 & L1 & H1).
  - split; [reflexivity|]. intros b. cbn. reflexivity.
  - intros i h' Hi (L' & H').
    assert (Hip : (Z.to_nat i < length ps)%nat) by lia.
    assert (Hnth : nth_error ps (Z.to_nat i) = Some (nth (Z.to_nat i) ps 0%nat)) by (now apply nth_error_nth').
    set (a := nth (Z.to_nat i) ps 0%nat) in *.
    assert (Hea : ~ In (elem x) (firstn (Z.to_nat i) ps)).
    { intros Hin. apply Hnin. rewrite <- (firstn_skipn (Z.to_nat i) ps). apply in_app_iff. now left. }
    assert (Haa : ~ In a (firstn (Z.to_nat i) ps)).
    { intros Hin. apply In_nth_error in Hin. destruct Hin as (t & Ht).
      assert (Htl : (t < Z.to_nat i)%nat).
      { assert (Hq : (t < length (firstn (Z.to_nat i) ps))%nat) by (apply nth_error_Some; congruence). rewrite firstn_length in Hq. lia. }
      assert (Ht' : nth_error ps t = Some a).
      { rewrite <- Ht. rewrite <- (firstn_skipn (Z.to_nat i) ps) at 1. apply nth_error_app1. rewrite firstn_length. lia. }
      assert (t = Z.to_nat i); [|lia]. apply (proj1 (NoDup_nth_error ps) ND'); [apply nth_error_Some; congruence|congruence]. }
    unfold row_at, ptrs, load. rewrite H'. destruct (in_dec Nat.eq_dec (elem x) (firstn (Z.to_nat i) ps)); [tauto|].
    rewrite E. cbn [bind]. unfold aget. destruct (Z.ltb_spec i 0); [lia|]. rewrite nth_error_map, Hnth. cbn [option_map bind].
    unfold free, load. rewrite H'. destruct (in_dec Nat.eq_dec a (firstn (Z.to_nat i) ps)); [tauto|].
    destruct (Forall2_nth_error _ _ _ _ _ H2 Hnth) as (r & _ & Hv). rewrite Hv. cbn [bind].
    eexists. split; [reflexivity|]. split; [rewrite upd_length; assumption|].
    assert (Hal : (a < length h')%nat) by (rewrite L'; apply alive_lt; eexists; exact Hv).
    replace (Z.to_nat (i + 1)) with (S (Z.to_nat i)) by lia. rewrite (firstn_S_nth ps (Z.to_nat i) 0%nat) by assumption. fold a.
    intros b. destruct (Nat.eq_dec a b) as [<-|Nb].
    + rewrite nth_error_upd_eq by assumption. destruct (in_dec Nat.eq_dec a (firstn (Z.to_nat i) ps ++ [a])) as [|N]; [reflexivity|].
      exfalso. apply N. apply in_app_iff. right. now left.
    + rewrite nth_error_upd_neq by assumption. rewrite H'.
      destruct (in_dec Nat.eq_dec b (firstn (Z.to_nat i) ps)) as [Y|N], (in_dec Nat.eq_dec b (firstn (Z.to_nat i) ps ++ [a])) as [Y'|N']; try reflexivity.
      * exfalso. apply N'. apply in_app_iff. now left.
      * exfalso. apply in_app_iff in Y'. destruct Y' as [Y'|[Y'|[]]]; auto.
  - rewrite E1. cbn [bind]. rewrite Z.add_0_l, Nat2Z.id, firstn_all2 in H1 by lia.
    unfold free, load. rewrite H1. destruct (in_dec Nat.eq_dec (elem x) ps) as [Y|_]; [tauto|]. rewrite E. cbn [bind].
    eexists. split; [reflexivity|]. split; [rewrite upd_length; assumption|].
    assert (Hel : (elem x < length h1)%nat) by (rewrite L1; apply alive_lt; eexists; exact E).
    assert (HP : forall b, In b F <-> elem x = b \/ In b ps).
    { intros b. split; intros H; [apply (Permutation_in _ P) in H|apply (Permutation_in _ (Permutation_sym P))]; exact H. }
    split; intros b Hb.
    + rewrite HP in Hb. rewrite nth_error_upd_neq by tauto. rewrite H1. destruct (in_dec Nat.eq_dec b ps); [tauto|reflexivity].
    + rewrite HP in Hb. destruct (Nat.eq_dec (elem x) b) as [<-|N]; [now apply nth_error_upd_eq|].
      rewrite nth_error_upd_neq by assumption. rewrite H1. destruct (in_dec Nat.eq_dec b ps); [reflexivity|tauto].
Qed.
(** clearing twice *)
Lemma hclear_freed (h : heap) x : ~ alive h (elem x) -> hclear h x = UB.
Proof.
  intros H. assert (L : load h (elem x) = UB).
  { unfold load. destruct (nth_error h (elem x)) as [[b|]|] eqn:E; try reflexivity. exfalso. apply H. eexists. exact E. }
  unfold hclear. destruct (Z.to_nat (orow x)) as [|k]; cbn [for_loop bind].
  - unfold free. rewrite L. reflexivity.
  - unfold row_at, ptrs. rewrite L. reflexivity.
Qed.
End Ops.
