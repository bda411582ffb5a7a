(** Memory level Matrix: construction from lists, arithmetic, power, reduction. *)
From Coq Require Import Permutation.
From Verif Require Import Base MatModel MatSpec MatProofs MatReduceProofs MatHeapModel MatHeapSpec MatHeapProofs MatHeapOpProofs.
Local Open Scope Z_scope.

Lemma orel_eq {S} (a b : outcome S) : orel eq a b <-> a = b.
Proof. destruct a, b; cbn; split; try tauto; try discriminate; try congruence. Qed.
Lemma for_loop_same {S} (b1 b2 : Z -> S -> outcome S) n i s : (forall i s, b1 i s = b2 i s) -> for_loop n i b1 s = for_loop n i b2 s.
Proof. intros H. revert i s; induction n as [|n IH]; intros i s; cbn [for_loop]; [reflexivity|]. rewrite H. destruct (b2 i s); cbn [bind]; auto. Qed.

Section Lists.
Context {A : Type} (o : ops A) (f : Z -> A).
Notation heap := (heap (A := A)).
Variable ini : list (list Z).
Variable c : nat.

Definition vbody (i j : Z) (M : mat A) : outcome (mat A) := r <- aget ini i ;; v <- aget r j ;; mset M i j (f v).
Definition hbody (i : Z) (x : obj) (j : Z) (h : heap) : outcome heap := r <- aget ini i ;; v <- aget r j ;; hset h x i j (f v).
Lemma mset_ok (M : mat A) i j v rw : live M = true -> aget (cells M) i = Ok rw -> 0 <= j < Z.of_nat (length rw) ->
  exists M', mset M i j v = Ok M' /\ live M' = true /\ row M' = row M /\ col M' = col M /\ aget (cells M') i = Ok (upd rw (Z.to_nat j) v).
Proof.
  intros L E Hj. unfold mset. rewrite L, E. cbn [bind]. rewrite aset_ok by assumption. cbn [bind].
  pose proof (aget_inv _ _ _ E) as Hi.
  assert (Hi' : 0 <= i < Z.of_nat (length (cells M))) by tauto. rewrite aset_ok by assumption. cbn [bind].
  eexists. split; [reflexivity|]. cbn [live row col cells]. repeat split.
  unfold aget. destruct (Z.ltb_spec i 0); [lia|]. rewrite nth_error_upd_eq by lia. reflexivity.
Qed.
(** a row of [ini] that is too short *)
Lemma short_row M i rw r : live M = true -> aget (cells M) i = Ok rw -> length rw = c ->
  aget ini i = Ok r -> (length r < c)%nat -> for_loop c 0 (vbody i) M = UB.
Proof.
  intros L E Hrw Er Hr. replace c with (length r + S (c - S (length r)))%nat by lia. rewrite for_loop_add.
  destruct (for_loop_inv (fun j M => live M = true /\ exists rw, aget (cells M) i = Ok rw /\ length rw = c)
     (vbody i) (length r) 0 M) as (M' & E' & _ & _).
  - eauto.
  - intros j M1 Hj (L1 & rw1 & E1 & H1). unfold vbody. rewrite Er. cbn [bind].
    rewrite (aget_ok r j 0) by lia. cbn [bind].
    destruct (mset_ok M1 i j (f (nth (Z.to_nat j) r 0)) rw1 L1 E1 ltac:(lia)) as (M2 & E2 & L2 & _ & _ & C2).
    exists M2. split; [assumption|]. split; [assumption|]. eexists. split; [exact C2|]. now rewrite upd_length.
  - rewrite E'. cbn [bind for_loop]. unfold vbody at 1. rewrite Er. cbn [bind].
    unfold aget. destruct (Z.ltb_spec (0 + Z.of_nat (length r)) 0); [lia|]. rewrite Z.add_0_l, Nat2Z.id.
    rewrite (proj2 (nth_error_None r (length r))) by lia. reflexivity.
Qed.
Definition lrows : list (list A) := map (fun r => map f (firstn c r)) ini.
Lemma lrows_fills h n i : (i < length ini)%nat -> (c <= length (nth i ini []))%nat ->
  fills o h n (Z.of_nat c) (fun i x h => for_loop c 0 (hbody i x) h) lrows i.
Proof.
  intros Hi Hc.
  assert (E : nth i lrows [] = map f (firstn c (nth i ini []))).
  { unfold lrows. apply nth_error_nth. rewrite nth_error_map. rewrite (nth_error_nth' ini [] Hi). reflexivity. }
  assert (K : fills o h n (Z.of_nat c) (fun i x h => for_loop (Z.to_nat (Z.of_nat c)) 0
     (fun j h => v <- (r <- aget ini i ;; v <- aget r j ;; Ok (f v)) ;; hset h x i j v) h) lrows i).
  { apply (fills_loop o h n (Z.of_nat c) lrows i (fun _ i j => r <- aget ini i ;; v <- aget r j ;; Ok (f v))).
    - lia.
    - unfold lrows. rewrite map_length. assumption.
    - rewrite E, map_length, firstn_length. lia.
    - intros h1 F h2 _ _ _ j Hj. rewrite (aget_ok ini _ []) by lia. cbn [bind]. rewrite Nat2Z.id.
      rewrite (aget_ok _ j 0) by lia. cbn [bind]. rewrite E. f_equal. symmetry. apply nth_error_nth. rewrite nth_error_map.
      assert (Hn : nth_error (firstn c (nth i ini [])) (Z.to_nat j) = Some (nth (Z.to_nat j) (nth i ini []) 0)).
      { assert (Hl : (Z.to_nat j < length (firstn c (nth i ini [])))%nat) by (rewrite firstn_length; lia).
        rewrite <- (firstn_skipn c (nth i ini [])) at 2. rewrite app_nth1 by assumption. now apply nth_error_nth'. }
      rewrite Hn. reflexivity. }
  intros h1 x F G R. destruct (K h1 x G R) as (h2 & E2 & K2). exists h2. split; [|exact K2]. rewrite <- E2. rewrite Nat2Z.id.
  apply for_loop_same. intros j s. unfold hbody. destruct (aget ini (Z.of_nat i)) as [r| | |]; cbn [bind]; try reflexivity.
  destruct (aget r j); reflexivity.
Qed.
(** the first row that is too short, if any *)
Lemma first_short : (forall i, (i < length ini)%nat -> (c <= length (nth i ini []))%nat) \/
  exists k, (k < length ini)%nat /\ (length (nth k ini []) < c)%nat /\ forall i, (i < k)%nat -> (c <= length (nth i ini []))%nat.
Proof.
  assert (K : forall t, (t <= length ini)%nat -> (forall i, (i < t)%nat -> (c <= length (nth i ini []))%nat) \/
    exists k, (k < length ini)%nat /\ (length (nth k ini []) < c)%nat /\ forall i, (i < k)%nat -> (c <= length (nth i ini []))%nat).
  { induction t as [|t IH]; intros Ht; [left; lia|]. destruct (IH ltac:(lia)) as [H|H]; [|auto].
    destruct (Nat.lt_ge_cases (length (nth t ini [])) c); [right; exists t; repeat split; auto; lia|].
    left. intros i Hi. destruct (Nat.eq_dec i t) as [->|]; [assumption|apply H; lia]. }
  apply K. lia.
Qed.
End Lists.

Section Arith.
Context {A : Type} (o : ops A).
Notation heap := (heap (A := A)).
Notation ent := (ent o).

Lemma hof_lists_ok f (h : heap) ini : 
  (exists h' m n c, hof_lists o f h ini = Ok (h', Obj (length h) n c) /\ of_lists o f ini = Ok m /\ shape m n c /\
     grows h h' (S (Z.to_nat n)) /\ repr 0 h' (Obj (length h) n c) m (seq (length h) (S (Z.to_nat n)))) \/
  (hof_lists o f h ini = UB /\ of_lists o f ini = UB).
Proof.
  destruct ini as [|r0 ini']; [right; auto|]. set (ini := r0 :: ini'). set (c := length r0). set (n := Z.of_nat (length ini)).
  assert (En : Z.to_nat n = length ini) by (unfold n; lia).
  destruct (first_short ini c) as [Hok|(k & Hk & Hshort & Hbefore)].
  - left. destruct (of_lists_spec o f ini (Z.of_nat c)) as (m & Em & Sm & Hm).
    { discriminate. }
    { apply Forall_forall. intros r Hr. apply (In_nth _ _ []) in Hr. destruct Hr as (i & Hi & <-). rewrite Nat2Z.id. now apply Hok. }
    { reflexivity. }
    assert (HL : length (lrows f ini c) = Z.to_nat n) by (unfold lrows; rewrite map_length; lia).
    destruct (construct_ok o h n (Z.of_nat c) (fun i x h => for_loop c 0 (hbody f ini i x) h) (lrows f ini c) ltac:(lia) ltac:(lia) HL) as (h' & E & G & R).
    { intros i Hi. apply lrows_fills; [lia|]. apply Hok. lia. }
    exists h', m, n, (Z.of_nat c). split; [exact E|]. split; [exact Em|]. split; [exact Sm|]. split; [exact G|].
    replace m with (Mat n (Z.of_nat c) (lrows f ini c) true); [exact R|]. symmetry.
    apply (mat_ext o _ _ n (Z.of_nat c) Sm).
    + unfold shape. cbn [live row col cells]. repeat split; try lia. apply Forall_forall. intros r Hr. unfold lrows in Hr.
      apply in_map_iff in Hr. destruct Hr as (q & <- & Hq). apply (In_nth _ _ []) in Hq. destruct Hq as (i & Hi & <-).
      rewrite map_length, firstn_length, Nat2Z.id. specialize (Hok i Hi). lia.
    + intros i j Hi Hj. rewrite Hm by assumption. unfold MatSpec.ent. cbn [cells]. symmetry.
      assert (E1 : nth (Z.to_nat i) (lrows f ini c) [] = map f (firstn c (nth (Z.to_nat i) ini []))).
      { unfold lrows. apply nth_error_nth. rewrite nth_error_map. rewrite (nth_error_nth' ini []) by lia. reflexivity. }
      rewrite E1. apply nth_error_nth. rewrite nth_error_map.
      assert (Hl : (Z.to_nat j < length (firstn c (nth (Z.to_nat i) ini [])))%nat).
      { rewrite firstn_length. specialize (Hok (Z.to_nat i) ltac:(lia)). lia. }
      rewrite <- (firstn_skipn c (nth (Z.to_nat i) ini [])) at 2. rewrite app_nth1 by assumption.
      rewrite (nth_error_nth' _ 0 Hl). reflexivity.
  - right. assert (Ek : aget ini (Z.of_nat k) = Ok (nth k ini [])).
    { rewrite (aget_ok ini _ []) by lia. now rewrite Nat2Z.id. }
    split.
    + change (construct o h n (Z.of_nat c) (fun i x h => for_loop c 0 (hbody f ini i x) h) = UB).
      rewrite construct_unfold by lia.
      destruct (construct_prefix o h n (Z.of_nat c) (fun i x h => for_loop c 0 (hbody f ini i x) h) (lrows f ini c) k) as (h1 & E1 & G1 & R1);
        [lia|lia|lia|unfold lrows; rewrite map_length; lia| |].
      { intros i Hi. apply lrows_fills; [lia|]. now apply Hbefore. }
      replace (Z.to_nat n) with (k + S (Z.to_nat n - S k))%nat at 1 by lia. rewrite for_loop_add, E1. cbn [bind for_loop].
      rewrite Z.add_0_l. unfold constr_body at 1. unfold alloc at 1.
      replace (Z.to_nat n - k)%nat with (S (Z.to_nat n - S k)) in R1 by lia.
      destruct (alloc_row _ h1 (length h) n (Z.of_nat c) _ _ (repeat (o0 o) (Z.to_nat (Z.of_nat c))) R1) as (h2 & E2 & R2 & _).
      assert (Hlen : length (firstn k (lrows f ini c)) = k) by (rewrite firstn_length; unfold lrows; rewrite map_length; lia).
      rewrite Hlen in E2. rewrite E2. cbn [bind].
      assert (S : orel (Rin h2 (Obj (length h) n (Z.of_nat c)) (seq (length h) (S k) ++ [length h1]) (Z.to_nat n - S k))
         (for_loop c 0 (hbody f ini (Z.of_nat k) (Obj (length h) n (Z.of_nat c))) h2)
         (for_loop c 0 (vbody f ini (Z.of_nat k)) (Mat n (Z.of_nat c) (firstn k (lrows f ini c) ++ [repeat (o0 o) (Z.to_nat (Z.of_nat c))]) true))).
      { apply for_loop_orel; [|now apply Rin_refl]. intros j s t Rst. unfold hbody, vbody.
        destruct (aget ini (Z.of_nat k)) as [r| | |]; cbn [bind orel]; try exact I.
        destruct (aget r j); cbn [bind orel]; try exact I. now apply hset_sim. }
      rewrite (short_row f ini c _ (Z.of_nat k) (repeat (o0 o) c) (nth k ini [])) in S; try assumption; try reflexivity.
      * destruct (for_loop c 0 (hbody f ini (Z.of_nat k) (Obj (length h) n (Z.of_nat c))) h2); cbn in S; try tauto; reflexivity.
      * cbn [cells]. unfold aget. destruct (Z.ltb_spec (Z.of_nat k) 0); [lia|]. rewrite !Nat2Z.id.
        rewrite nth_error_app2 by lia. rewrite Hlen, Nat.sub_diag. reflexivity.
      * apply repeat_length.
    + unfold of_lists. change (aget ini 0) with (Ok r0). cbn [bind]. fold n c.
      destruct (mk_shape o n (Z.of_nat c) ltac:(lia) ltac:(lia)) as (z & Ez & Sz & _). rewrite Ez. cbn [bind].
      unfold loop2. change (for_loop (Z.to_nat n) 0 (fun i s => for_loop (Z.to_nat (Z.of_nat c)) 0 (vbody f ini i) s) z = UB).
      rewrite Nat2Z.id. replace (Z.to_nat n) with (k + S (Z.to_nat n - S k))%nat by lia. rewrite for_loop_add.
      destruct (for_loop_inv (fun i M => shape M n (Z.of_nat c)) (fun i s => for_loop c 0 (vbody f ini i) s) k 0 z Sz) as (M & EM & SM).
      { intros i M Hi SM. destruct (for_loop_inv (fun j M => shape M n (Z.of_nat c)) (vbody f ini i) c 0 M SM) as (M' & E' & S').
        - intros j M1 Hj S1. unfold vbody. rewrite (aget_ok ini i []) by lia. cbn [bind].
          rewrite (aget_ok _ j 0) by (specialize (Hbefore (Z.to_nat i) ltac:(lia)); lia). cbn [bind].
          edestruct (mset_shape o M1 n (Z.of_nat c) i j) as (M2 & E2 & S2 & _); [exact S1|lia|lia|]. rewrite E2. eauto.
        - eauto. }
      rewrite EM. cbn [bind for_loop]. rewrite Z.add_0_l.
      destruct (shape_cells M n (Z.of_nat c) SM) as (_ & HL & Hrow).
      rewrite (short_row f ini c M (Z.of_nat k) (nth k (cells M) []) (nth k ini [])); try assumption; try reflexivity.
      * apply SM.
      * rewrite (aget_ok _ _ []) by lia. now rewrite Nat2Z.id.
      * rewrite Hrow by lia. apply Nat2Z.id.
Qed.

(** comparison *)
Lemma heq_same (h : heap) a b (ma mb : mat A) Fa Fb : repr 0 h a ma Fa -> repr 0 h b mb Fb -> heq o h a b = eqm o ma mb.
Proof.
  intros Ra Rb. destruct (repr_dims _ _ _ _ _ Ra) as (R1 & C1). destruct (repr_dims _ _ _ _ _ Rb) as (R2 & C2).
  unfold heq, eqm. rewrite R1, C1, R2, C2. destruct (_ || _); [reflexivity|].
  apply orel_eq. apply loop2_orel; [|reflexivity]. intros i j s t ->. apply orel_eq.
  rewrite (hget_repr _ _ _ _ _ _ _ Ra), (hget_repr _ _ _ _ _ _ _ Rb). reflexivity.
Qed.

(** sums and differences *)
Lemma hzip_ok g (h : heap) a b (ma mb : mat A) Fa Fb n c : repr 0 h a ma Fa -> repr 0 h b mb Fb -> shape ma n c -> shape mb n c ->
  exists h' r, hzip o g h a b = Ok (h', Obj (length h) n c) /\ zip_op o g ma mb = Ok r /\ shape r n c /\
    grows h h' (S (Z.to_nat n)) /\ repr 0 h' (Obj (length h) n c) r (seq (length h) (S (Z.to_nat n))).
Proof.
  intros Ra Rb Sa Sb. destruct (repr_dims _ _ _ _ _ Ra) as (R1 & C1). destruct (repr_dims _ _ _ _ _ Rb) as (R2 & C2).
  destruct (shape_nonneg _ _ _ Sa) as (H0 & H1 & Ea & Eca). destruct (shape_nonneg _ _ _ Sb) as (_ & _ & Eb & Ecb).
  destruct (zip_op_spec o g ma mb n c Sa Sb) as (r & Er & Sr & _). unfold hzip. rewrite R1, R2, C1, C2, Ea, Eb, Eca, Ecb, !Z.eqb_refl. cbn [andb negb].
  destruct (hmk_ok o h n c H0 H1) as (h1 & z & E1 & Ez & G1 & R). rewrite E1. cbn [bind].
  unfold zip_op in Er. rewrite Ea, Eb, Eca, Ecb, !Z.eqb_refl in Er. cbn [andb negb] in Er. rewrite Ez in Er. cbn [bind] in Er.
  set (F := seq (length h) (S (Z.to_nat n))) in *. set (x := Obj (length h) n c) in *.
  assert (HF : forall q, In q F -> (length h <= q)%nat) by (intros q Hq; apply in_seq in Hq; lia).
  assert (S : orel (Rin h1 x F 0)
     (loop2 n c (fun i j h => x0 <- hget h a i j ;; y <- hget h b i j ;; hset h x i j (g x0 y)) h1)
     (loop2 n c (fun i j r => x <- mget ma i j ;; y <- mget mb i j ;; mset r i j (g x y)) z)).
  { apply loop2_orel; [|now apply Rin_refl]. intros i j s t (Rs & Fs).
    assert (Ra' : repr 0 s a ma Fa).
    { apply (repr_frame 0 h1 s F a ma Fa); [eapply repr_grows; eassumption|assumption|]. intros q Q1 Q2. apply HF in Q1. apply (repr_lt _ _ _ _ _ _ Ra) in Q2. lia. }
    assert (Rb' : repr 0 s b mb Fb).
    { apply (repr_frame 0 h1 s F b mb Fb); [eapply repr_grows; eassumption|assumption|]. intros q Q1 Q2. apply HF in Q1. apply (repr_lt _ _ _ _ _ _ Rb) in Q2. lia. }
    rewrite (hget_repr _ _ _ _ _ _ _ Ra'). apply orel_same. intros u _. rewrite (hget_repr _ _ _ _ _ _ _ Rb'). apply orel_same. intros v _.
    apply hset_sim. split; assumption. }
  rewrite Er in S. apply orel_ok in S. destruct S as (h2 & E2 & R2' & F2). rewrite E2. cbn [bind].
  exists h2, r. split; [reflexivity|]. split; [|split; [assumption|split; [|assumption]]].
  - unfold zip_op. rewrite Ea, Eb, Eca, Ecb, !Z.eqb_refl. cbn [andb negb]. rewrite Ez. exact Er.
  - eapply grows_frame; [exact G1|exact F2|exact HF].
Qed.
Lemma hzip_err g (h : heap) a b (ma mb : mat A) Fa Fb : repr 0 h a ma Fa -> repr 0 h b mb Fb -> row ma <> row mb \/ col ma <> col mb ->
  hzip o g h a b = Err /\ zip_op o g ma mb = Err /\ hzip_assign g h a b = Err /\ zip_assign g ma mb = Err.
Proof.
  intros Ra Rb H. destruct (repr_dims _ _ _ _ _ Ra) as (R1 & C1). destruct (repr_dims _ _ _ _ _ Rb) as (R2 & C2).
  destruct (zip_op_err o g ma mb H) as (E1 & E2). unfold hzip, hzip_assign. rewrite R1, R2, C1, C2.
  replace (negb _) with true; [auto|]. destruct (Z.eqb_spec (row ma) (row mb)), (Z.eqb_spec (col ma) (col mb)); try reflexivity. tauto.
Qed.
(** in place, other operand a different object *)
Lemma hzip_assign_ok g (h : heap) a b (ma mb : mat A) Fa Fb n c : repr 0 h a ma Fa -> repr 0 h b mb Fb -> shape ma n c -> shape mb n c ->
  (forall q, In q Fa -> In q Fb -> False) ->
  exists h' r, hzip_assign g h a b = Ok h' /\ zip_assign g ma mb = Ok r /\ shape r n c /\ frame Fa h h' /\ repr 0 h' a r Fa.
Proof.
  intros Ra Rb Sa Sb D. destruct (repr_dims _ _ _ _ _ Ra) as (R1 & C1). destruct (repr_dims _ _ _ _ _ Rb) as (R2 & C2).
  destruct (shape_nonneg _ _ _ Sa) as (H0 & H1 & Ea & Eca). destruct (shape_nonneg _ _ _ Sb) as (_ & _ & Eb & Ecb).
  destruct (zip_assign_spec o g ma mb n c Sa Sb) as (r & Er & Sr & _). unfold hzip_assign. rewrite R1, R2, C1, C2, Ea, Eb, Eca, Ecb, !Z.eqb_refl. cbn [andb negb].
  pose proof Er as Er0. unfold zip_assign in Er. rewrite Ea, Eb, Eca, Ecb, !Z.eqb_refl in Er. cbn [andb negb] in Er.
  assert (S : orel (Rin h a Fa 0)
     (loop2 n c (fun i j h => x0 <- hget h a i j ;; y <- hget h b i j ;; hset h a i j (g x0 y)) h)
     (loop2 n c (fun i j a => x <- mget a i j ;; y <- mget mb i j ;; mset a i j (g x y)) ma)).
  { apply loop2_orel; [|now apply Rin_refl]. intros i j s t (Rs & Fs).
    assert (Rb' : repr 0 s b mb Fb) by (apply (repr_frame 0 h s Fa b mb Fb); assumption).
    rewrite (hget_repr _ _ _ _ _ _ _ Rs). apply orel_same. intros u _. rewrite (hget_repr _ _ _ _ _ _ _ Rb'). apply orel_same. intros v _.
    apply hset_sim. split; assumption. }
  rewrite Er in S. apply orel_ok in S. destruct S as (h2 & E2 & R2' & F2). exists h2, r. auto.
Qed.
(** and the same object: a += a *)
Lemma hzip_assign_self g (h : heap) a (ma : mat A) Fa n c : repr 0 h a ma Fa -> shape ma n c ->
  exists h' r, hzip_assign g h a a = Ok h' /\ zip_assign g ma ma = Ok r /\ shape r n c /\ frame Fa h h' /\ repr 0 h' a r Fa.
Proof.
  intros Ra Sa. destruct (repr_dims _ _ _ _ _ Ra) as (R1 & C1). destruct (shape_nonneg _ _ _ Sa) as (H0 & H1 & Ea & Eca).
  destruct (zip_assign_spec o g ma ma n c Sa Sa) as (r & Er & Sr & Hr).
  destruct (loop2_sets o n c (fun i j z => g z z) (fun i j a => x <- mget a i j ;; y <- mget a i j ;; mset a i j (g x y)) ma Sa) as (r' & Er' & Sr' & Hr').
  { intros i j x Sx Hi Hj. rewrite (mget_shape o x n c) by assumption. cbn [bind].
    destruct (mset_shape o x n c i j (g (ent x i j) (ent x i j)) Sx Hi Hj) as (x' & Ex & Sx' & Hx'). exists x'. auto. }
  assert (r' = r).
  { apply (mat_ext o r' r n c Sr' Sr). intros i j Hi Hj. rewrite Hr, Hr' by assumption. reflexivity. }
  subst r'. unfold hzip_assign. rewrite R1, C1, Ea, Eca, !Z.eqb_refl. cbn [andb negb].
  assert (S : orel (Rin h a Fa 0)
     (loop2 n c (fun i j h => x0 <- hget h a i j ;; y <- hget h a i j ;; hset h a i j (g x0 y)) h)
     (loop2 n c (fun i j a => x <- mget a i j ;; y <- mget a i j ;; mset a i j (g x y)) ma)).
  { apply loop2_orel; [|now apply Rin_refl]. intros i j s t (Rs & Fs).
    rewrite (hget_repr _ _ _ _ _ _ _ Rs). apply orel_same. intros u _. apply orel_same. intros v _. apply hset_sim. split; assumption. }
  rewrite Er' in S. apply orel_ok in S. destruct S as (h2 & E2 & R2' & F2). exists h2, r. auto.
Qed.

(** products *)
Lemma hproduct_ok (h : heap) a b (ma mb : mat A) Fa Fb n k c : repr 0 h a ma Fa -> repr 0 h b mb Fb -> shape ma n k -> shape mb k c ->
  exists h' r, hproduct o h a b = Ok (h', Obj (S (length h)) n c) /\ mul o ma mb = Ok r /\ shape r n c /\
    grows h h' (S (S (Z.to_nat n))) /\ repr 0 h' (Obj (S (length h)) n c) r (seq (S (length h)) (S (Z.to_nat n))).
Proof.
  intros Ra Rb Sa Sb. destruct (repr_dims _ _ _ _ _ Ra) as (R1 & C1). destruct (repr_dims _ _ _ _ _ Rb) as (R2 & C2).
  destruct (shape_nonneg _ _ _ Sa) as (H0 & H1 & Ea & Eca). destruct (shape_nonneg _ _ _ Sb) as (_ & H2 & Eb & Ecb).
  unfold hproduct. rewrite C1, R2, Eca, Eb, Z.eqb_refl. cbn [negb]. unfold alloc. rewrite R1, C2, Ea, Ecb.
  assert (G0 : grows h (h ++ [Some Self]) 1) by apply grows_alloc.
  assert (L0 : length (h ++ [Some Self]) = S (length h)) by (rewrite app_length; cbn; lia).
  destruct (hmk_ok o (h ++ [Some Self]) n c H0 H2) as (h1 & z & E1 & Ez & G1 & R). rewrite L0 in *. rewrite E1. cbn [bind].
  assert (Sz : shape z n c) by (destruct (mk_shape o n c H0 H2) as (z' & Ez' & Sz' & _); congruence).
  destruct (mul_into_spec o ma mb n k c z Sa Sb Sz) as (r & Er & Sr & _).
  set (F := seq (S (length h)) (S (Z.to_nat n))) in *. set (x := Obj (S (length h)) n c) in *.
  assert (HF : forall q, In q F -> (length h < q)%nat) by (intros q Hq; apply in_seq in Hq; lia).
  assert (G : grows h h1 (S (S (Z.to_nat n)))) by (apply (grows_trans _ _ _ _ _ G0 G1)).
  destruct (shape_nonneg _ _ _ Sz) as (_ & _ & Rz & Cz).
  assert (S : orel (Rin h1 x F 0) (hmul_into o a b x h1) (mul_into o ma mb z)).
  { unfold hmul_into, mul_into. cbn [x orow ocol]. rewrite Rz, Cz, C1. apply loop2_orel; [|now apply Rin_refl].
    intros i j s0 t0 R0. apply for_loop_orel; [|exact R0]. intros q s t (Rs & Fs).
    assert (Ra' : repr 0 s a ma Fa).
    { apply (repr_frame 0 h1 s F a ma Fa); [eapply repr_grows; eassumption|assumption|]. intros p Q1 Q2. apply HF in Q1. apply (repr_lt _ _ _ _ _ _ Ra) in Q2. lia. }
    assert (Rb' : repr 0 s b mb Fb).
    { apply (repr_frame 0 h1 s F b mb Fb); [eapply repr_grows; eassumption|assumption|]. intros p Q1 Q2. apply HF in Q1. apply (repr_lt _ _ _ _ _ _ Rb) in Q2. lia. }
    rewrite (hget_repr _ _ _ _ _ _ _ Ra'). apply orel_same. intros u _. rewrite (hget_repr _ _ _ _ _ _ _ Rb'). apply orel_same. intros v _.
    rewrite (hget_repr _ _ _ _ _ _ _ Rs). apply orel_same. intros w _. apply hset_sim. split; assumption. }
  rewrite Er in S. apply orel_ok in S. destruct S as (h2 & E2 & R2' & F2). rewrite E2. cbn [bind].
  exists h2, r. split; [reflexivity|]. split; [|split; [assumption|split; [|assumption]]].
  - unfold mul. rewrite Eca, Eb, Z.eqb_refl. cbn [negb]. rewrite Ea, Ecb, Ez. cbn [bind]. rewrite Er. cbn [bind]. apply (deepCopy_id o r n c Sr).
  - eapply grows_frame; [exact G|exact F2|]. intros q Hq. apply HF in Hq. lia.
Qed.
Lemma hproduct_err (h : heap) a b (ma mb : mat A) Fa Fb : repr 0 h a ma Fa -> repr 0 h b mb Fb -> col ma <> row mb ->
  hproduct o h a b = Err /\ mul o ma mb = Err /\ mul_assign o ma mb = Err.
Proof.
  intros Ra Rb H. destruct (repr_dims _ _ _ _ _ Ra) as (R1 & C1). destruct (repr_dims _ _ _ _ _ Rb) as (R2 & C2).
  destruct (mul_err o ma mb H). unfold hproduct. rewrite C1, R2. destruct (Z.eqb_spec (col ma) (row mb)); [congruence|]. auto.
Qed.
Lemma hmul_ok (h : heap) a b (ma mb : mat A) Fa Fb n k c : repr 0 h a ma Fa -> repr 0 h b mb Fb -> shape ma n k -> shape mb k c ->
  exists h' r x, hmul o h a b = Ok (h', x) /\ mul o ma mb = Ok r /\ shape r n c /\
    grows h h' (S (S (Z.to_nat n)) + S (Z.to_nat n)) /\ repr 0 h' x r (seq (length h + S (S (Z.to_nat n))) (S (Z.to_nat n))).
Proof.
  intros Ra Rb Sa Sb. destruct (hproduct_ok h a b ma mb Fa Fb n k c Ra Rb Sa Sb) as (h1 & r & E & Er & Sr & G & R).
  unfold hmul. rewrite E. cbn [bind].
  destruct (hcopy_ok o h1 _ r n c _ R Sr) as (h2 & E2 & G2 & R2). rewrite E2.
  exists h2, r, (Obj (length h1) n c). split; [reflexivity|]. split; [assumption|]. split; [assumption|].
  split; [eapply grows_trans; eassumption|]. replace (length h + S (S (Z.to_nat n)))%nat with (length h1) by apply G. exact R2.
Qed.
Lemma hmul_assign_ub (h : heap) a b (ma mb : mat A) Fa Fb n k c : repr 0 h a ma Fa -> repr 0 h b mb Fb -> shape ma n k -> shape mb k c ->
  hmul_assign o h a b = UB.
Proof.
  intros Ra Rb Sa Sb. destruct (hproduct_ok h a b ma mb Fa Fb n k c Ra Rb Sa Sb) as (h1 & r & E & Er & Sr & G & R).
  unfold hmul_assign. rewrite E. cbn [bind].
  destruct (hclear_ok h1 a ma n k Fa (repr_grows _ _ _ _ _ _ _ Ra G) Sa) as (h2 & E2 & _ & _ & Hf). rewrite E2. cbn [bind].
  unfold hassign. rewrite hclear_freed; [reflexivity|]. intros (x & Ex). rewrite Hf in Ex; [discriminate|].
  destruct Ra as (ps & _ & _ & _ & P & _). apply (Permutation_in _ (Permutation_sym P)). now left.
Qed.

(** powers *)
Lemma hpow_sim n c (ma : mat A) (Sa : shape ma n c) : forall fuel (h : heap) a Fa e, repr 0 h a ma Fa ->
  (exists h' x, hpow o fuel h a e = Ok (h', x) /\ pow o fuel ma e = Ok ma /\ grows h h' (S (S (Z.to_nat n))) /\
     repr 0 h' x ma (seq (S (length h)) (S (Z.to_nat n)))) \/
  (exists s, hpow o fuel h a e = s /\ (s = Err \/ s = UB \/ s = Fuel) /\ orel (fun _ _ => False) s (pow o fuel ma e)).
Proof.
  induction fuel as [|fuel IH]; intros h a Fa e Ra.
  - right. exists Fuel. cbn. auto.
  - cbn [hpow pow]. destruct (Z.eqb_spec e 1) as [->|He].
    + left. unfold alloc. destruct (hcopy_ok o (h ++ [Some Self]) a ma n c Fa (repr_app 0 h _ a ma Fa Ra) Sa) as (h1 & E & G & R).
      rewrite E. assert (L0 : length (h ++ [Some Self]) = S (length h)) by (rewrite app_length; cbn; lia). rewrite L0 in *.
      exists h1, (Obj (S (length h)) n c). split; [reflexivity|]. split; [apply (deepCopy_id o ma n c Sa)|]. split; [|exact R].
      apply (grows_trans _ _ _ 1 _ (grows_alloc h _) G).
    + destruct (IH h a Fa (Z.shiftr e 1) Ra) as [(h1 & x & E & Ep & G & R)|(s & E & Hs & Ho)].
      * rewrite E, Ep. cbn [bind]. destruct (Z.odd e).
        -- right. eexists. split; [reflexivity|]. pose proof (repr_grows _ _ _ _ _ _ _ Ra G) as Ra1.
           destruct (shape_nonneg _ _ _ Sa) as (_ & _ & Er & Ec).
           destruct (Z.eq_dec c n) as [->|Nc].
           ++ rewrite (hmul_assign_ub h1 x a ma ma _ Fa n n n R Ra1 Sa Sa). rewrite (mul_assign_ub o ma ma n n n Sa Sa). cbn. auto.
           ++ destruct (hproduct_err h1 x a ma ma _ Fa R Ra1 ltac:(congruence)) as (E1 & _ & E2).
              unfold hmul_assign. rewrite E1, E2. cbn. auto.
        -- left. exists h1, x. auto.
      * right. exists s. rewrite E. destruct Hs as [-> | [-> | ->]]; cbn [bind]; (split; [reflexivity|]; split; [auto|]);
          destruct (pow o fuel ma (Z.shiftr e 1)); cbn in *; tauto.
Qed.

(** reduction *)
Lemma hfind_row_eq (h : heap) x (m : mat A) F k i r : repr k h x m F -> hfind_row o h x i r = find_row o m i r.
Proof.
  intros R. destruct (repr_dims _ _ _ _ _ R) as (E1 & E2). unfold hfind_row, find_row. rewrite E1. apply for_loop_same.
  intros j s. now rewrite (hget_repr _ _ _ _ _ _ _ R).
Qed.
Lemma hfind_pivot_sim (h0 : heap) x F i : forall fuel h m r nz, Rin h0 x F 0 h m ->
  orel (fun p q => fst p = fst q /\ Rin h0 x F 0 (snd p) (snd q)) (hfind_pivot o fuel h x i r nz) (find_pivot o fuel m i r nz).
Proof.
  induction fuel as [|fuel IH]; intros h m r nz R; cbn [hfind_pivot find_pivot]; [exact I|].
  destruct (repr_dims _ _ _ _ _ (proj1 R)) as (_ & Ec). rewrite Ec. destruct (r <? col m); [|cbn; auto].
  rewrite (hfind_row_eq _ _ _ _ _ _ _ (proj1 R)). apply orel_same. intros j _. destruct (j <? 0); [apply IH; exact R|].
  eapply orel_bind; [apply hswap_sim; exact R|]. intros h' m' R'. cbn. auto.
Qed.
Lemma hnormalise_sim (h0 : heap) x F i r h (m : mat A) : Rin h0 x F 0 h m -> orel (Rin h0 x F 0) (hnormalise o x i r h) (normalise o m i r).
Proof.
  intros R. unfold hnormalise, normalise. destruct (repr_dims _ _ _ _ _ (proj1 R)) as (_ & Ec). rewrite Ec.
  eapply orel_bind; [|intros h' m' R'; apply hset_sim; exact R'].
  apply (for_loop_orel (Rin h0 x F 0)); [|exact R]. intros t s M RM. destruct (repr_dims _ _ _ _ _ (proj1 RM)) as (_ & Ec').
  replace (col M) with (col m) by congruence. cbv zeta.
  rewrite !(hget_repr _ _ _ _ _ _ _ (proj1 RM)). apply orel_same. intros u _. apply orel_same. intros v _. now apply hset_sim.
Qed.
Lemma heliminate_row_sim (h0 : heap) x F i r j h (m : mat A) : Rin h0 x F 0 h m -> orel (Rin h0 x F 0) (heliminate_row o x i r j h) (eliminate_row o i r j m).
Proof.
  intros R. unfold heliminate_row, eliminate_row. destruct (repr_dims _ _ _ _ _ (proj1 R)) as (_ & Ec). rewrite Ec.
  eapply orel_bind; [|intros h' m' R'; apply hset_sim; exact R'].
  apply (for_loop_orel (Rin h0 x F 0)); [|exact R]. intros t s M RM. destruct (repr_dims _ _ _ _ _ (proj1 RM)) as (_ & Ec').
  replace (col M) with (col m) by congruence. cbv zeta.
  rewrite !(hget_repr _ _ _ _ _ _ _ (proj1 RM)). apply orel_same. intros u _. apply orel_same. intros v _. apply orel_same. intros w _. now apply hset_sim.
Qed.
Lemma hreduce_loop_sim (h0 : heap) x F : forall k i r h m, Rin h0 x F 0 h m -> orel (Rin h0 x F 0) (hreduce_loop o k x i r h) (reduce_loop o k i r m).
Proof.
  induction k as [|k IH]; intros i r h m R; cbn [hreduce_loop reduce_loop]; [exact R|].
  destruct (repr_dims _ _ _ _ _ (proj1 R)) as (_ & Ec). rewrite Ec.
  eapply orel_bind; [apply (hfind_pivot_sim h0 x F i); exact R|]. intros [[nz1 r1] h1] [[nz2 r2] m1] (E & R1). cbn [fst snd] in *.
  inversion E; subst. destruct nz2 as [j|]; [|exact I]. destruct (j <? 0); [exact R1|].
  eapply orel_bind; [apply hnormalise_sim; exact R1|]. intros h2 m2 R2.
  eapply orel_bind.
  - unfold heliminate, eliminate. destruct (repr_dims _ _ _ _ _ (proj1 R2)) as (Er & _). rewrite Er.
    apply (for_loop_orel (Rin h0 x F 0)); [|exact R2]. intros t s M RM. now apply heliminate_row_sim.
  - intros h3 m3 R3. now apply IH.
Qed.
Lemma hreduce_sim (h : heap) x (m : mat A) F : repr 0 h x m F -> orel (Rin h x F 0) (hreduce o h x) (reduce o m).
Proof.
  intros R. unfold hreduce, reduce. destruct (repr_dims _ _ _ _ _ R) as (Er & _). rewrite Er. apply hreduce_loop_sim. now apply Rin_refl.
Qed.
End Arith.
