From Verif Require Import Base GeoModel PointHeapModel PointHeapSpec.

Section P.
Context {N : Type} (A : num N).
Lemma upd_last {X} (h : list X) x y : upd (h ++ [x]) (length h) y = h ++ [y].
Proof. induction h as [|a h IH]; [reflexivity|]. cbn. now rewrite IH. Qed.
Lemma nth_last {X} (h : list X) x d : nth (length h) (h ++ [x]) d = x.
Proof. induction h as [|a h IH]; [reflexivity|]. exact IH. Qed.
Lemma upd_mid {X} (p : list X) x y t : upd (p ++ x :: t) (length p) y = p ++ y :: t.
Proof. induction p as [|a p IH]; [reflexivity|]. cbn. now rewrite IH. Qed.
Lemma fill_spec f n : forall i h p, length p = i ->
  fill (N:=N) n i (length h) f (h ++ [p ++ repeat (nzero A) n]) = h ++ [p ++ map f (seq i n)].
Proof.
  induction n as [|n IH]; intros i h p L; [reflexivity|]. cbn [fill repeat seq map]. rewrite nth_last, upd_last. subst i. rewrite upd_mid.
  change (p ++ f (length p) :: repeat (nzero A) n) with (p ++ [f (length p)] ++ repeat (nzero A) n). rewrite app_assoc, IH; [|rewrite app_length; cbn; lia]. now rewrite <- app_assoc.
Qed.
Lemma fresh_spec n f h : fresh A n f h = (map f (seq 0 n), h ++ [map f (seq 0 n)]).
Proof.
  assert (E : fill n 0 (length h) f (h ++ [point_zero A n]) = h ++ [map f (seq 0 n)]) by exact (fill_spec f n 0 h [] eq_refl).
  unfold fresh, new_point. rewrite E. now rewrite nth_last.
Qed.
Lemma leaked_refl (h : list (list N)) : leaked 0 h h.
Proof. exists []. now rewrite app_nil_r. Qed.
Lemma leaked_trans j k (h h1 h2 : list (list N)) : leaked j h h1 -> leaked k h1 h2 -> leaked (j + k) h h2.
Proof. intros (n1 & -> & L1) (n2 & -> & L2). exists (n1 ++ n2). rewrite app_assoc, app_length. split; [reflexivity|lia]. Qed.
Lemma leaked_one (h : list (list N)) x : leaked 1 h (h ++ [x]).
Proof. exists [x]. now split. Qed.
Lemma nth_seq f n i : (i < n)%nat -> nth i (map f (seq 0 n)) (nzero A) = f i.
Proof. intros H. rewrite (nth_indep _ _ (f 0%nat)) by now rewrite map_length, seq_length. rewrite map_nth. now rewrite seq_nth. Qed.

Lemma evaluate_spec o n e : dims n e -> forall h,
  length (fst (evaluate A o e h)) = n /\ (forall i, (i < n)%nat -> nth i (fst (evaluate A o e h)) (nzero A) = coord A e i) /\
  leaked (operators e) h (snd (evaluate A o e h)).
Proof.
  induction e as [p|a IHa b IHb|a IHa b IHb|a IHa c|a IHa c]; cbn [dims]; intros D h.
  - cbn. split; [exact D|]. split; [reflexivity|apply leaked_refl].
  - destruct D as [Da Db]. cbn [evaluate operators coord]. destruct (o (PAdd a b)).
    + destruct (IHa Da h) as (La & Va & Ka). destruct (evaluate A o a h) as [p h1]. destruct (IHb Db h1) as (Lb & Vb & Kb). destruct (evaluate A o b h1) as [q h2]. cbn [fst snd] in *.
      unfold hadd. rewrite fresh_spec. cbn [fst snd]. split; [now rewrite map_length, seq_length|]. split; [intros i Hi; rewrite nth_seq by lia; now rewrite Va, Vb|].
      replace (S (operators a + operators b)) with (operators a + operators b + 1)%nat by lia. eapply leaked_trans; [eapply leaked_trans; eassumption|apply leaked_one].
    + destruct (IHb Db h) as (Lb & Vb & Kb). destruct (evaluate A o b h) as [q h1]. destruct (IHa Da h1) as (La & Va & Ka). destruct (evaluate A o a h1) as [p h2]. cbn [fst snd] in *.
      unfold hadd. rewrite fresh_spec. cbn [fst snd]. split; [now rewrite map_length, seq_length|]. split; [intros i Hi; rewrite nth_seq by lia; now rewrite Va, Vb|].
      replace (S (operators a + operators b)) with (operators b + operators a + 1)%nat by lia. eapply leaked_trans; [eapply leaked_trans; eassumption|apply leaked_one].
  - destruct D as [Da Db]. cbn [evaluate operators coord]. destruct (o (PSub a b)).
    + destruct (IHa Da h) as (La & Va & Ka). destruct (evaluate A o a h) as [p h1]. destruct (IHb Db h1) as (Lb & Vb & Kb). destruct (evaluate A o b h1) as [q h2]. cbn [fst snd] in *.
      unfold hsub. rewrite fresh_spec. cbn [fst snd]. split; [now rewrite map_length, seq_length|]. split; [intros i Hi; rewrite nth_seq by lia; now rewrite Va, Vb|].
      replace (S (operators a + operators b)) with (operators a + operators b + 1)%nat by lia. eapply leaked_trans; [eapply leaked_trans; eassumption|apply leaked_one].
    + destruct (IHb Db h) as (Lb & Vb & Kb). destruct (evaluate A o b h) as [q h1]. destruct (IHa Da h1) as (La & Va & Ka). destruct (evaluate A o a h1) as [p h2]. cbn [fst snd] in *.
      unfold hsub. rewrite fresh_spec. cbn [fst snd]. split; [now rewrite map_length, seq_length|]. split; [intros i Hi; rewrite nth_seq by lia; now rewrite Va, Vb|].
      replace (S (operators a + operators b)) with (operators b + operators a + 1)%nat by lia. eapply leaked_trans; [eapply leaked_trans; eassumption|apply leaked_one].
  - cbn [evaluate operators coord]. destruct (IHa D h) as (La & Va & Ka). destruct (evaluate A o a h) as [p h1]. cbn [fst snd] in *.
    unfold hscale. rewrite fresh_spec. cbn [fst snd]. split; [now rewrite map_length, seq_length|]. split; [intros i Hi; rewrite nth_seq by lia; now rewrite Va|].
    replace (S (operators a)) with (operators a + 1)%nat by lia. eapply leaked_trans; [eassumption|apply leaked_one].
  - cbn [evaluate operators coord]. destruct (IHa D h) as (La & Va & Ka). destruct (evaluate A o a h) as [p h1]. cbn [fst snd] in *.
    unfold hquot. rewrite fresh_spec. cbn [fst snd]. split; [now rewrite map_length, seq_length|]. split; [intros i Hi; rewrite nth_seq by lia; now rewrite Va|].
    replace (S (operators a)) with (operators a + 1)%nat by lia. eapply leaked_trans; [eassumption|apply leaked_one].
Qed.

Lemma intersection_heap l1 l2 h : fst (getIntersection_h A l1 l2 h) = getIntersection A l1 l2 /\ leaked 3 h (snd (getIntersection_h A l1 l2 h)).
Proof.
  unfold getIntersection_h, hsub, hscale, hadd. rewrite fresh_spec. rewrite fresh_spec. rewrite fresh_spec. split; [reflexivity|].
  cbn [snd]. apply (leaked_trans 2 1 _ _ _) with (2 := leaked_one _ _). exact (leaked_trans 1 1 _ _ _ (leaked_one _ _) (leaked_one _ _)).
Qed.
Lemma line_heap p l h : fst (disToLine_h A p l h) = disToLine A p l /\ leaked 1 h (snd (disToLine_h A p l h)).
Proof. unfold disToLine_h, hsub. rewrite fresh_spec. split; [reflexivity|apply leaked_one]. Qed.
Lemma segment_heap p l h : fst (disToSegment_h A p l h) = disToSegment A p l /\ leaked 3 h (snd (disToSegment_h A p l h)).
Proof.
  unfold disToSegment_h, hsub. rewrite fresh_spec. rewrite fresh_spec. rewrite fresh_spec. split; [reflexivity|].
  cbn [snd]. apply (leaked_trans 2 1 _ _ _) with (2 := leaked_one _ _). exact (leaked_trans 1 1 _ _ _ (leaked_one _ _) (leaked_one _ _)).
Qed.
Lemma point_heap cos sin o r x h : fst (getPoint_h A cos sin o r x h) = getPoint A cos sin o r x /\ leaked 1 h (snd (getPoint_h A cos sin o r x h)).
Proof. unfold getPoint_h, hadd. rewrite fresh_spec. split; [reflexivity|apply leaked_one]. Qed.
Lemma leaked_many b k (h h' : list (list N)) : leaked k h h' -> (b < k)%nat -> (b < length h')%nat.
Proof. intros (n & -> & L) H. rewrite app_length. lia. Qed.
Lemma calls_leak {R} (f : list (list N) -> R * list (list N)) j : (forall h, leaked j h (snd (f h))) -> forall k h, leaked (k * j) h (calls k f h).
Proof. intros H. induction k as [|k IH]; intros h; [apply leaked_refl|]. cbn [calls]. eapply (leaked_trans j (k * j)); [apply H|apply IH]. Qed.
End P.
