(** Trees of integers: the general model is the model of SegModel. *)
From Verif Require Import Base SegModel SegSpec SegAnyModel SegAnySpec.
Local Open Scope Z_scope.

Definition conv (c : cell) : gcell Z := GCell (mn c) (mx c) (sm c) (addf c) (mulf c) (hadd c) (hmul c).
Definition up (s : tree) : @gtree Z := map conv s.
Lemma aget_up s i : aget (up s) i = omap conv (aget s i).
Proof. unfold aget, up. destruct (i <? 0); [reflexivity|]. rewrite nth_error_map. now destruct (nth_error s (Z.to_nat i)). Qed.
Lemma upd_map {A B} (f : A -> B) s i x : upd (map f s) i (f x) = map f (upd s i x).
Proof. revert i. induction s as [|h t IH]; intros [|i]; cbn; try reflexivity. now rewrite IH. Qed.
Lemma aset_up s i x : aset (up s) i (conv x) = omap up (aset s i x).
Proof. unfold aset, up. rewrite map_length. destruct (_ || _); cbn [omap]; [reflexivity|]. now rewrite upd_map. Qed.
Lemma init_up v fuel : forall l r o s, ginit integers fuel v l r o (up s) = omap up (init fuel v l r o s).
Proof.
  induction fuel as [|f IH]; intros l r o s; [reflexivity|]. cbn [ginit init]. destruct (l =? r).
  - destruct (aget v l) as [x| | |]; try reflexivity. cbn [bind]. rewrite aget_up. destruct (aget s o) as [c| | |]; try reflexivity.
    cbn [omap bind]. exact (aset_up s o (Cell x x x (addf c) (mulf c) false false)).
  - cbv zeta. rewrite IH. destruct (init f v l _ _ s) as [s1| | |]; try reflexivity. cbn [omap bind].
    rewrite IH. destruct (init f v _ r _ s1) as [s2| | |]; try reflexivity. cbn [omap bind].
    rewrite aget_up. destruct (aget s2 (2 * o)) as [a| | |]; try reflexivity. cbn [omap bind].
    rewrite aget_up. destruct (aget s2 (2 * o + 1)) as [b| | |]; try reflexivity. cbn [omap bind].
    rewrite aget_up. destruct (aget s2 o) as [c| | |]; try reflexivity. cbn [omap bind].
    exact (aset_up s2 o (Cell (stdmin (mn a) (mn b)) (stdmax (mx a) (mx b)) (sm a + sm b) (addf c) (mulf c) (hadd c) (hmul c))).
Qed.
Lemma push_mul_up c m s : gpush_mul integers c m (up s) = omap up (push_mul c m s).
Proof.
  unfold gpush_mul, push_mul. rewrite aget_up. destruct (aget s c) as [k| | |]; try reflexivity. cbn [omap bind].
  rewrite <- aset_up. f_equal. destruct k as [a b d e g [] []]; reflexivity.
Qed.
Lemma push_add_up c m s : gpush_add integers c m (up s) = omap up (push_add c m s).
Proof.
  unfold gpush_add, push_add. rewrite aget_up. destruct (aget s c) as [k| | |]; try reflexivity. cbn [omap bind].
  rewrite <- aset_up. f_equal. destruct k as [a b d e g [] []]; reflexivity.
Qed.
Lemma bind_up {A} (m : outcome tree) (g : @gtree Z -> outcome A) (k : tree -> outcome A) :
  (forall s, g (up s) = k s) -> bind (omap up m) g = bind m k.
Proof. intros H. destruct m; cbn; auto. Qed.
Lemma omap_bind_up {A B} (h : A -> B) (m : outcome tree) (k : tree -> outcome A) (g : @gtree Z -> outcome B) :
  (forall s, g (up s) = omap h (k s)) -> bind (omap up m) g = omap h (bind m k).
Proof. intros H. destruct m; cbn; auto. Qed.
Lemma update_up o l r s : gupdate integers o l r (up s) = omap up (update o l r s).
Proof.
  unfold gupdate, update. cbv zeta. rewrite aget_up. destruct (aget s o) as [c| | |]; try reflexivity. cbn [omap bind].
  change (ghmul (conv c)) with (hmul c).
  match goal with |- bind ?m _ = omap up (bind ?m' _) => assert (E : m = omap up m') end.
  { destruct (hmul c); [|reflexivity].
    match goal with |- bind (aset (up s) o ?x) _ = _ => change (aset (up s) o x) with
      (aset (up s) o (conv (Cell (mn c * mulf c) (mx c * mulf c) (sm c * mulf c) (addf c) (mulf c) (hadd c) false))) end.
    rewrite aset_up. apply omap_bind_up. intros s1. change (gmulf (conv c)) with (mulf c). rewrite push_mul_up.
    apply omap_bind_up. intros s2. apply push_mul_up. }
  rewrite E. apply omap_bind_up. clear. intros s. rewrite aget_up. destruct (aget s o) as [c| | |]; try reflexivity. cbn [omap bind].
  change (ghadd (conv c)) with (hadd c). destruct (hadd c); [|reflexivity].
  match goal with |- bind (aset (up s) o ?x) _ = _ => change (aset (up s) o x) with
      (aset (up s) o (conv (Cell (mn c + addf c) (mx c + addf c) (sm c + addf c * (r - l + 1)) (addf c) (mulf c) false (hmul c)))) end.
  rewrite aset_up. apply omap_bind_up. intros s1. change (gaddf (conv c)) with (addf c). rewrite push_add_up.
  apply omap_bind_up. intros s2. apply push_add_up.
Qed.
Definition up2 (p : Z * tree) : Z * @gtree Z := (fst p, up (snd p)).
Lemma query_up k lv rv fuel : forall l r o s, gquery integers fuel k lv rv l r o (up s) = omap up2 (query fuel k lv rv l r o s).
Proof.
  induction fuel as [|f IH]; intros l r o s; [reflexivity|]. cbn [gquery query]. rewrite update_up. apply omap_bind_up. clear s. intros s.
  destruct ((lv <=? l) && (r <=? rv)).
  - rewrite aget_up. destruct (aget s o) as [c| | |]; reflexivity.
  - cbv zeta. destruct (rv <=? _); [apply IH|]. destruct (_ <? lv); [apply IH|]. rewrite IH.
    destruct (query f k lv rv l _ _ s) as [[a s1]| | |]; try reflexivity. cbn [omap bind up2 fst snd]. rewrite IH.
    destruct (query f k lv rv _ r _ s1) as [[b s2]| | |]; reflexivity.
Qed.
Lemma up_length s : length (up s) = length s. Proof. apply map_length. Qed.
Lemma query0_up k lv rv s : gquery0 integers k lv rv (up s) = omap up2 (query0 k lv rv s).
Proof. unfold gquery0, query0, gsize, size. rewrite up_length. apply query_up. Qed.
Lemma interval_up u lv rv fuel : forall l r o s,
  ginterval integers fuel (as_change u) lv rv l r o (up s) = omap up (interval fuel u lv rv l r o s).
Proof.
  induction fuel as [|f IH]; intros l r o s; [reflexivity|]. cbn [ginterval interval]. rewrite update_up. apply omap_bind_up. clear s. intros s.
  destruct ((lv <=? l) && (r <=? rv)).
  - rewrite aget_up. destruct (aget s o) as [c| | |]; try reflexivity. cbn [omap bind]. rewrite <- aset_up. f_equal. now destruct u.
  - cbv zeta.
    match goal with |- bind ?m _ = omap up (bind ?m' _) => assert (E : m = omap up m') end.
    { destruct (lv <=? _); [apply IH|reflexivity]. }
    rewrite E. apply omap_bind_up. clear - IH. intros s. destruct (_ <? rv); [apply IH|reflexivity].
Qed.
Lemma run_up cs : forall s, grun integers (map as_call cs) (up s) = omap up (run cs s).
Proof.
  induction cs as [|c cs IH]; intros s; [reflexivity|]. cbn [map grun run].
  assert (E : gstep integers (as_call c) (up s) = omap up (step c s)).
  { destruct c as [k lv rv|u lv rv]; cbn [as_call gstep step].
    - rewrite query0_up. now destruct (query0 k lv rv s) as [[x s1]| | |].
    - unfold ginterval0, interval0, gsize, size. rewrite up_length. apply interval_up. }
  rewrite E. apply omap_bind_up. exact IH.
Qed.
Lemma build_up v : v <> [] -> gbuild integers v = omap up (build v).
Proof.
  intros H. destruct v as [|x v]; [congruence|]. unfold gbuild, build. cbv zeta. cbn [hd]. rewrite <- init_up. f_equal.
  unfold up. generalize (4 * length (x :: v))%nat as n. induction n as [|n IH]; [reflexivity|]. cbn [repeat map]. now rewrite IH.
Qed.
Lemma client_up v cs k lv rv : v <> [] ->
  gclient integers v (map as_call cs) k lv rv = (s <- build v ;; s <- run cs s ;; ' (x, _) <- query0 k lv rv s ;; Ok x).
Proof.
  intros H. unfold gclient. rewrite (build_up v H). apply bind_up. intros s. rewrite run_up. apply bind_up. clear s. intros s.
  rewrite query0_up. now destruct (query0 k lv rv s) as [[x s1]| | |].
Qed.
