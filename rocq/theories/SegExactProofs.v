(** Proofs about exact query results of SegmentTree. *)
From Verif Require Import Base SegModel SegSpec SegProofs SegMainProofs SegExactSpec.
Local Open Scope Z_scope.

(** ** pieces *)
Lemma half l r : l < r -> l <= (l + r) / 2 < r.
Proof. intros H. split; [apply Z.div_le_lower_bound; lia|apply Z.div_lt_upper_bound; lia]. Qed.
Lemma mid_half l r : mid l r = (l + r) / 2.
Proof. unfold mid. rewrite Z.shiftr_div_pow2 by lia. reflexivity. Qed.
Lemma cut_le lv rv l r ps : lv <= rv -> cut lv rv l r ps -> l <= r.
Proof. intros H. induction 1; lia. Qed.
Lemma cut_unique lv rv l r ps : cut lv rv l r ps -> forall qs, cut lv rv l r qs -> ps = qs.
Proof.
  induction 1 as [l r H1 H2 H3|l r H1 H2|l r p q H1 H2 H3 _ IH1 _ IH2]; intros qs H; inversion H; subst; try reflexivity; try lia.
  f_equal; auto.
Qed.
Lemma cut_exists lv rv : lv <= rv -> forall n l r, (Z.to_nat (r - l) < n)%nat -> l <= r -> exists ps, cut lv rv l r ps.
Proof.
  intros Hv. induction n as [|n IH]; intros l r Hn Hlr; [lia|].
  destruct (Z_lt_dec r lv); [eexists; apply cut_outside; lia|].
  destruct (Z_lt_dec rv l); [eexists; apply cut_outside; lia|].
  destruct (Z_lt_dec l lv) as [A|A]; [|destruct (Z_lt_dec rv r) as [B|B]; [|eexists; apply cut_inside; lia]];
    (pose proof (half l r ltac:(lia)) as Hh;
     destruct (IH l ((l + r) / 2)) as (ps & P); [lia|lia|];
     destruct (IH ((l + r) / 2 + 1) r) as (qs & Q); [lia|lia|];
     eexists; apply cut_halve; [lia|lia|lia|exact P|exact Q]).
Qed.
Lemma tiles_app lo m hi ps : tiles lo m ps -> forall qs, tiles (m + 1) hi qs -> tiles lo hi (ps ++ qs).
Proof.
  induction 1 as [lo|lo b m ps H T IH]; intros qs Q; cbn [app].
  - replace (lo - 1 + 1) with lo in Q by lia. exact Q.
  - constructor; [assumption|]. now apply IH.
Qed.
Lemma cut_tiles lv rv l r ps : lv <= rv -> cut lv rv l r ps -> lv <= r -> l <= rv -> tiles (Z.max lv l) (Z.min rv r) ps.
Proof.
  intros Hv. induction 1 as [l r H1 H2 H3|l r H1 H2|l r p q H1 H2 H3 C1 IH1 C2 IH2]; intros A B; [|lia|].
  - replace (Z.max lv l) with l by lia. replace (Z.min rv r) with r by lia. constructor; [lia|].
    replace r with (r + 1 - 1) at 2 by lia. constructor.
  - pose proof (cut_le _ _ _ _ _ Hv C1) as L1. pose proof (cut_le _ _ _ _ _ Hv C2) as L2.
    set (m := (l + r) / 2) in *. clearbody m.
    destruct (Z_le_dec rv m) as [R|R]; [|destruct (Z_lt_dec m lv) as [L|L]].
    + assert (q = []) as -> by (apply (cut_unique _ _ _ _ _ C2); apply cut_outside; lia). rewrite app_nil_r.
      replace (Z.min rv r) with (Z.min rv m) by lia. apply IH1; lia.
    + assert (p = []) as -> by (apply (cut_unique _ _ _ _ _ C1); apply cut_outside; lia). cbn [app].
      replace (Z.max lv l) with (Z.max lv (m + 1)) by lia. apply IH2; lia.
    + apply (tiles_app _ m); [replace m with (Z.min rv m) at 1 by lia; apply IH1; lia|].
      replace (m + 1) with (Z.max lv (m + 1)) at 1 by lia. apply IH2; lia.
Qed.
Lemma tiles_in lo hi ps : tiles lo hi ps -> forall a b, In (a, b) ps -> lo <= a /\ a <= b /\ b <= hi.
Proof.
  induction 1 as [lo|lo m hi ps H T IH]; intros a b; [intros []|].
  assert (m <= hi) by (clear - T; remember (m + 1) as k eqn:E; revert m E; induction T; intros; lia || (specialize (IHT _ eq_refl); lia)).
  intros [E|I]; [inversion E; subst; lia|]. destruct (IH a b I). lia.
Qed.
Lemma tiles_at lo hi ps : tiles lo hi ps -> forall i, lo <= i <= hi -> exists a b, In (a, b) ps /\ a <= i <= b.
Proof.
  induction 1 as [lo|lo m hi ps H T IH]; intros i Hi; [lia|].
  destruct (Z_le_dec i m); [exists lo, m; split; [now left|lia]|].
  destruct (IH i ltac:(lia)) as (a & b & I & ?). exists a, b. split; [now right|assumption].
Qed.

(** ** one query, exactly *)
Fixpoint best (k : kind) (xs : list Z) : Z :=
  match xs with [] => 0 | [x] => x | x :: (_ :: _) as t => combine k x (best k t) end.
Lemma stdmax_max x y : stdmax x y = Z.max x y.
Proof. unfold stdmax. destruct (Z.ltb_spec x y); lia. Qed.
Lemma stdmin_min x y : stdmin x y = Z.min x y.
Proof. unfold stdmin. destruct (Z.ltb_spec y x); lia. Qed.
Lemma combine_assoc k x y z : combine k (combine k x y) z = combine k x (combine k y z).
Proof. destruct k; cbn [combine]; rewrite ?stdmax_max, ?stdmin_min; lia. Qed.
Lemma best_app k xs ys : xs <> [] -> ys <> [] -> best k (xs ++ ys) = combine k (best k xs) (best k ys).
Proof.
  intros Hx Hy. induction xs as [|x xs IH]; [congruence|]. destruct xs as [|x' xs].
  - destruct ys as [|y ys]; [congruence|]. reflexivity.
  - change (combine k x (best k ((x' :: xs) ++ ys)) = combine k (combine k x (best k (x' :: xs))) (best k ys)).
    rewrite IH by discriminate. now rewrite combine_assoc.
Qed.
Lemma best_joined k xs : xs <> [] -> joined k xs (best k xs).
Proof.
  induction xs as [|x xs IH]; [congruence|]. intros _. destruct xs as [|y xs].
  - destruct k; cbn [best joined fold_right]; try lia; (split; [now left|repeat constructor; lia]).
  - specialize (IH ltac:(discriminate)). change (best k (x :: y :: xs)) with (combine k x (best k (y :: xs))).
    set (b := best k (y :: xs)) in *. clearbody b. set (t := y :: xs) in *. clearbody t.
    destruct k; cbn [joined combine] in *.
    + destruct IH as [I F]. unfold stdmax. destruct (Z.ltb_spec x b); (split; [cbn [In]; auto|]).
      * constructor; [lia|]. exact F.
      * constructor; [lia|]. eapply Forall_impl; [|exact F]. cbn. lia.
    + destruct IH as [I F]. unfold stdmin. destruct (Z.ltb_spec b x); (split; [cbn [In]; auto|]).
      * constructor; [lia|]. exact F.
      * constructor; [lia|]. eapply Forall_impl; [|exact F]. cbn. lia.
    + cbn [fold_right]. lia.
Qed.
Lemma tiles_not_nil lo hi ps : tiles lo hi ps -> lo <= hi -> ps <> [].
Proof. destruct 1; [lia|discriminate]. Qed.

Lemma query_exact n k lv rv (val : Z -> Z -> Z) : 0 < n -> lv <= rv ->
  forall fuel p l r s, len s = 4 * n -> range n p = Some (l, r) ->
  (forall q a b, range n q = Some (a, b) -> eff k s q a b = val a b) ->
  r - l < Z.of_nat fuel -> lv <= r -> l <= rv -> above s p = idt ->
  outc (bad n) (query fuel k lv rv l r (Zpos p) s) (fun xs =>
    (forall ps, cut lv rv l r ps -> fst xs = best k (map (fun ab => val (fst ab) (snd ab)) ps)) /\
    length (snd xs) = length s /\
    (forall q, ~ desc p q -> pg (snd xs) q = pg s q) /\
    (forall k' q a b, range n q = Some (a, b) -> eff k' (snd xs) q a b = eff k' s q a b)).
Proof.
  intros Hn Hv. pose proof (update_spec_any n Hn) as HU.
  induction fuel as [|f IH]; intros p l r s Hl Hp Hnode Hf Hov1 Hov2 Hab;
    pose proof (range_bounds n p Hn l r Hp) as Hlr; [lia|].
  cbn [query]. apply (outc_bind _ _ _ _ _ (HU p l r s I Hl Hp)). intros s1 [U _].
  pose proof (gu_len _ _ _ _ _ _ U) as L1. pose proof (range_index n p l r Hn Hp) as Hidx.
  assert (HE1 : E s1 p = idt) by (rewrite (gu_Ep _ _ _ _ _ _ U); assumption).
  assert (Hnode1 : forall q a b, range n q = Some (a, b) -> eff k s1 q a b = val a b).
  { intros q a b Hq. rewrite (gu_eff _ _ _ _ _ _ U k q a b Hq). now apply Hnode. }
  destruct ((lv <=? l) && (r <=? rv)) eqn:Ecov.
  - rewrite aget_gt by lia. cbn [bind outc fst snd]. split; [|split; [assumption|split]].
    + intros ps C. rewrite (cut_unique _ _ _ _ _ C [(l, r)]) by (apply cut_inside; lia). cbn [map best fst snd].
      rewrite <- (Hnode1 p l r Hp). unfold eff. rewrite HE1. symmetry. apply ap_id.
    + apply (gu_frame _ _ _ _ _ _ U).
    + apply (gu_eff _ _ _ _ _ _ U).
  - assert (Hlt : l < r).
    { destruct (Z.eq_dec l r) as [->|]; [|lia]. exfalso. apply andb_false_iff in Ecov. lia. }
    assert (Hcv : l < lv \/ rv < r) by (apply andb_false_iff in Ecov; lia).
    cbv zeta. change (Z.shiftr (l + r) 1) with (mid l r). pose proof (mid_bounds l r Hlt) as Hm.
    change (2 * Z.pos p) with (Z.pos p~0). change (Z.pos p~0 + 1) with (Z.pos p~1).
    pose proof (range_l n p l r Hp Hlt) as Hpl. pose proof (range_r n p l r Hp Hlt) as Hpr.
    assert (HC : forall ps, cut lv rv l r ps -> exists p1 p2, ps = p1 ++ p2 /\ cut lv rv l (mid l r) p1 /\ cut lv rv (mid l r + 1) r p2).
    { intros ps C. inversion C; subst; try lia. rewrite mid_half. eauto. }
    destruct (Z.leb_spec rv (mid l r)) as [Hrm|Hrm]; [|destruct (Z.ltb_spec (mid l r) lv) as [Hlm|Hlm]].
    + eapply outc_weak; [apply (IH p~0%positive l (mid l r) s1); try assumption; try lia|].
      intros [x s2] (K1 & K2 & K3 & K4). cbn [fst snd] in *. split; [|split; [congruence|split]].
      * intros ps C. destruct (HC ps C) as (p1 & p2 & -> & C1 & C2).
        rewrite (cut_unique _ _ _ _ _ C2 []) by (apply cut_outside; lia). rewrite app_nil_r. now apply K1.
      * intros q Hq. rewrite K3 by (intros Q; apply Hq; now apply desc_child0). now apply (gu_frame _ _ _ _ _ _ U).
      * intros k' q a b Hq. rewrite (K4 k' q a b Hq). now apply (gu_eff _ _ _ _ _ _ U).
    + eapply outc_weak; [apply (IH p~1%positive (mid l r + 1) r s1); try assumption; try lia|].
      intros [x s2] (K1 & K2 & K3 & K4). cbn [fst snd] in *. split; [|split; [congruence|split]].
      * intros ps C. destruct (HC ps C) as (p1 & p2 & -> & C1 & C2).
        rewrite (cut_unique _ _ _ _ _ C1 []) by (apply cut_outside; lia). cbn [app]. now apply K1.
      * intros q Hq. rewrite K3 by (intros Q; apply Hq; now apply desc_child1). now apply (gu_frame _ _ _ _ _ _ U).
      * intros k' q a b Hq. rewrite (K4 k' q a b Hq). now apply (gu_eff _ _ _ _ _ _ U).
    + eapply outc_bind; [apply (IH p~0%positive l (mid l r) s1); try assumption; try lia|].
      intros [x s2] (K1 & K2 & K3 & K4). cbn [fst snd] in *.
      assert (HL2 : len s2 = 4 * n) by congruence.
      assert (HN2 : forall q a b, range n q = Some (a, b) -> eff k s2 q a b = val a b).
      { intros q a b Hq. rewrite (K4 k q a b Hq). now apply Hnode1. }
      assert (HA2 : above s2 p~1 = idt).
      { cbn [above]. rewrite (E_frame s1 s2 _ K3 p (desc_not_self0 p)). assumption. }
      eapply outc_bind; [apply (IH p~1%positive (mid l r + 1) r s2); try assumption; try lia|].
      intros [y s3] (J1 & J2 & J3 & J4). cbn [fst snd outc] in *. split; [|split; [congruence|split]].
      * intros ps C. destruct (HC ps C) as (p1 & p2 & -> & C1 & C2). rewrite map_app.
        pose proof (tiles_not_nil _ _ _ (cut_tiles _ _ _ _ _ Hv C1 ltac:(lia) ltac:(lia)) ltac:(lia)) as N1.
        pose proof (tiles_not_nil _ _ _ (cut_tiles _ _ _ _ _ Hv C2 ltac:(lia) ltac:(lia)) ltac:(lia)) as N2.
        rewrite best_app.
        -- now rewrite <- (K1 p1 C1), <- (J1 p2 C2).
        -- destruct p1; [congruence|discriminate].
        -- destruct p2; [congruence|discriminate].
      * intros q Hq. rewrite J3 by (intros Q; apply Hq; now apply desc_child1).
        rewrite K3 by (intros Q; apply Hq; now apply desc_child0). now apply (gu_frame _ _ _ _ _ _ U).
      * intros k' q a b Hq. rewrite (J4 k' q a b Hq), (K4 k' q a b Hq). now apply (gu_eff _ _ _ _ _ _ U).
Qed.

(** ** right answers as a function *)
Fixpoint ans (k : kind) (f : Z -> Z) (m : nat) (a : Z) : Z :=
  match m with O => f a | S m => combine k (f a) (ans k f m (a + 1)) end.
Lemma ans_answers k f m : forall a, answers k f a (a + Z.of_nat m) (ans k f m a).
Proof.
  assert (S1 : forall a, answers k f a a (f a)).
  { intros a. destruct k; cbn [answers].
    - split; [exists a; split; [lia|reflexivity]|]. intros i Hi. replace i with a by lia. lia.
    - split; [exists a; split; [lia|reflexivity]|]. intros i Hi. replace i with a by lia. lia.
    - replace (Z.to_nat (a - a + 1)) with 1%nat by lia. cbn [rsum]. lia. }
  induction m as [|m IH]; intros a; cbn [ans].
  - replace (a + Z.of_nat 0) with a by lia. apply S1.
  - apply (answers_combine k f a a); [lia|apply S1|]. replace (a + Z.of_nat (S m)) with (a + 1 + Z.of_nat m) by lia. apply IH.
Qed.
Lemma answers_unique k f a b x y : answers k f a b x -> answers k f a b y -> x = y.
Proof.
  destruct k; cbn [answers].
  - intros ((i & Hi & Ei) & Hx) ((j & Hj & Ej) & Hy). specialize (Hx j Hj). specialize (Hy i Hi). lia.
  - intros ((i & Hi & Ei) & Hx) ((j & Hj & Ej) & Hy). specialize (Hx j Hj). specialize (Hy i Hi). lia.
  - congruence.
Qed.
Definition answ (k : kind) (f : Z -> Z) (a b : Z) : Z := ans k f (Z.to_nat (b - a)) a.
Lemma answ_answers k f a b : a <= b -> answers k f a b (answ k f a b).
Proof. intros H. unfold answ. pose proof (ans_answers k f (Z.to_nat (b - a)) a) as A. replace (a + Z.of_nat (Z.to_nat (b - a))) with b in A by lia. exact A. Qed.
Lemma reach_hist1 k a b x c : reach k a b x c = hist1 k a b x c.
Proof.
  destruct c as [k' lv rv|[d|m] lv rv]; cbn [reach hist1]; [reflexivity| |]; unfold covers; destruct ((lv <=? a) && (b <=? rv));
    try reflexivity; destruct k; cbn [ap tagu fst snd]; lia.
Qed.
Lemma fold_reach k a b cs : forall x, fold_left (reach k a b) cs x = fold_left (hist1 k a b) cs x.
Proof. induction cs as [|c cs IH]; intros x; cbn [fold_left]; [reflexivity|]. now rewrite IH, reach_hist1. Qed.

Theorem exact_history v cs k lv rv : v <> [] -> let n := len v in
  Forall (valid_call n) cs -> valid_range n lv rv ->
  outc (bad n) (s <- build v ;; s <- run cs s ;; query0 k lv rv s)
       (fun xs => forall ps, cut lv rv 0 (n - 1) ps -> exists ys,
          Forall2 (piece_value k v cs) ps ys /\ joined k ys (fst xs)).
Proof.
  intros Hv n Hcs (H1 & H2 & H3). assert (Hn : 0 < n) by (unfold n; destruct v; [congruence|cbn [length]; lia]).
  destruct (build_spec v Hv) as (s0 & E0 & L0 & C0 & A0). rewrite E0. cbn [bind]. fold n in L0, A0.
  set (g := fun k => answ k (at_ v)).
  assert (Hinv0 : hinv n g s0).
  { split; [assumption|]. intros k' q a b Hq. apply (answers_unique k' (at_ v) a b).
    - unfold eff. rewrite (clean_E s0 C0), ap_id. now apply A0.
    - apply answ_answers. pose proof (range_bounds n q Hn a b Hq). lia. }
  eapply outc_bind; [apply (run_hinv n cs Hn Hcs g s0 Hinv0)|]. intros s (Ls & Hs).
  unfold query0. rewrite (size_of n s Ls).
  eapply outc_weak; [apply (query_exact n k lv rv _ Hn H2 _ xH 0 (n - 1) s Ls eq_refl (Hs k))|]; auto; try lia.
  intros [x s'] (K & _). cbn [fst] in *. intros ps C. rewrite (K ps C).
  pose proof (cut_tiles _ _ _ _ _ H2 C ltac:(lia) ltac:(lia)) as T.
  eexists. split; [|apply best_joined; destruct ps; [exfalso; revert T; inversion 1; lia|discriminate]].
  clear C K. pose proof (tiles_in _ _ _ T) as In. clear T. induction ps as [|[a b] ps IH]; cbn [map fst snd]; constructor.
  - exists (g k a b). cbn [fst snd]. split; [|symmetry; apply fold_reach]. apply answ_answers. specialize (In a b (or_introl eq_refl)). lia.
  - apply IH. intros a' b' Hi. apply In. now right.
Qed.

(** ** consequences *)
Lemma joined_answers k f ps : forall lo hi ys x, tiles lo hi ps -> ps <> [] ->
  Forall2 (fun p y => answers k f (fst p) (snd p) y) ps ys -> joined k ys x -> answers k f lo hi x.
Proof.
  intros lo hi ys x T N F J. assert (E : x = best k ys).
  { assert (ys <> []) by (destruct F; [congruence|discriminate]). pose proof (best_joined k ys H) as B. revert J B. clear. destruct k; cbn [joined].
    - intros [I1 F1] [I2 F2]. rewrite Forall_forall in F1, F2. specialize (F1 _ I2). specialize (F2 _ I1). cbn in *. lia.
    - intros [I1 F1] [I2 F2]. rewrite Forall_forall in F1, F2. specialize (F1 _ I2). specialize (F2 _ I1). cbn in *. lia.
    - congruence. }
  subst x. clear J. revert lo T. induction F as [|[a b] y ps ys A F IH]; intros lo T; [congruence|].
  cbn [fst snd] in A. inversion T as [|? ? ? ? Hm T']; subst. destruct F as [|[a' b'] y' ps ys A' F].
  - inversion T'; subst. cbn [best]. replace (b + 1 - 1) with b by lia. exact A.
  - assert (Hb : b < hi). { destruct (tiles_in _ _ _ T' a' b' (or_introl eq_refl)). lia. }
    apply (answers_combine k f a b); [lia|exact A|]. apply IH; [discriminate|exact T'].
Qed.

Lemma cut_facts n lv rv ps : valid_range n lv rv -> cut lv rv 0 (n - 1) ps -> tiles lv rv ps /\ ps <> [].
Proof.
  intros (H1 & H2 & H3) C. pose proof (cut_tiles _ _ _ _ _ H2 C ltac:(lia) ltac:(lia)) as T.
  replace (Z.max lv 0) with lv in T by lia. replace (Z.min rv (n - 1)) with rv in T by lia.
  split; [exact T|now apply (tiles_not_nil lv rv)].
Qed.
Lemma pieces_right v cs k lv rv ps ys x : tiles lv rv ps -> ps <> [] ->
  (forall a b, In (a, b) ps -> Forall (all_or_nothing a b) cs /\ Forall (monotone k a b) cs) ->
  Forall2 (piece_value k v cs) ps ys -> joined k ys x -> answers k (after cs (at_ v)) lv rv x.
Proof.
  intros T N H F J. apply (joined_answers k _ ps lv rv ys x T N); [|exact J]. pose proof (tiles_in _ _ _ T) as I. clear T N J.
  induction F as [|[a b] y ps ys (w & A & ->) F IH]; constructor; cbn [fst snd] in *.
  - destruct (H a b (or_introl eq_refl)) as (HA & HM). destruct (I a b (or_introl eq_refl)) as (_ & Hab & _).
    rewrite fold_reach. now apply hist_answers.
  - apply IH; intros a' b' K; [apply H|apply I]; now right.
Qed.

(** *** additions of positive numbers *)
Lemma rsum_mono n f g l : (forall i, l <= i < l + Z.of_nat n -> f i <= g i) -> rsum n f l <= rsum n g l.
Proof.
  revert l. induction n as [|n IH]; intros l H; cbn [rsum]; [lia|]. pose proof (H l ltac:(lia)).
  pose proof (IH (l + 1) ltac:(intros; apply H; lia)). lia.
Qed.
Lemma rsum_strict n f g : forall l i, (forall i, l <= i < l + Z.of_nat n -> f i <= g i) -> l <= i < l + Z.of_nat n -> f i < g i -> rsum n f l < rsum n g l.
Proof.
  induction n as [|n IH]; intros l i H Hi Hs; cbn [rsum]; [lia|]. pose proof (H l ltac:(lia)).
  destruct (Z.eq_dec i l) as [->|].
  - pose proof (rsum_mono n f g (l + 1) ltac:(intros; apply H; lia)). lia.
  - pose proof (IH (l + 1) i ltac:(intros; apply H; lia) ltac:(lia) Hs). lia.
Qed.
Lemma answers_mono k f g a b x y : (forall i, a <= i <= b -> f i <= g i) -> answers k f a b x -> answers k g a b y -> x <= y.
Proof.
  intros H. destruct k; cbn [answers].
  - intros ((i & Hi & Ei) & _) (_ & Hy). specialize (H i Hi). specialize (Hy i Hi). lia.
  - intros (_ & Hx) ((j & Hj & Ej) & _). specialize (H j Hj). specialize (Hx j Hj). lia.
  - intros -> ->. apply rsum_mono. intros i Hi. apply H. lia.
Qed.
Lemma after1_up c f i : adds_positive c -> f i <= after1 c f i.
Proof. destruct c as [|[d|m] lv rv]; cbn [adds_positive after1 app1]; try lia. destruct ((lv <=? i) && (i <=? rv)); lia. Qed.
Lemma reach_step k a b c f x w : a <= b -> adds_positive c -> answers k f a b w -> x <= w ->
  forall w', answers k (after1 c f) a b w' -> reach k a b x c <= w'.
Proof.
  intros Hab Hc Hw Hx w' Hw'. pose proof (answers_mono k f (after1 c f) a b w w' (fun i _ => after1_up c f i Hc) Hw Hw') as Hm.
  rewrite reach_hist1. destruct c as [|u lv rv]; cbn [hist1 adds_positive] in *; [lia|].
  unfold covers. destruct ((lv <=? a) && (b <=? rv)) eqn:Ec; [|lia].
  assert (Hap : answers k (after1 (CUpdate u lv rv) f) a b (ap k (b - a + 1) (tagu u) w)).
  { apply (answers_ext k (fun i => app1 u (f i))).
    - intros i Hi. cbn [after1]. replace ((lv <=? i) && (i <=? rv)) with true by lia. reflexivity.
    - apply answers_affine; [assumption|assumption|]. destruct u; cbn [tagu fst]; [lia|contradiction]. }
  rewrite (answers_unique _ _ _ _ _ _ Hw' Hap). destruct u as [d|m]; [|contradiction].
  destruct k; cbn [ap tagu fst snd]; lia.
Qed.
Lemma reach_under k a b : a <= b -> forall cs, Forall adds_positive cs -> forall f x w, answers k f a b w -> x <= w ->
  forall z, answers k (after cs f) a b z -> fold_left (reach k a b) cs x <= z.
Proof.
  intros Hab cs. induction 1 as [|c cs Hc _ IH]; intros f x w Hw Hx z Hz; cbn [fold_left].
  - change (after [] f) with f in Hz. rewrite (answers_unique _ _ _ _ _ _ Hz Hw). exact Hx.
  - apply (IH (after1 c f) _ (answ k (after1 c f) a b)); [now apply answ_answers| |exact Hz].
    apply (reach_step k a b c f x w Hab Hc Hw Hx). now apply answ_answers.
Qed.
Lemma reach_strict n a b : a <= b -> forall cs, Forall adds_positive cs -> Forall (valid_call n) cs -> forall f x w, answers QSum f a b w ->
  (x < w \/ x <= w /\ ~ Forall (all_or_nothing a b) cs) ->
  forall z, answers QSum (after cs f) a b z -> fold_left (reach QSum a b) cs x < z.
Proof.
  intros Hab cs. induction 1 as [|c cs Hc _ IH]; intros HV f x w Hw Hx z Hz; cbn [fold_left].
  - change (after [] f) with f in Hz. rewrite (answers_unique _ _ _ _ _ _ Hz Hw). destruct Hx as [Hx|[_ Hx]]; [exact Hx|]. exfalso. apply Hx. constructor.
  - pose proof (answ_answers QSum (after1 c f) a b Hab) as Hw'. set (w' := answ QSum (after1 c f) a b) in *. clearbody w'.
    inversion HV as [|? ? Hcv HV']; subst. apply (IH HV' (after1 c f) _ w' Hw'); [|exact Hz].
    pose proof (reach_step QSum a b c f) as RS.
    destruct Hx as [Hx|[Hx Hn]].
    + left. specialize (RS (x + 1) w Hab Hc Hw ltac:(lia) w' Hw').
      destruct c as [|[d|m] lv rv]; cbn [reach adds_positive] in *; try lia. destruct ((lv <=? a) && (b <=? rv)); lia.
    + specialize (RS x w Hab Hc Hw Hx w' Hw').
      assert (Hd : all_or_nothing a b c \/ ~ all_or_nothing a b c) by (destruct c; cbn [all_or_nothing]; lia).
      destruct Hd as [Hd|Hd].
      * right. split; [exact RS|]. intros K. apply Hn. now constructor.
      * left. destruct c as [|[d|m] lv rv]; cbn [reach adds_positive all_or_nothing valid_call] in *; try tauto.
        destruct Hcv as (_ & Hvv & _).
        replace ((lv <=? a) && (b <=? rv)) with false by lia. apply Z.le_lt_trans with w; [exact Hx|].
        cbn [answers] in Hw, Hw'. subst w w'. apply (rsum_strict _ _ _ a (Z.max a lv)).
        -- intros i Hi. apply (after1_up (CUpdate (Add d) lv rv)). exact Hc.
        -- lia.
        -- cbn [after1 app1]. assert (K1 : lv <= Z.max a lv <= rv) by lia. rewrite (proj2 (Z.leb_le _ _) (proj1 K1)), (proj2 (Z.leb_le _ _) (proj2 K1)). cbn [andb]. lia.
Qed.
Lemma under_pieces v cs k lv rv ps ys x : tiles lv rv ps -> ps <> [] -> Forall adds_positive cs ->
  Forall2 (piece_value k v cs) ps ys -> joined k ys x ->
  forall z, answers k (after cs (at_ v)) lv rv z -> x <= z.
Proof.
  intros T N HP F J z Hz. set (f := after cs (at_ v)) in *.
  set (zs := map (fun p => answ k f (fst p) (snd p)) ps).
  assert (FZ : Forall2 (fun p y => answers k f (fst p) (snd p) y) ps zs).
  { unfold zs. pose proof (tiles_in _ _ _ T) as I. clear - I. induction ps as [|[a b] ps IH]; cbn [map fst snd]; constructor; cbn [fst snd].
    - apply answ_answers. specialize (I a b (or_introl eq_refl)). lia.
    - apply IH. intros a' b' K. apply I. now right. }
  assert (NZ : zs <> []) by (unfold zs; destruct ps; [congruence|discriminate]).
  pose proof (best_joined k zs NZ) as BZ. rewrite (answers_unique _ _ _ _ _ _ Hz (joined_answers k f ps lv rv zs _ T N FZ BZ)).
  assert (FL : Forall2 Z.le ys zs).
  { unfold zs in *. pose proof (tiles_in _ _ _ T) as I. clear - F I HP. induction F as [|[a b] y ps ys (w & A & ->) F IH]; cbn [map fst snd] in *; constructor.
    - assert (a <= b) by (specialize (I a b (or_introl eq_refl)); lia).
      apply (reach_under k a b H cs HP (at_ v) w w A ltac:(lia)). now apply answ_answers.
    - apply IH. intros a' b' K. apply I. now right. }
  set (b := best k zs) in *. clearbody b. revert J BZ. clear - FL. destruct k; cbn [joined].
  - intros [I1 _] [_ F2]. rewrite Forall_forall in F2. revert F2. induction FL as [|y z ys zs H FL IH]; [destruct I1|]. intros F2.
    destruct I1 as [->|I1]; [specialize (F2 z (or_introl eq_refl)); cbn in *; lia|]. apply (IH I1). intros u Hu. apply F2. now right.
  - intros [_ F1] [I2 _]. rewrite Forall_forall in F1. revert F1. induction FL as [|y z ys zs H FL IH]; [destruct I2|]. intros F1.
    destruct I2 as [->|I2]; [specialize (F1 y (or_introl eq_refl)); cbn in *; lia|]. apply (IH I2). intros u Hu. apply F1. now right.
  - intros -> ->. induction FL; cbn [fold_right]; lia.
Qed.
Lemma aon_dec l r c : all_or_nothing l r c \/ ~ all_or_nothing l r c.
Proof. destruct c; cbn [all_or_nothing]; lia. Qed.
Lemma Forall_dec_or {A} (P : A -> Prop) : (forall x, P x \/ ~ P x) -> forall l, Forall P l \/ ~ Forall P l.
Proof.
  intros D. induction l as [|x l [IH|IH]]; [left; constructor| |].
  - destruct (D x) as [H|H]; [left; now constructor|right; intros K; inversion K; contradiction].
  - right. intros K. inversion K; contradiction.
Qed.
Lemma sum_pieces_iff n v cs lv rv ps ys x : tiles lv rv ps -> ps <> [] -> Forall adds_positive cs -> Forall (valid_call n) cs ->
  Forall2 (piece_value QSum v cs) ps ys -> joined QSum ys x ->
  (answers QSum (after cs (at_ v)) lv rv x <-> forall a b, In (a, b) ps -> Forall (all_or_nothing a b) cs).
Proof.
  intros T N HP HV F J. split.
  - intros A. destruct (Forall_dec_or (fun p : Z * Z => Forall (all_or_nothing (fst p) (snd p)) cs)
       (fun p => Forall_dec_or _ (aon_dec (fst p) (snd p)) cs) ps) as [H|H].
    + rewrite Forall_forall in H. intros a b I. exact (H (a, b) I).
    + exfalso. set (f := after cs (at_ v)) in *.
      set (zs := map (fun p => answ QSum f (fst p) (snd p)) ps).
      assert (FZ : Forall2 (fun p y => answers QSum f (fst p) (snd p) y) ps zs).
      { unfold zs. pose proof (tiles_in _ _ _ T) as I. clear - I. induction ps as [|[a b] ps IH]; cbn [map fst snd]; constructor; cbn [fst snd].
        - apply answ_answers. specialize (I a b (or_introl eq_refl)). lia.
        - apply IH. intros a' b' K. apply I. now right. }
      pose proof (joined_answers QSum f ps lv rv zs (fold_right Z.add 0 zs) T N FZ eq_refl) as AZ.
      pose proof (answers_unique _ _ _ _ _ _ A AZ) as E. cbn [joined] in J. rewrite J in E. clear J A AZ FZ N.
      assert (HL : fold_right Z.add 0 ys < fold_right Z.add 0 zs \/ Forall (fun p : Z * Z => Forall (all_or_nothing (fst p) (snd p)) cs) ps /\ fold_right Z.add 0 ys <= fold_right Z.add 0 zs).
      { clear E H. unfold zs. pose proof (tiles_in _ _ _ T) as I. clear T zs.
        induction F as [|[a b] y ps ys (w & A & ->) F IH]; cbn [map fst snd fold_right] in *; [right; split; [constructor|lia]|].
        assert (Hab : a <= b) by (specialize (I a b (or_introl eq_refl)); lia).
        pose proof (reach_under QSum a b Hab cs HP (at_ v) w w A ltac:(lia) _ (answ_answers QSum f a b Hab)) as U.
        pose proof (reach_strict n a b Hab cs HP HV (at_ v) w w A) as S.
        destruct (IH ltac:(intros a' b' K; apply I; now right)) as [L|[L1 L2]]; [left; lia|].
        destruct (Forall_dec_or _ (aon_dec a b) cs) as [D|D].
        - right. split; [constructor; [exact D|exact L1]|lia].
        - left. specialize (S (or_intror (conj (Z.le_refl _) D)) _ (answ_answers QSum f a b Hab)). lia. }
      destruct HL as [HL|[HL _]]; [lia|contradiction].
  - intros H. apply (pieces_right v cs QSum lv rv ps ys x T N); [|exact F|exact J]. intros a b I. split; [now apply H|].
    eapply Forall_impl; [|exact HP]. intros [|[d|m] l r]; cbn; tauto.
Qed.
