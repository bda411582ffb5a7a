(** Lemmas for SegmentTree with machine integers. *)
From Verif Require Import Base SegModel SegIntModel SegSpec SegIntSpec SegProofs SegMainProofs.
Local Open Scope Z_scope.

(** ** a returning machine run is the exact run *)
Definition refines {X} (m e : outcome X) : Prop := forall x, m = Ok x -> e = Ok x.
Lemma refines_refl {X} (m : outcome X) : refines m m.
Proof. intros x H. exact H. Qed.
Lemma refines_bind {X Y} (m e : outcome X) (f g : X -> outcome Y) :
  refines m e -> (forall x, refines (f x) (g x)) -> refines (bind m f) (bind e g).
Proof. intros H K y E. destruct m as [x| | |]; try discriminate. rewrite (H x eq_refl). apply (K x y E). Qed.
Lemma refines_ck {Y} M z (f : Z -> outcome Y) g : refines (f z) g -> refines (bind (ck M z) f) g.
Proof. intros H y E. unfold ck in E. destruct ((- M - 1 <=? z) && (z <=? M)); [|discriminate]. exact (H y E). Qed.
Lemma refines_omap {X Y} (f : X -> Y) m e : refines m e -> refines (omap f m) (omap f e).
Proof. intros H y E. destruct m as [x| | |]; try discriminate. rewrite (H x eq_refl). exact E. Qed.

Lemma ck_cases M z : ck M z = Ok z \/ ck M z = UB.
Proof. unfold ck. destruct (_ && _); auto. Qed.
Lemma push_mul_refines M c m s : refines (push_mul_m M c m s) (push_mul c m s).
Proof.
  unfold push_mul_m, push_mul. apply refines_bind; [apply refines_refl|]. intros k y.
  destruct (hmul k); cbn [bind hadd hmul mn mx sm addf mulf].
  - destruct (ck_cases M (mulf k * m)) as [-> | ->]; [|discriminate]. cbn [bind hadd hmul mn mx sm addf mulf].
    destruct (hadd k); [|auto]. destruct (ck_cases M (addf k * m)) as [-> | ->]; [auto|discriminate].
  - destruct (hadd k); [|auto]. destruct (ck_cases M (addf k * m)) as [-> | ->]; [auto|discriminate].
Qed.
Lemma push_add_refines M c a s : refines (push_add_m M c a s) (push_add c a s).
Proof.
  unfold push_add_m, push_add. apply refines_bind; [apply refines_refl|]. intros k y.
  destruct (hadd k); [|auto]. destruct (ck_cases M (addf k + a)) as [-> | ->]; [auto|discriminate].
Qed.
Lemma update_refines M o l r s : refines (update_m M o l r s) (update o l r s).
Proof.
  unfold update_m, update. cbv zeta. apply refines_bind; [apply refines_refl|]. intros c. apply refines_bind.
  - destruct (hmul c); [|apply refines_refl]. do 3 apply refines_ck. apply refines_bind; [apply refines_refl|]. intros s1.
    apply refines_bind; [apply push_mul_refines|]. intros s2. apply push_mul_refines.
  - intros s1. apply refines_bind; [apply refines_refl|]. intros c1. destruct (hadd c1); [|apply refines_refl].
    do 4 apply refines_ck. apply refines_bind; [apply refines_refl|]. intros s2.
    apply refines_bind; [apply push_add_refines|]. intros s3. apply push_add_refines.
Qed.
Lemma query_refines M fuel : forall k lv rv l r o s, refines (query_m M fuel k lv rv l r o s) (query fuel k lv rv l r o s).
Proof.
  induction fuel as [|f IH]; intros; cbn [query_m query]; [apply refines_refl|]. apply refines_bind; [apply update_refines|]. intros s1.
  destruct ((lv <=? l) && (r <=? rv)); [apply refines_refl|]. cbv zeta. destruct (rv <=? _); [apply IH|]. destruct (_ <? lv); [apply IH|].
  apply refines_bind; [apply IH|]. intros [a s2]. apply refines_bind; [apply IH|]. intros [b s3].
  destruct k; cbn [combine_m combine bind]; try apply refines_refl. apply refines_ck, refines_refl.
Qed.
Lemma interval_refines M fuel : forall u lv rv l r o s, refines (interval_m M fuel u lv rv l r o s) (interval fuel u lv rv l r o s).
Proof.
  induction fuel as [|f IH]; intros; cbn [interval_m interval]; [apply refines_refl|]. apply refines_bind; [apply update_refines|]. intros s1.
  destruct ((lv <=? l) && (r <=? rv)); [apply refines_refl|]. cbv zeta. apply refines_bind.
  - destruct (lv <=? _); [apply IH|apply refines_refl].
  - intros s2. destruct (_ <? rv); [apply IH|apply refines_refl].
Qed.
Lemma init_refines M fuel : forall v l r o s, refines (init_m M fuel v l r o s) (init fuel v l r o s).
Proof.
  induction fuel as [|f IH]; intros; cbn [init_m init]; [apply refines_refl|]. destruct (l =? r); [apply refines_refl|]. cbv zeta.
  apply refines_bind; [apply IH|]. intros s1. apply refines_bind; [apply IH|]. intros s2.
  do 3 (apply refines_bind; [apply refines_refl|]; intros ?). apply refines_ck, refines_refl.
Qed.
Lemma run_refines M cs : forall s, refines (run_m M cs s) (run cs s).
Proof.
  induction cs as [|c cs IH]; intros s; cbn [run_m run]; [apply refines_refl|]. apply refines_bind; [|exact IH].
  destruct c; cbn [step_m step]; [|apply interval_refines]. apply refines_bind; [apply query_refines|]. intros [? ?]. apply refines_refl.
Qed.

(** ** how large the numbers get *)
Definition gtag (t : Z * Z) (x : Z) : Z := x * Z.max 1 (Z.abs (fst t)) + Z.abs (snd t).
Lemma gtag_mono t x y : x <= y -> gtag t x <= gtag t y.
Proof. intros H. unfold gtag. nia. Qed.
Lemma gtag_id x : gtag idt x = x.
Proof. unfold gtag, idt. cbn [fst snd]. change (Z.abs 1) with 1. change (Z.abs 0) with 0. lia. Qed.
Lemma gtag_le t x : 0 <= x -> x <= gtag t x.
Proof. intros H. unfold gtag. nia. Qed.
Lemma gtag_comp t u x : 0 <= x -> gtag (comp t u) x <= gtag t (gtag u x).
Proof.
  intros H. unfold gtag, comp. destruct t as [a b], u as [c d]. cbn [fst snd].
  assert (Z.abs (d * a + b) <= Z.abs d * Z.abs a + Z.abs b) by (rewrite <- Z.abs_mul; lia).
  assert (K : Z.max 1 (Z.abs (c * a)) <= Z.max 1 (Z.abs c) * Z.max 1 (Z.abs a)) by (rewrite Z.abs_mul; nia).
  assert (L : x * Z.max 1 (Z.abs (c * a)) <= x * (Z.max 1 (Z.abs c) * Z.max 1 (Z.abs a))) by (apply Z.mul_le_mono_nonneg_l; assumption).
  nia.
Qed.
(** the bound [x] of a cell of node p after everything pending has reached it *)
Fixpoint T (s : tree) (p : positive) (x : Z) : Z :=
  match p with
  | xH => gtag (tag (pg s xH)) x
  | xO q => T s q (gtag (tag (pg s p)) x)
  | xI q => T s q (gtag (tag (pg s p)) x)
  end.
Definition Tab (s : tree) (p : positive) (x : Z) : Z := match p with xH => x | xO q | xI q => T s q x end.
Lemma T_Tab s p x : T s p x = Tab s p (gtag (tag (pg s p)) x).
Proof. destruct p; reflexivity. Qed.
Lemma T_mono s p : forall x y, x <= y -> T s p x <= T s p y.
Proof. induction p as [p IH|p IH|]; intros x y H; cbn [T]; try apply IH; now apply gtag_mono. Qed.
Lemma Tab_mono s p x y : x <= y -> Tab s p x <= Tab s p y.
Proof. destruct p; cbn [Tab]; try apply T_mono. auto. Qed.
Lemma T_le s p : forall x, 0 <= x -> x <= T s p x.
Proof.
  induction p as [p IH|p IH|]; intros x H; cbn [T]; try (pose proof (gtag_le (tag (pg s p~1)) x H); pose proof (IH _ ltac:(lia)); lia).
  - pose proof (gtag_le (tag (pg s p~1)) x H). specialize (IH (gtag (tag (pg s p~1)) x) ltac:(lia)). lia.
  - pose proof (gtag_le (tag (pg s p~0)) x H). specialize (IH (gtag (tag (pg s p~0)) x) ltac:(lia)). lia.
  - now apply gtag_le.
Qed.
Lemma Tab_le s p x : 0 <= x -> x <= Tab s p x.
Proof. destruct p; cbn [Tab]; [apply T_le|apply T_le|lia]. Qed.
Lemma T_frame s s' p : (forall q, ~ desc p q -> pg s' q = pg s q) -> forall q x, ~ desc p q -> T s' q x = T s q x.
Proof.
  intros F. induction q as [q IH|q IH|]; intros x H; cbn [T]; rewrite (F _ H); try reflexivity; apply IH; intros K; apply H; right; exact K.
Qed.
Lemma Tab_frame s s' p x : (forall q, ~ desc p q -> pg s' q = pg s q) -> Tab s' p x = Tab s p x.
Proof.
  intros F. destruct p as [p|p|]; cbn [Tab]; [| |reflexivity]; apply (T_frame s s' _ F).
  - apply desc_not_self1.
  - apply desc_not_self0.
Qed.
Lemma pushed_T s s' p w : pushed p w s s' -> 2 * Zpos p + 1 < len s ->
  (forall q x, q <> p -> 0 <= x -> T s' q x <= T s q x) /\ (forall x, T s' p x = Tab s p x).
Proof.
  intros (Hl & Hf & Ht & Hfd & Hc & Htc & _) Hb. destruct (Htc Hb) as [H0 H1].
  assert (Hlow : forall q x, (Zpos q < Zpos p) -> T s' q x = T s q x).
  { induction q as [q IH|q IH|]; intros x L; cbn [T]; rewrite Hf by (intros Q; apply (f_equal Zpos) in Q; lia); try reflexivity; rewrite IH by lia; reflexivity. }
  assert (Hp : forall x, T s' p x = Tab s p x).
  { intros x. rewrite T_Tab, Ht, gtag_id. destruct p as [p|p|]; cbn [Tab]; [apply Hlow; lia|apply Hlow; lia|reflexivity]. }
  split; [|exact Hp].
  induction q as [q IH|q IH|]; intros x N X.
  - cbn [T]. destruct (Pos.eq_dec q p) as [->|Nq].
    + rewrite Hp, H1, T_Tab. apply Tab_mono. now apply gtag_comp.
    + rewrite Hf by congruence. apply IH; [assumption|]. pose proof (gtag_le (tag (pg s q~1)) x X). lia.
  - cbn [T]. destruct (Pos.eq_dec q p) as [->|Nq].
    + rewrite Hp, H0, T_Tab. apply Tab_mono. now apply gtag_comp.
    + rewrite Hf by congruence. apply IH; [assumption|]. pose proof (gtag_le (tag (pg s q~0)) x X). lia.
  - cbn [T]. rewrite Hf by (congruence || discriminate). lia.
Qed.

(** the width of a node (1 for indices that are none) *)
Definition wid (n : Z) (p : positive) : Z := match range n p with Some (l, r) => r - l + 1 | None => 1 end.
Lemma wid_bounds n p : 0 < n -> 1 <= wid n p <= n.
Proof. intros Hn. unfold wid. destruct (range n p) as [(l, r)|] eqn:R; [|lia]. pose proof (range_bounds n p Hn l r R). lia. Qed.
Definition cellok (w : Z) (c : cell) (y : Z) : Prop := 1 <= y /\ Z.abs (mn c) <= y /\ Z.abs (mx c) <= y /\ Z.abs (sm c) <= w * y.
Definition ok (n : Z) (s : tree) (W : Z) (q : positive) : Prop := exists y, cellok (wid n q) (pg s q) y /\ T s q y <= W.
Lemma ok_weak n s W W' q : ok n s W q -> W <= W' -> ok n s W' q.
Proof. intros (y & C & H) L. exists y. split; [assumption|lia]. Qed.
Lemma ok_frame n s s' p W q : (forall q, ~ desc p q -> pg s' q = pg s q) -> ~ desc p q -> ok n s W q -> ok n s' W q.
Proof. intros F N (y & C & H). exists y. rewrite (F q N), (T_frame s s' p F q y N). auto. Qed.

Lemma pushed_ok n s s' p l r W : range n p = Some (l, r) -> pushed p (r - l + 1) s s' -> 2 * Zpos p + 1 < len s -> l <= r ->
  forall q, ok n s W q -> ok n s' W q.
Proof.
  intros Hp P Hb Hlr q (y & (Y & C1 & C2 & C3) & H). destruct (pushed_T s s' p _ P Hb) as [HT HTp]. destruct P as (Hl & Hf & Ht & Hfd & Hc & Htc & _).
  destruct (Pos.eq_dec q p) as [->|N].
  - exists (gtag (tag (pg s p)) y). split; [|rewrite HTp, <- T_Tab; assumption].
    pose proof (gtag_le (tag (pg s p)) y ltac:(lia)) as Q. split; [lia|].
    pose proof (Hfd QMin) as F1. pose proof (Hfd QMax) as F2. pose proof (Hfd QSum) as F3. cbn [field ap] in *. rewrite F1, F2, F3.
    unfold wid in *. rewrite Hp in *. unfold gtag. destruct (tag (pg s p)) as [a b]. cbn [fst snd]. set (w := r - l + 1) in *. assert (Hw : 1 <= w) by lia. clearbody w.
    assert (forall u z, Z.abs u <= z -> 0 <= z -> Z.abs (u * a) <= z * Z.max 1 (Z.abs a)) as K.
    { intros u z U Z0. rewrite Z.abs_mul. transitivity (z * Z.abs a); [apply Z.mul_le_mono_nonneg_r; lia|]. apply Z.mul_le_mono_nonneg_l; lia. }
    assert (Ka : forall u v z z', Z.abs u <= z -> Z.abs v <= z' -> Z.abs (u + v) <= z + z') by (intros; lia).
    split; [|split].
    + apply Ka; [|lia]. apply K; [assumption|lia].
    + apply Ka; [|lia]. apply K; [assumption|lia].
    + rewrite Z.mul_add_distr_l, Z.mul_assoc. apply Ka; [apply K; [assumption|apply Z.mul_nonneg_nonneg; lia]|]. rewrite Z.abs_mul, (Z.abs_eq w), Z.mul_comm by lia. apply Z.le_refl.
  - exists y. split; [|pose proof (HT q y N ltac:(lia)); lia].
    assert (Hfield : forall k, field k (pg s' q) = field k (pg s q)).
    { intros k. destruct (Pos.eq_dec q p~0) as [->|N0]; [apply Hc|]. destruct (Pos.eq_dec q p~1) as [->|N1]; [apply Hc|]. rewrite Hf by assumption. reflexivity. }
    pose proof (Hfield QMin) as F1. pose proof (Hfield QMax) as F2. pose proof (Hfield QSum) as F3. cbn [field] in *. unfold cellok. rewrite F1, F2, F3. auto.
Qed.

(** ** the machine operations under the bound *)
Section Machine.
Context (M n : Z).
Hypothesis Hn : 0 < n.
Definition fits (z : Z) : Prop := Z.abs z <= M.
Lemma ck_ok z : fits z -> ck M z = Ok z.
Proof. unfold fits. intros H. unfold ck. replace (- M - 1 <=? z) with true by lia. replace (z <=? M) with true by lia. reflexivity. Qed.
Lemma ok_tag s W q : ok n s W q -> Tab s q (gtag (tag (pg s q)) 1) <= W.
Proof. intros (y & (Y & _) & H). rewrite T_Tab in H. pose proof (Tab_mono s q _ _ (gtag_mono (tag (pg s q)) 1 y Y)). lia. Qed.
Lemma ok_one s W q : ok n s W q -> 1 <= W.
Proof. intros (y & (Y & _) & H). pose proof (T_le s q y ltac:(lia)). lia. Qed.
(** the pending numbers of a node and of its child together *)
Lemma ok_child s W p q : (q = p~0 \/ q = p~1)%positive -> ok n s W q ->
  gtag (tag (pg s p)) (gtag (tag (pg s q)) 1) <= W.
Proof.
  intros Hq H. apply ok_tag in H. assert (E0 : Tab s q (gtag (tag (pg s q)) 1) = Tab s p (gtag (tag (pg s p)) (gtag (tag (pg s q)) 1))).
  { destruct Hq as [-> | ->]; cbn [Tab]; apply T_Tab. }
  rewrite E0 in H. eapply Z.le_trans; [|exact H]. apply Tab_le.
  pose proof (gtag_le (tag (pg s q)) 1 ltac:(lia)). pose proof (gtag_le (tag (pg s p)) (gtag (tag (pg s q)) 1) ltac:(lia)). lia.
Qed.
(** |m|, |a| and the products with the numbers b, d pending below *)
Lemma gtag_parts m a b d W : gtag (m, a) (gtag (b, d) 1) <= W -> Z.abs (b * m) <= W /\ Z.abs (d * m) <= W /\ Z.abs (d * m + a) <= W.
Proof.
  unfold gtag. cbn [fst snd]. intros H. rewrite !Z.abs_mul.
  assert (Z.abs b * Z.abs m <= Z.max 1 (Z.abs b) * Z.max 1 (Z.abs m)) by (apply Z.mul_le_mono_nonneg; lia).
  assert (Z.abs d * Z.abs m <= Z.abs d * Z.max 1 (Z.abs m)) by (apply Z.mul_le_mono_nonneg_l; lia).
  assert (1 <= Z.max 1 (Z.abs b) * Z.max 1 (Z.abs m)) by nia.
  assert (0 <= Z.abs d * Z.max 1 (Z.abs m)) by nia.
  assert (Z.abs (d * m + a) <= Z.abs d * Z.abs m + Z.abs a) by (rewrite <- Z.abs_mul; lia).
  replace ((1 * Z.max 1 (Z.abs b) + Z.abs d) * Z.max 1 (Z.abs m)) with (Z.max 1 (Z.abs b) * Z.max 1 (Z.abs m) + Z.abs d * Z.max 1 (Z.abs m)) in H by ring.
  set (A := Z.max 1 (Z.abs b) * Z.max 1 (Z.abs m)) in *. set (B := Z.abs d * Z.max 1 (Z.abs m)) in *. set (C := Z.abs b * Z.abs m) in *. set (D := Z.abs d * Z.abs m) in *.
  set (X := d * m + a) in *. clearbody A B C D X. lia.
Qed.

Lemma push_mul_same s c m : 0 <= c ->
  (c < len s -> (hmul (gt s c) = true -> fits (mulf (gt s c) * m)) /\ (hadd (gt s c) = true -> fits (addf (gt s c) * m))) ->
  push_mul_m M c m s = push_mul c m s.
Proof.
  intros C H. unfold push_mul_m, push_mul. destruct (Z.lt_ge_cases c (len s)) as [L|L]; [|now rewrite aget_oob].
  rewrite aget_gt by lia. cbn [bind]. destruct (H L) as [H1 H2]. destruct (gt s c) as [a b d e f [] []]; cbn [hmul hadd mulf addf mn mx sm] in *;
    rewrite ?ck_ok by auto; cbn [bind hmul hadd mulf addf mn mx sm]; rewrite ?ck_ok by auto; reflexivity.
Qed.
Lemma push_add_same s c a : 0 <= c -> (c < len s -> hadd (gt s c) = true -> fits (addf (gt s c) + a)) -> push_add_m M c a s = push_add c a s.
Proof.
  intros C H. unfold push_add_m, push_add. destruct (Z.lt_ge_cases c (len s)) as [L|L]; [|now rewrite aget_oob].
  rewrite aget_gt by lia. cbn [bind]. specialize (H L). destruct (gt s c) as [x b d e f [] []]; cbn [hmul hadd mulf addf mn mx sm] in *;
    rewrite ?ck_ok by auto; reflexivity.
Qed.

Lemma update_same s p l r W : len s = 4 * n -> range n p = Some (l, r) -> n * W <= M ->
  ok n s W p -> ok n s W p~0 -> ok n s W p~1 -> update_m M (Zpos p) l r s = update (Zpos p) l r s.
Proof.
  intros Hl Hp HM Op O0 O1. pose proof (range_index n p l r Hn Hp) as Hi. pose proof (range_bounds n p Hn l r Hp) as Hlr.
  pose proof (ok_one s W p Op) as W1. assert (WM : W <= M) by nia.
  pose proof (ok_child s W p _ (or_introl eq_refl) O0) as C0. pose proof (ok_child s W p _ (or_intror eq_refl) O1) as C1.
  destruct Op as (y & (Y & B1 & B2 & B3) & HT). unfold wid in B3. rewrite Hp in B3.
  rewrite T_Tab in HT. assert (HG : gtag (tag (pg s p)) y <= W).
  { pose proof (gtag_le (tag (pg s p)) y ltac:(lia)). pose proof (Tab_le s p (gtag (tag (pg s p)) y) ltac:(lia)). lia. }
  clear HT O0 O1. set (w := r - l + 1) in *. assert (Hw : 1 <= w <= n) by lia.
  unfold update_m, update, tree in *. cbv zeta. rewrite aget_gt by lia. cbn [bind]. unfold pg in *.
  change (Z.pos p~0) with (2 * Z.pos p) in *. change (Z.pos p~1) with (2 * Z.pos p + 1) in *.
  set (c := gt s (Zpos p)) in *.
  (* bounds of what is computed here *)
  assert (K : forall u v, Z.abs u <= v * y -> 0 <= v <= n -> fits (u * fst (tag c)) /\ fits (u * fst (tag c) + snd (tag c) * v)).
  { intros u v U V. unfold fits. unfold gtag in HG. set (A := fst (tag c)) in *. set (B := snd (tag c)) in *. clearbody A B.
    assert (P1 : Z.abs (u * A) <= v * (y * Z.max 1 (Z.abs A))).
    { rewrite Z.abs_mul, Z.mul_assoc. apply Z.mul_le_mono_nonneg; lia. }
    assert (P2 : Z.abs (B * v) = v * Z.abs B) by (rewrite Z.abs_mul, (Z.abs_eq v) by lia; ring).
    assert (P3 : v * (y * Z.max 1 (Z.abs A) + Z.abs B) <= n * W).
    { apply Z.mul_le_mono_nonneg; [lia|lia| |lia]. assert (0 <= y * Z.max 1 (Z.abs A)) by (apply Z.mul_nonneg_nonneg; lia). lia. }
    rewrite Z.mul_add_distr_l in P3. assert (0 <= v * Z.abs B) by (apply Z.mul_nonneg_nonneg; lia).
    set (a1 := u * A) in *. set (a2 := B * v) in *. set (a3 := v * (y * Z.max 1 (Z.abs A))) in *. set (a4 := v * Z.abs B) in *. clearbody a1 a2 a3 a4. lia. }
  pose proof (K (mn c) 1 ltac:(lia) ltac:(lia)) as K1. pose proof (K (mx c) 1 ltac:(lia) ltac:(lia)) as K2. pose proof (K (sm c) w B3 ltac:(lia)) as K3.
  assert (K4 : fits (snd (tag c) * w)).
  { pose proof (K 0 w (Z.mul_nonneg_nonneg w y ltac:(lia) ltac:(lia)) ltac:(lia)) as [_ Q]. rewrite Z.mul_0_l, Z.add_0_l in Q. exact Q. }
  rewrite !Z.mul_1_r in K1, K2. clear K HG.
  assert (P0 : forall ch, gtag (tag c) (gtag (tag (gt s ch)) 1) <= W ->
    (hmul c = true -> (hmul (gt s ch) = true -> fits (mulf (gt s ch) * mulf c)) /\ (hadd (gt s ch) = true -> fits (addf (gt s ch) * mulf c))) /\
    (hadd c = true -> hadd (gt s ch) = true -> fits ((if hmul c then addf (gt s ch) * mulf c else addf (gt s ch)) + addf c))).
  { clear K1 K2 K3 K4 B1 B2 B3 HM C0 C1 Hi Hlr Hw Hl. unfold fits. intros ch G. destruct (tag c) as [m a] eqn:Et. destruct (tag (gt s ch)) as [b d] eqn:Ed. apply gtag_parts in G.
    unfold tag in Et, Ed. injection Et as <- <-. injection Ed as <- <-. split.
    - intros Hm. rewrite Hm in G. split; intros Hc; rewrite Hc in G; (apply Z.le_trans with W; [tauto|exact WM]).
    - intros Ha Hc. rewrite Ha, Hc in G. destruct (hmul c); [|rewrite !Z.mul_1_r in G]; (apply Z.le_trans with W; [tauto|exact WM]). }
  pose proof (P0 _ C0) as [PM0 PA0]. pose proof (P0 _ C1) as [PM1 PA1]. clear P0 C0 C1 HM B1 B2 B3.
  (* the multiplication stage *)
  assert (Hmul : (if hmul c then
          x <- ck M (mn c * mulf c) ;; y <- ck M (mx c * mulf c) ;; z <- ck M (sm c * mulf c) ;;
          s <- aset s (Zpos p) (Cell x y z (addf c) (mulf c) (hadd c) false) ;;
          s <- push_mul_m M (2 * Zpos p) (mulf c) s ;; push_mul_m M (2 * Zpos p + 1) (mulf c) s
        else Ok s) = (if hmul c then
          s <- aset s (Zpos p) (Cell (mn c * mulf c) (mx c * mulf c) (sm c * mulf c) (addf c) (mulf c) (hadd c) false) ;;
          s <- push_mul (2 * Zpos p) (mulf c) s ;; push_mul (2 * Zpos p + 1) (mulf c) s
        else Ok s) /\
     forall s1, (if hmul c then
          s <- aset s (Zpos p) (Cell (mn c * mulf c) (mx c * mulf c) (sm c * mulf c) (addf c) (mulf c) (hadd c) false) ;;
          s <- push_mul (2 * Zpos p) (mulf c) s ;; push_mul (2 * Zpos p + 1) (mulf c) s
        else Ok s) = Ok s1 ->
       len s1 = len s /\ (let c1 := gt s1 (Zpos p) in hadd c1 = hadd c /\ addf c1 = addf c /\
         (forall k, field k c1 = field k c * fst (tag c))) /\
       forall ch, ch = 2 * Zpos p \/ ch = 2 * Zpos p + 1 -> ch < len s ->
         hadd (gt s1 ch) = hadd (gt s ch) /\ (hadd (gt s ch) = true -> addf (gt s1 ch) = if hmul c then addf (gt s ch) * mulf c else addf (gt s ch))).
  { destruct (hmul c) eqn:Em.
    - assert (Ef : fst (tag c) = mulf c) by (unfold tag; rewrite Em; reflexivity). rewrite Ef in *.
      rewrite !ck_ok by tauto. cbn [bind].
      match goal with |- context [aset s _ ?x] => set (cc := x); destruct (aset_gt s (Zpos p) cc ltac:(lia)) as (a & Ea & La & Ga) end.
      rewrite Ea. cbn [bind].
      assert (Gch : forall ch, 0 <= ch -> ch <> Zpos p -> gt a ch = gt s ch) by (intros ch A1 A2; rewrite Ga by assumption; destruct (Z.eqb_spec ch (Zpos p)); [contradiction|reflexivity]).
      rewrite (push_mul_same a (2 * Zpos p)) by (lia || (intros _; rewrite Gch by lia; auto)).
      destruct (Z.lt_ge_cases (2 * Zpos p + 1) (len s)) as [Lb|Lb].
      + destruct (push_mul_spec a (2 * Zpos p) (mulf c) ltac:(lia)) as (b & Eb & Lbb & Gb & Fb & Tb). rewrite Eb. cbn [bind].
        assert (G1 : gt b (2 * Zpos p + 1) = gt s (2 * Zpos p + 1)) by (rewrite Gb, Gch by lia; reflexivity).
        rewrite (push_mul_same b (2 * Zpos p + 1)) by (lia || (intros _; rewrite G1; auto)). split; [reflexivity|].
        destruct (push_mul_spec b (2 * Zpos p + 1) (mulf c) ltac:(lia)) as (d & Ed & Ld & Gd & Fd & Td). rewrite Ed. intros s1 Q. injection Q as <-.
        split; [lia|]. assert (Gp : gt d (Zpos p) = cc) by (rewrite Gd, Gb, Ga by lia; now rewrite Z.eqb_refl). cbv zeta. rewrite Gp. split; [repeat split; intros []; reflexivity|].
        assert (Pch : forall t t' ch k, 0 <= ch < len t -> push_mul ch k t = Ok t' -> hadd (gt t' ch) = hadd (gt t ch) /\ (hadd (gt t ch) = true -> addf (gt t' ch) = addf (gt t ch) * k)).
        { intros t t' ch k A Q. unfold push_mul in Q. rewrite aget_gt in Q by assumption. cbn [bind] in Q.
          match type of Q with aset _ _ ?x = _ => destruct (aset_gt t ch x A) as (t2 & E2 & _ & G2) end. rewrite E2 in Q. injection Q as <-.
          rewrite (G2 ch) by lia. rewrite Z.eqb_refl. destruct (gt t ch) as [? ? ? ? ? [] []]; cbn; split; congruence || reflexivity. }
        intros ch [-> | ->] _.
        * rewrite Gd by lia. destruct (Pch a b (2 * Zpos p) (mulf c) ltac:(lia) Eb) as [Q1 Q2]. rewrite Gch in Q1, Q2 by lia. auto.
        * destruct (Pch b d (2 * Zpos p + 1) (mulf c) ltac:(lia) Ed) as [Q1 Q2]. rewrite G1 in Q1, Q2. auto.
      + assert (EU : push_mul (2 * Zpos p) (mulf c) a = UB) by (unfold push_mul; rewrite aget_oob by lia; reflexivity). rewrite EU. split; [reflexivity|discriminate].
    - split; [reflexivity|]. intros s1 Q. injection Q as <-. split; [reflexivity|]. split; [|auto].
      cbv zeta. fold c. split; [reflexivity|]. split; [reflexivity|]. intros k. unfold tag. rewrite Em. cbn [fst]. ring. }
  destruct Hmul as [Heq Hs1]. unfold tree in *. match type of Heq with ?x = ?y => set (mm := x) in *; set (me := y) in * end. rewrite Heq. clear Heq mm.
  destruct me as [s1| | |]; try reflexivity. cbn [bind]. destruct (Hs1 s1 eq_refl) as (L1 & (A1 & A2 & A3) & A4). clear Hs1.
  rewrite aget_gt by lia. cbn [bind]. set (c1 := gt s1 (Zpos p)) in *. destruct (hadd c1) eqn:Eh; [|reflexivity].
  assert (Es : snd (tag c) = addf c) by (unfold tag; rewrite <- A1; reflexivity). rewrite Es in *.
  pose proof (A3 QMin) as F1. pose proof (A3 QMax) as F2. pose proof (A3 QSum) as F3. cbn [field] in F1, F2, F3. rewrite F1, F2, F3, A2.
  change (r - l + 1) with w. rewrite (ck_ok (mn c * _ + _)), (ck_ok (mx c * _ + _)), (ck_ok (addf c * w)) by tauto. cbn [bind]. rewrite ck_ok by tauto. cbn [bind].
  match goal with |- context [aset s1 _ ?x] => set (cc := x); destruct (aset_gt s1 (Zpos p) cc ltac:(lia)) as (a & Ea & La & Ga) end.
  rewrite Ea. cbn [bind].
  assert (Gch : forall ch, 0 <= ch -> ch <> Zpos p -> gt a ch = gt s1 ch) by (intros ch Z1 Z2; rewrite Ga by assumption; destruct (Z.eqb_spec ch (Zpos p)); [contradiction|reflexivity]).
  assert (PP : forall ch, ch = 2 * Zpos p \/ ch = 2 * Zpos p + 1 -> ch < len s -> hadd (gt s1 ch) = true -> fits (addf (gt s1 ch) + addf c)).
  { intros ch Hc Lc Hh. destruct (A4 ch Hc Lc) as [Q1 Q2]. rewrite Q1 in Hh. rewrite (Q2 Hh). destruct Hc as [-> | ->]; auto. }
  rewrite (push_add_same a (2 * Zpos p)) by (lia || (intros Lc; rewrite Gch by lia; apply PP; [auto|lia])).
  destruct (Z.lt_ge_cases (2 * Zpos p) (len s)) as [Lb|Lb].
  - destruct (push_add_spec a (2 * Zpos p) (addf c) ltac:(lia)) as (b & Eb & Lbb & Gb & Fb & Tb). rewrite Eb. cbn [bind].
    apply push_add_same; [lia|]. intros Lc. rewrite Gb, Gch by lia. apply PP; [auto|lia].
  - assert (EU : push_add (2 * Zpos p) (addf c) a = UB) by (unfold push_add; rewrite aget_oob by lia; reflexivity). rewrite EU. reflexivity.
Qed.
End Machine.
