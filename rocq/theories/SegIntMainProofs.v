(** SegmentTree with machine integers: calls and histories below the bound. *)
From Verif Require Import Base SegModel SegIntModel SegSpec SegIntSpec SegProofs SegMainProofs SegIntProofs.
Local Open Scope Z_scope.

(** the machine operation is the exact one, whose results satisfy P *)
Definition agrees {X} (m e : outcome X) (P : X -> Prop) : Prop := m = e /\ forall x, e = Ok x -> P x.
Lemma agrees_bind {X Y} (m e : outcome X) (f g : X -> outcome Y) P Q :
  agrees m e P -> (forall x, P x -> agrees (f x) (g x) Q) -> agrees (bind m f) (bind e g) Q.
Proof. intros [-> H] K. destruct e as [x| | |]; cbn [bind]; [apply K, H; reflexivity| | |]; split; (reflexivity || discriminate). Qed.
Lemma agrees_weak {X} (m e : outcome X) (P Q : X -> Prop) : agrees m e P -> (forall x, P x -> Q x) -> agrees m e Q.
Proof. intros [-> H] K. split; [reflexivity|]. intros x E. apply K, H, E. Qed.
Lemma agrees_ret {X} (x : X) (P : X -> Prop) : P x -> agrees (Ok x) (Ok x) P.
Proof. intros H. split; [reflexivity|]. intros y E. injection E as <-. exact H. Qed.

Section Calls.
Context (M n : Z).
Hypothesis Hn : 0 < n.
(** nothing pending strictly above p *)
Definition clear (s : tree) (p : positive) : Prop := forall x, Tab s p x = x.
Definition below (s : tree) (W : Z) (p : positive) : Prop := forall q, desc p q -> ok n s W q.

Lemma update_agrees s p l r W : len s = 4 * n -> range n p = Some (l, r) -> n * W <= M -> below s W p ->
  agrees (update_m M (Zpos p) l r s) (update (Zpos p) l r s) (fun s' =>
    length s' = length s /\ (forall q, ~ desc p q -> pg s' q = pg s q) /\ below s' W p /\ (forall x, T s' p x = Tab s p x) /\ tag (pg s' p) = idt).
Proof.
  intros Hl Hp HM HB. pose proof (range_index n p l r Hn Hp) as Hi. pose proof (range_bounds n p Hn l r Hp) as Hlr. split.
  { apply (update_same M n Hn s p l r W Hl Hp HM); apply HB; [apply desc_refl|right; apply desc_refl|right; apply desc_refl]. }
  intros s' E. destruct (Z.lt_ge_cases (2 * Zpos p + 1) (len s)) as [Hb|Hb].
  - destruct (update_ok s p l r Hb) as (s2 & Es & Hpush). rewrite Es in E. injection E as ->. split; [apply Hpush|]. split; [|split; [|split]].
    + intros q Hq. destruct Hpush as (_ & Hf & _). apply Hf; intros ->; apply Hq; [apply desc_refl| |]; right; apply desc_refl.
    + intros q Hq. apply (pushed_ok n s s' p l r W Hp Hpush Hb ltac:(lia)). now apply HB.
    + apply (pushed_T s s' p _ Hpush Hb).
    + apply Hpush.
  - pose proof (update_oob s p l r ltac:(lia) ltac:(lia)) as H. rewrite E in H. cbn [outc] in H. destruct H as [-> Ht].
    split; [reflexivity|]. split; [reflexivity|]. split; [assumption|]. split; [|exact Ht].
    intros x. rewrite T_Tab. unfold pg. rewrite Ht, gtag_id. reflexivity.
Qed.
Lemma below_frame s s' p q W : (forall q, ~ desc p q -> pg s' q = pg s q) -> (forall t, desc q t -> ~ desc p t) -> below s W q -> below s' W q.
Proof. intros F D H t Ht. apply (ok_frame n s s' p W t F); [now apply D|now apply H]. Qed.
Lemma below_child0 s W p : below s W p -> below s W p~0.
Proof. intros H q D. apply H. now apply desc_child0. Qed.
Lemma below_child1 s W p : below s W p -> below s W p~1.
Proof. intros H q D. apply H. now apply desc_child1. Qed.

(** ** interval updates *)
Definition growu (u : change) (W : Z) : Z := gtag (tagu u) W.
Lemma T_mark s s' p t : (forall q, q <> p -> pg s' q = pg s q) -> tag (pg s' p) = t -> tag (pg s p) = idt -> clear s p ->
  forall q x, desc p q -> T s' q x = gtag t (T s q x).
Proof.
  intros Hf Ht Hi Hc.
  assert (Hp : forall x, T s' p x = gtag t (T s p x)).
  { intros x. rewrite !T_Tab, Hi, gtag_id, Ht. rewrite (Tab_frame s s' p) by (intros q Hq; apply Hf; intros ->; apply Hq, desc_refl). rewrite !Hc. reflexivity. }
  induction q as [q IH|q IH|]; intros x Hd.
  - destruct (Pos.eq_dec q~1 p) as [->|N]; [apply Hp|]. destruct Hd as [Hd|Hd]; [congruence|]. cbn [T]. rewrite Hf by assumption. apply (IH _ Hd).
  - destruct (Pos.eq_dec q~0 p) as [->|N]; [apply Hp|]. destruct Hd as [Hd|Hd]; [congruence|]. cbn [T]. rewrite Hf by assumption. apply (IH _ Hd).
  - destruct Hd as [<-|[]]. apply Hp.
Qed.
Lemma interval_agrees u lv rv W : n * W <= M -> 0 <= W -> forall fuel p l r s, len s = 4 * n -> range n p = Some (l, r) ->
  lv <= rv -> lv <= r -> l <= rv -> clear s p -> below s W p ->
  agrees (interval_m M fuel u lv rv l r (Zpos p) s) (interval fuel u lv rv l r (Zpos p) s) (fun s' =>
    length s' = length s /\ (forall q, ~ desc p q -> pg s' q = pg s q) /\ below s' (growu u W) p).
Proof.
  intros HM HW. assert (HG : W <= growu u W) by (apply gtag_le; assumption).
  induction fuel as [|f IH]; intros p l r s Hl Hp Hv Hov1 Hov2 Hc HB; [split; [reflexivity|discriminate]|].
  pose proof (range_bounds n p Hn l r Hp) as Hlr. cbn [interval_m interval].
  apply (agrees_bind _ _ _ _ _ _ (update_agrees s p l r W Hl Hp HM HB)). intros s1 (L1 & F1 & B1 & T1 & Tg1). pose proof (range_index n p l r Hn Hp) as Hidx.
  assert (C1 : clear s1 p) by (intros x; rewrite (Tab_frame s s1 p x F1); apply Hc).
  assert (CT1 : forall x, T s1 p x = x) by (intros x; rewrite T1; apply Hc).
  destruct ((lv <=? l) && (r <=? rv)) eqn:Ecov.
  - rewrite aget_gt by lia. cbn [bind]. change (gt s1 (Z.pos p)) with (pg s1 p).
    destruct (aset_gt s1 (Zpos p) (mark (pg s1 p) u) ltac:(lia)) as (s2 & E2 & L2 & G2). unfold tree in *. rewrite E2. apply agrees_ret.
    assert (Hf2 : forall q, q <> p -> pg s2 q = pg s1 q).
    { intros q N. unfold pg. rewrite G2 by lia. destruct (Z.eqb_spec (Zpos q) (Zpos p)) as [Q|]; [injection Q as ->; congruence|reflexivity]. }
    assert (Hp2 : pg s2 p = mark (pg s1 p) u) by (unfold pg at 1; rewrite G2 by lia; now rewrite Z.eqb_refl).
    assert (Ht2 : tag (pg s2 p) = tagu u).
    { rewrite Hp2. unfold tag in *. injection Tg1 as Q1 Q2. destruct u; cbn [mark hmul hadd mulf addf tagu]; f_equal; assumption. }
    split; [congruence|]. split.
    + intros q Hq. rewrite Hf2 by (intros ->; apply Hq, desc_refl). now apply F1.
    + intros q Hd. destruct (B1 q Hd) as (y & C & HT). exists y. split.
      * destruct (Pos.eq_dec q p) as [->|N]; [|now rewrite Hf2]. rewrite Hp2. destruct u; exact C.
      * rewrite (T_mark s1 s2 p (tagu u) Hf2 Ht2 Tg1 C1 q y Hd). unfold growu. now apply gtag_mono.
  - assert (Hlt : l < r).
    { destruct (Z.eq_dec l r) as [->|]; [|lia]. exfalso. apply andb_false_iff in Ecov. lia. }
    cbv zeta. change (Z.shiftr (l + r) 1) with (mid l r). pose proof (mid_bounds l r Hlt) as Hm.
    change (2 * Z.pos p) with (Z.pos p~0). change (Z.pos p~0 + 1) with (Z.pos p~1).
    pose proof (range_l n p l r Hp Hlt) as Hpl. pose proof (range_r n p l r Hp Hlt) as Hpr.
    assert (HL : agrees (if lv <=? mid l r then interval_m M f u lv rv l (mid l r) (Z.pos p~0) s1 else Ok s1)
       (if lv <=? mid l r then interval f u lv rv l (mid l r) (Z.pos p~0) s1 else Ok s1)
       (fun s2 => length s2 = length s1 /\ (forall q, ~ desc p~0 q -> pg s2 q = pg s1 q) /\ below s2 (growu u W) p~0)).
    { destruct (Z.leb_spec lv (mid l r)) as [Hle|Hle].
      - apply (IH p~0%positive l (mid l r) s1); try assumption; try lia. now apply below_child0.
      - apply agrees_ret. split; [reflexivity|]. split; [reflexivity|]. intros q Hd. apply (ok_weak n s1 W); [|assumption]. apply B1. now apply desc_child0. }
    apply (agrees_bind _ _ _ _ _ _ HL). clear HL. intros s2 (L2 & F2 & B2).
    assert (B2r : below s2 W p~1).
    { apply (below_frame s1 s2 p~0 _ W F2); [intros t H1 H2; exact (desc_disjoint p t H2 H1)|]. now apply below_child1. }
    assert (CT2 : forall x, T s2 p x = x) by (intros x; rewrite (T_frame s1 s2 _ F2 p x (desc_not_self0 p)); apply CT1).
    assert (HR : agrees (if mid l r <? rv then interval_m M f u lv rv (mid l r + 1) r (Z.pos p~1) s2 else Ok s2)
       (if mid l r <? rv then interval f u lv rv (mid l r + 1) r (Z.pos p~1) s2 else Ok s2)
       (fun s3 => length s3 = length s2 /\ (forall q, ~ desc p~1 q -> pg s3 q = pg s2 q) /\ below s3 (growu u W) p~1)).
    { destruct (Z.ltb_spec (mid l r) rv) as [Hle|Hle].
      - apply (IH p~1%positive (mid l r + 1) r s2); try assumption; try lia.
      - apply agrees_ret. split; [reflexivity|]. split; [reflexivity|]. intros q Hd. apply (ok_weak n s2 W); [|assumption]. now apply B2r. }
    eapply agrees_weak; [exact HR|]. intros s3 (L3 & F3 & B3). split; [congruence|]. split.
    + intros q Hq. rewrite F3 by (intros K; apply Hq; now apply desc_child1).
      rewrite F2 by (intros K; apply Hq; now apply desc_child0). now apply F1.
    + intros q Hd. destruct (desc_cases p q Hd) as [->|[K|K]].
      * apply (ok_frame n s2 s3 p~1 _ p F3 (desc_not_self1 p)), (ok_frame n s1 s2 p~0 _ p F2 (desc_not_self0 p)), (ok_weak n s1 W); [apply B1, desc_refl|assumption].
      * apply (ok_frame n s2 s3 p~1 _ q F3); [intros K2; exact (desc_disjoint p q K K2)|now apply B2].
      * now apply B3.
Qed.

(** ** queries *)
Lemma query_agrees k lv rv W : n * W <= M -> 0 <= W -> forall fuel p l r s, len s = 4 * n -> range n p = Some (l, r) ->
  0 <= lv -> rv < n -> lv <= rv -> lv <= r -> l <= rv -> clear s p -> below s W p ->
  agrees (query_m M fuel k lv rv l r (Zpos p) s) (query fuel k lv rv l r (Zpos p) s) (fun xs =>
    (k = QSum -> Z.abs (fst xs) <= (Z.min rv r - Z.max lv l + 1) * W) /\
    length (snd xs) = length s /\ (forall q, ~ desc p q -> pg (snd xs) q = pg s q) /\ below (snd xs) W p).
Proof.
  intros HM HW.
  induction fuel as [|f IH]; intros p l r s Hl Hp Hv0 Hv1 Hv Hov1 Hov2 Hc HB; [split; [reflexivity|discriminate]|].
  pose proof (range_bounds n p Hn l r Hp) as Hlr. cbn [query_m query].
  apply (agrees_bind _ _ _ _ _ _ (update_agrees s p l r W Hl Hp HM HB)). intros s1 (L1 & F1 & B1 & T1 & Tg1). pose proof (range_index n p l r Hn Hp) as Hidx.
  assert (CT1 : forall x, T s1 p x = x) by (intros x; rewrite T1; apply Hc).
  destruct ((lv <=? l) && (r <=? rv)) eqn:Ecov.
  - rewrite aget_gt by lia. cbn [bind]. apply agrees_ret. cbn [fst snd]. split; [|auto]. intros ->. cbn [field]. change (gt s1 (Z.pos p)) with (pg s1 p).
    replace (Z.max lv l) with l by lia. replace (Z.min rv r) with r by lia.
    destruct (B1 p (desc_refl p)) as (y & (Y & _ & _ & C) & HT). rewrite CT1 in HT. unfold wid in C. rewrite Hp in C. eapply Z.le_trans; [exact C|]. apply Z.mul_le_mono_nonneg_l; lia.
  - assert (Hlt : l < r).
    { destruct (Z.eq_dec l r) as [->|]; [|lia]. exfalso. apply andb_false_iff in Ecov. lia. }
    cbv zeta. change (Z.shiftr (l + r) 1) with (mid l r). pose proof (mid_bounds l r Hlt) as Hm.
    change (2 * Z.pos p) with (Z.pos p~0). change (Z.pos p~0 + 1) with (Z.pos p~1).
    pose proof (range_l n p l r Hp Hlt) as Hpl. pose proof (range_r n p l r Hp Hlt) as Hpr.
    assert (Hjoin : forall s2, (forall q, ~ desc p~0 q -> pg s2 q = pg s1 q) -> below s2 W p~0 -> below s2 W p).
    { intros s2 F2 B2 q Hd. destruct (desc_cases p q Hd) as [->|[K|K]]; [|now apply B2|].
      - apply (ok_frame n s1 s2 p~0 _ p F2 (desc_not_self0 p)), B1, desc_refl.
      - apply (ok_frame n s1 s2 p~0 _ q F2); [intros K2; exact (desc_disjoint p q K2 K)|now apply B1, desc_child1]. }
    assert (Hjoin1 : forall s2 s3, below s2 W p -> (forall q, ~ desc p~1 q -> pg s3 q = pg s2 q) -> below s3 W p~1 -> below s3 W p).
    { intros s2 s3 B2 F3 B3 q Hd. destruct (desc_cases p q Hd) as [->|[K|K]]; [| |now apply B3].
      - apply (ok_frame n s2 s3 p~1 _ p F3 (desc_not_self1 p)), B2, desc_refl.
      - apply (ok_frame n s2 s3 p~1 _ q F3); [intros K2; exact (desc_disjoint p q K K2)|now apply B2, desc_child0]. }
    destruct (Z.leb_spec rv (mid l r)) as [Hrm|Hrm]; [|destruct (Z.ltb_spec (mid l r) lv) as [Hlm|Hlm]].
    + eapply agrees_weak; [apply (IH p~0%positive l (mid l r) s1); try assumption; try lia; now apply below_child0|].
      intros [x s2] (K1 & K2 & K3 & K4). cbn [fst snd] in *. split; [|split; [congruence|split]].
      * replace (Z.min rv r) with (Z.min rv (mid l r)) by lia. assumption.
      * intros q Hq. rewrite K3 by (intros Q; apply Hq; now apply desc_child0). now apply F1.
      * now apply Hjoin.
    + eapply agrees_weak; [apply (IH p~1%positive (mid l r + 1) r s1); try assumption; try lia; now apply below_child1|].
      intros [x s2] (K1 & K2 & K3 & K4). cbn [fst snd] in *. split; [|split; [congruence|split]].
      * replace (Z.max lv l) with (Z.max lv (mid l r + 1)) by lia. assumption.
      * intros q Hq. rewrite K3 by (intros Q; apply Hq; now apply desc_child1). now apply F1.
      * now apply (Hjoin1 s1).
    + eapply agrees_bind; [apply (IH p~0%positive l (mid l r) s1); try assumption; try lia; now apply below_child0|].
      intros [x s2] (K1 & K2 & K3 & K4). cbn [fst snd] in *.
      assert (HL2 : len s2 = 4 * n) by congruence. pose proof (Hjoin s2 K3 K4) as B2.
      assert (CT2 : forall x, T s2 p x = x) by (intros z; rewrite (T_frame s1 s2 _ K3 p z (desc_not_self0 p)); apply CT1).
      eapply agrees_bind; [apply (IH p~1%positive (mid l r + 1) r s2); try assumption; try lia; now apply below_child1|].
      intros [y s3] (J1 & J2 & J3 & J4). cbn [fst snd] in *.
      assert (HS : k = QSum -> Z.abs (x + y) <= (Z.min rv r - Z.max lv l + 1) * W).
      { intros Ek. specialize (K1 Ek). specialize (J1 Ek). replace (Z.min rv (mid l r)) with (mid l r) in K1 by lia. replace (Z.max lv (mid l r + 1)) with (mid l r + 1) in J1 by lia.
        eapply Z.le_trans; [apply Z.abs_triangle|]. replace ((Z.min rv r - Z.max lv l + 1) * W) with ((mid l r - Z.max lv l + 1) * W + (Z.min rv r - (mid l r + 1) + 1) * W) by ring. now apply Z.add_le_mono. }
      assert (HC : combine_m M k x y = Ok (combine k x y)).
      { destruct k; try reflexivity. cbn [combine_m combine]. apply (ck_ok M). unfold fits. specialize (HS eq_refl). eapply Z.le_trans; [exact HS|]. eapply Z.le_trans; [|exact HM]. apply Z.mul_le_mono_nonneg_r; lia. }
      rewrite HC. cbn [bind]. apply agrees_ret. cbn [fst snd]. split; [|split; [congruence|split]].
      * intros Ek. subst k. now apply HS.
      * intros q Hq. rewrite J3 by (intros Q; apply Hq; now apply desc_child1).
        rewrite K3 by (intros Q; apply Hq; now apply desc_child0). now apply F1.
      * now apply (Hjoin1 s2).
Qed.

(** ** building *)
Lemma rsum_bound v W : Forall (fun x => Z.abs x <= W) v -> forall m l, 0 <= l -> l + Z.of_nat m <= len v -> Z.abs (rsum m (at_ v) l) <= Z.of_nat m * W.
Proof.
  intros HF. induction m as [|m IH]; intros l Hl Hm; cbn [rsum]; [cbn; lia|].
  assert (A : Z.abs (at_ v l) <= W). { rewrite Forall_forall in HF. apply HF. unfold at_. apply nth_In. lia. }
  specialize (IH (l + 1) ltac:(lia) ltac:(lia)). replace (Z.of_nat (S m) * W) with (W + Z.of_nat m * W) by lia. lia.
Qed.
Lemma init_agrees v W : len v = n -> Forall (fun x => Z.abs x <= W) v -> n * W <= M -> 0 <= W ->
  forall fuel p l r s, len s = 4 * n -> range n p = Some (l, r) -> r - l < Z.of_nat fuel -> SegMainProofs.clean s ->
  init_m M fuel v l r (Zpos p) s = init fuel v l r (Zpos p) s.
Proof.
  intros Hv HF HM HW. induction fuel as [|f IH]; intros p l r s Hl Hp Hf Hc; [reflexivity|]. cbn [init_m init]. destruct (Z.eqb_spec l r) as [->|Hne]; [reflexivity|].
  pose proof (range_bounds n p Hn l r Hp) as Hlr. assert (Hlt : l < r) by lia.
  cbv zeta. change (Z.shiftr (l + r) 1) with (mid l r). pose proof (mid_bounds l r Hlt) as Hm.
  change (2 * Z.pos p) with (Z.pos p~0). change (Z.pos p~0 + 1) with (Z.pos p~1).
  pose proof (range_l n p l r Hp Hlt) as Hpl. pose proof (range_r n p l r Hp Hlt) as Hpr.
  rewrite (IH p~0%positive l (mid l r) s) by (assumption || lia).
  destruct (init_spec n v Hn Hv f p~0 l (mid l r) s Hl Hpl ltac:(lia) Hc) as (s1 & E1 & L1 & C1 & F1 & A1). rewrite E1. cbn [bind].
  rewrite (IH p~1%positive (mid l r + 1) r s1) by (assumption || congruence || lia).
  destruct (init_spec n v Hn Hv f p~1 (mid l r + 1) r s1 ltac:(congruence) Hpr ltac:(lia) C1) as (s2 & E2 & L2 & C2 & F2 & A2). rewrite E2. cbn [bind].
  pose proof (range_index n p~0 _ _ Hn Hpl). pose proof (range_index n p~1 _ _ Hn Hpr). pose proof (range_index n p _ _ Hn Hp).
  assert (Hlen2 : len s2 = 4 * n) by congruence. rewrite !aget_gt by lia. cbn [bind].
  change (gt s2 (Z.pos p~0)) with (pg s2 p~0). change (gt s2 (Z.pos p~1)) with (pg s2 p~1).
  pose proof (A1 QSum p~0%positive l (mid l r) (desc_refl _) Hpl) as S0. rewrite <- F2 in S0 by (intros Q; apply (desc_disjoint p p~0); [apply desc_refl|exact Q]).
  pose proof (A2 QSum p~1%positive (mid l r + 1) r (desc_refl _) Hpr) as S1. cbn [answers field] in S0, S1.
  rewrite (ck_ok M); [reflexivity|]. unfold fits. rewrite S0, S1.
  pose proof (rsum_bound v W HF (Z.to_nat (mid l r - l + 1)) l ltac:(lia) ltac:(lia)) as R0. pose proof (rsum_bound v W HF (Z.to_nat (r - (mid l r + 1) + 1)) (mid l r + 1) ltac:(lia) ltac:(lia)) as R1.
  rewrite Z2Nat.id in R0, R1 by lia. eapply Z.le_trans; [apply Z.abs_triangle|]. eapply Z.le_trans; [apply Z.add_le_mono; [exact R0|exact R1]|].
  rewrite <- Z.mul_add_distr_r. eapply Z.le_trans; [|exact HM]. apply Z.mul_le_mono_nonneg_r; lia.
Qed.
End Calls.

(** a fresh tree keeps its bounds *)
Lemma build_agrees M v W : v <> [] -> Forall (fun x => Z.abs x <= W) v -> len v * W <= M -> 1 <= W ->
  agrees (build_m M v) (build v) (fun s => len s = 4 * len v /\ below (len v) s W xH).
Proof.
  intros Hv HF HM HW. assert (Hn : 0 < len v) by (destruct v; [congruence|cbn [length]; lia]). set (x := hd 0 v).
  assert (Hx : Z.abs x <= W) by (unfold x; destruct v; [congruence|inversion HF; assumption]).
  set (s0 := repeat (Cell x x x x x false false) (4 * length v)).
  assert (Hs0 : len s0 = 4 * len v) by (unfold s0; rewrite repeat_length; lia).
  assert (Hp0 : forall q, pg s0 q = Cell x x x x x false false \/ pg s0 q = c0).
  { intros q. unfold pg, gt, s0. destruct (Nat.lt_ge_cases (Z.to_nat (Z.pos q)) (4 * length v)) as [K|K].
    + left. rewrite (nth_indep _ c0 (Cell x x x x x false false)) by (now rewrite repeat_length). apply nth_repeat.
    + right. apply nth_overflow. now rewrite repeat_length. }
  assert (Hc0 : SegMainProofs.clean s0) by (intros q; destruct (Hp0 q) as [-> | ->]; auto).
  split. { apply (init_agrees M (len v) Hn v W eq_refl HF HM ltac:(lia) (S (length v)) xH 0 (len v - 1) s0 Hs0 eq_refl ltac:(lia) Hc0). }
  intros s E. destruct (init_spec (len v) v Hn eq_refl (S (length v)) xH 0 (len v - 1) s0 Hs0 eq_refl ltac:(lia) Hc0) as (s' & E0 & L & C & F & A).
  unfold build in E. cbv zeta in E. fold x s0 in E. rewrite E0 in E. injection E as ->. split; [congruence|].
  intros q _. exists W. split.
  - destruct (range (len v) q) as [(l, r)|] eqn:R.
    + pose proof (range_bounds (len v) q Hn l r R) as B. unfold wid. rewrite R. split; [exact HW|].
      assert (Hat : forall i, l <= i <= r -> Z.abs (at_ v i) <= W). { intros i Hi. rewrite Forall_forall in HF. apply HF. unfold at_. apply nth_In. lia. }
      destruct (A QMin q l r (desc_root q) R) as [(i & Hi & Ei) _]. destruct (A QMax q l r (desc_root q) R) as [(j & Hj & Ej) _]. pose proof (A QSum q l r (desc_root q) R) as Es.
      cbn [field answers] in *. rewrite <- Ei, <- Ej, Es. split; [auto|]. split; [auto|].
      pose proof (rsum_bound v W HF (Z.to_nat (r - l + 1)) l ltac:(lia) ltac:(lia)) as R0. rewrite Z2Nat.id in R0 by lia. exact R0.
    + (* never written *)
      assert (Hq : pg s q = pg s0 q).
      { enough (K : forall fuel p l r t t', len t = 4 * len v -> range (len v) p = Some (l, r) -> init fuel v l r (Zpos p) t = Ok t' -> length t' = length t /\ pg t' q = pg t q).
        { apply (K (S (length v)) xH 0 (len v - 1) s0 s Hs0 eq_refl E0). }
        clear - Hn R. induction fuel as [|f IH]; intros p l r t t' Lt Hp E; [discriminate|]. cbn [init] in E. pose proof (range_bounds (len v) p Hn l r Hp) as Hlr.
        assert (Hset : forall t1 t2 c, len t1 = 4 * len v -> aset t1 (Zpos p) c = Ok t2 -> length t2 = length t1 /\ pg t2 q = pg t1 q).
        { intros t1 t2 c L1 Q. pose proof (range_index (len v) p l r Hn Hp). destruct (aset_gt t1 (Zpos p) c ltac:(lia)) as (t3 & E3 & L3 & G3). rewrite E3 in Q. injection Q as <-.
          split; [exact L3|]. unfold pg. rewrite G3 by lia. destruct (Z.eqb_spec (Zpos q) (Zpos p)) as [Q|]; [|reflexivity]. injection Q as ->. congruence. }
        destruct (Z.eqb_spec l r) as [->|Hne].
        - destruct (aget v r); try discriminate. cbn [bind] in E. destruct (aget t (Zpos p)); try discriminate. cbn [bind] in E. now apply Hset in E.
        - cbv zeta in E. change (Z.shiftr (l + r) 1) with (mid l r) in E. change (2 * Z.pos p) with (Z.pos p~0) in E. change (Z.pos p~0 + 1) with (Z.pos p~1) in E.
          destruct (init f v l (mid l r) (Z.pos p~0) t) as [t1| | |] eqn:E1; try discriminate. cbn [bind] in E.
          destruct (IH p~0%positive l (mid l r) t t1 Lt (range_l _ p l r Hp ltac:(lia)) E1) as [L1 Q1].
          destruct (init f v (mid l r + 1) r (Z.pos p~1) t1) as [t2| | |] eqn:E2; try discriminate. cbn [bind] in E.
          destruct (IH p~1%positive (mid l r + 1) r t1 t2 ltac:(congruence) (range_r _ p l r Hp ltac:(lia)) E2) as [L2 Q2].
          destruct (aget t2 (Z.pos p~0)); try discriminate. destruct (aget t2 (Z.pos p~1)); try discriminate. destruct (aget t2 (Z.pos p)); try discriminate. cbn [bind] in E.
          assert (L2v : len t2 = 4 * len v) by congruence. destruct (Hset _ _ _ L2v E) as [L3 Q3]. split; congruence. }
      rewrite Hq. unfold wid. rewrite R. destruct (Hp0 q) as [-> | ->]; repeat split; cbn [mn mx sm c0]; lia.
  - assert (HT : forall q x, T s q x = x); [|rewrite HT; lia].
    clear - C. assert (Ht : forall q, tag (pg s q) = idt) by (intros q; apply tag_idt; apply C).
    induction q as [q IH|q IH|]; intros x; cbn [T]; rewrite Ht, gtag_id; auto.
Qed.

(** ** histories *)
Lemma bound_mono cs : forall W, 0 <= W -> W <= bound W cs.
Proof.
  induction cs as [|c cs IH]; intros W H; unfold bound; cbn [fold_left]; [lia|]. change (W <= bound (grow W c) cs).
  assert (W <= grow W c) by (destruct c as [|[x|m] ? ?]; cbn [grow]; nia). specialize (IH (grow W c) ltac:(lia)). lia.
Qed.
Lemma step_agrees M n c s W : 0 < n -> valid_call n c -> 0 <= W -> n * W <= M -> len s = 4 * n -> below n s W xH ->
  agrees (step_m M c s) (step c s) (fun s' => len s' = 4 * n /\ below n s' (grow W c) xH).
Proof.
  intros Hn Hc HW HM Hl HB. destruct c as [k lv rv|u lv rv]; cbn [valid_call] in Hc; destruct Hc as (H1 & H2 & H3); cbn [step_m step grow].
  - unfold query0_m, query0. rewrite (size_of n s Hl). eapply agrees_bind.
    + apply (query_agrees M n Hn k lv rv W HM HW _ xH 0 (n - 1) s Hl eq_refl); auto; try lia. intros x. reflexivity.
    + intros [x s'] (_ & L & _ & B). cbn [fst snd] in *. apply agrees_ret. split; [congruence|assumption].
  - unfold interval0_m, interval0. rewrite (size_of n s Hl). eapply agrees_weak.
    + apply (interval_agrees M n Hn u lv rv W HM HW _ xH 0 (n - 1) s Hl eq_refl); auto; try lia. intros x. reflexivity.
    + intros s' (L & _ & B). split; [congruence|]. replace (match u with Add x => W + Z.abs x | Mul m => W * Z.max 1 (Z.abs m) end) with (growu u W); [assumption|].
      unfold growu, gtag. destruct u; cbn [tagu fst snd]; [change (Z.abs 1) with 1|change (Z.abs 0) with 0]; lia.
Qed.
Lemma run_agrees M n cs : 0 < n -> Forall (valid_call n) cs -> forall s W, 0 <= W -> n * bound W cs <= M -> len s = 4 * n -> below n s W xH ->
  agrees (run_m M cs s) (run cs s) (fun s' => len s' = 4 * n /\ below n s' (bound W cs) xH).
Proof.
  intros Hn. induction 1 as [|c cs Hc Hcs IH]; intros s W HW HM Hl HB; cbn [run_m run].
  - apply agrees_ret. auto.
  - assert (G : 0 <= grow W c) by (destruct c as [|[x|m] ? ?]; cbn [grow]; nia).
    change (bound W (c :: cs)) with (bound (grow W c) cs) in *. assert (n * W <= M).
    { eapply Z.le_trans; [|exact HM]. apply Z.mul_le_mono_nonneg_l; [lia|]. pose proof (bound_mono cs (grow W c) G). pose proof (bound_mono [c] W HW) as Q. cbn in Q. lia. }
    eapply agrees_bind; [apply (step_agrees M n c s W); assumption|]. intros s' [L B]. apply IH; assumption.
Qed.
Lemma client_agrees M v cs k lv rv W : v <> [] -> Forall (valid_call (len v)) cs -> valid_range (len v) lv rv ->
  Forall (fun x => Z.abs x <= W) v -> 1 <= W -> len v * bound W cs <= M ->
  client_m M v cs k lv rv = s <- build v ;; s <- run cs s ;; omap fst (query0 k lv rv s).
Proof.
  intros Hv Hcs (H1 & H2 & H3) HF HW HM. assert (Hn : 0 < len v) by lia. unfold client_m. apply (agrees_bind _ _ _ _ (fun s => len s = 4 * len v /\ below (len v) s W xH) (fun _ => True)).
  - apply build_agrees; try assumption. eapply Z.le_trans; [|exact HM]. apply Z.mul_le_mono_nonneg_l; [lia|]. apply bound_mono. lia.
  - intros s [Hl HB]. apply (agrees_bind _ _ _ _ _ _ (run_agrees M (len v) cs Hn Hcs s W ltac:(lia) HM Hl HB)). intros s' [Hl' HB'].
    split; [|auto]. unfold query0_m, query0. rewrite (size_of (len v) s' Hl'). f_equal.
    assert (HW' : 0 <= bound W cs) by (pose proof (bound_mono cs W ltac:(lia)); lia).
    apply (query_agrees M (len v) Hn k lv rv (bound W cs) HM HW' (S (length s')) xH 0 (len v - 1) s' Hl' eq_refl); auto; try lia. intros x. reflexivity.
Qed.
