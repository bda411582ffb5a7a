(** SegmentTree: the calls, histories, and the sizes for which the vectors
    are long enough. *)
From Verif Require Import Base SegModel SegSpec SegProofs.
Local Open Scope Z_scope.
Notation len s := (Z.of_nat (length s)).

(** a leaf whose (non-existing) children lie beyond the vectors *)
Definition bad (n : Z) : Prop := exists p l, range n p = Some (l, l) /\ 2 * n <= Zpos p.

Lemma range_desc n p : 0 < n -> forall q, desc p q -> forall l r lq rq, range n p = Some (l, r) -> range n q = Some (lq, rq) ->
  l <= lq /\ rq <= r.
Proof.
  intros Hn. induction q as [q IH|q IH|]; cbn [desc]; intros [Eq|H] l r lq rq Hp Hq;
    try (rewrite Eq in Hq; rewrite Hp in Hq; injection Hq as <- <-; lia); try contradiction;
    cbn [range] in Hq; destruct (range n q) as [(l', r')|] eqn:E'; try discriminate;
    destruct (Z.ltb_spec l' r') as [L|L]; try discriminate; injection Hq as <- <-;
    specialize (IH H l r l' r' Hp eq_refl); pose proof (mid_bounds l' r' L); lia.
Qed.

(** ** update on nodes *)
Record good_update (n : Z) (p : positive) (l r : Z) (s s' : tree) : Prop := {
  gu_len : length s' = length s;
  gu_frame : forall q, ~ desc p q -> pg s' q = pg s q;
  gu_E : forall q, q <> p -> E s' q = E s q;
  gu_Ep : E s' p = above s p;
  gu_eff : forall k q lq rq, range n q = Some (lq, rq) -> eff k s' q lq rq = eff k s q lq rq;
  gu_tag : tag (pg s' p) = idt;
  gu_field : forall k q, 4 * n <= 2 * Zpos q -> field k (pg s' q) = field k (pg s q) }.

Lemma pushed_E s s' p w : pushed p w s s' -> 2 * Zpos p + 1 < len s ->
  (forall q, q <> p -> E s' q = E s q) /\ E s' p = above s p.
Proof.
  intros (Hl & Hf & Ht & Hfd & Hc & Htc & _) Hb. destruct (Htc Hb) as [H0 H1].
  assert (Hlow : forall q, (Zpos q < Zpos p) -> E s' q = E s q).
  { induction q as [q IH|q IH|]; intros L; cbn [E]; rewrite Hf by (intros Q; apply (f_equal Zpos) in Q; lia); try reflexivity; rewrite IH by lia; reflexivity. }
  assert (Hab : above s' p = above s p).
  { destruct p as [p|p|]; cbn [above]; [apply Hlow; lia|apply Hlow; lia|reflexivity]. }
  assert (Hp : E s' p = above s p).
  { rewrite E_above, Ht, comp_id_r. exact Hab. }
  split; [|exact Hp].
  induction q as [q IH|q IH|]; intros N.
  - cbn [E]. destruct (Pos.eq_dec q p) as [->|Nq].
    + rewrite Hp, H1, comp_assoc, <- E_above. reflexivity.
    + rewrite (IH Nq), Hf by congruence. reflexivity.
  - cbn [E]. destruct (Pos.eq_dec q p) as [->|Nq].
    + rewrite Hp, H0, comp_assoc, <- E_above. reflexivity.
    + rewrite (IH Nq), Hf by congruence. reflexivity.
  - cbn [E]. rewrite Hf by (congruence || discriminate). reflexivity.
Qed.

Lemma update_spec n s p l r : 0 < n -> len s = 4 * n -> range n p = Some (l, r) ->
  outc (bad n) (update (Zpos p) l r s) (good_update n p l r s).
Proof.
  intros Hn Hl Hp. pose proof (range_index n p l r Hn Hp) as Hi.
  destruct (Z.lt_ge_cases (2 * Zpos p + 1) (len s)) as [Hb|Hb].
  - destruct (update_ok s p l r Hb) as (s' & Es & Hpush). rewrite Es. cbn [outc].
    destruct (pushed_E s s' p _ Hpush Hb) as [HE HEp]. destruct Hpush as (HL & Hf & Ht & Hfd & Hc & Htc & _).
    assert (Hfield : forall k q, q <> p -> field k (pg s' q) = field k (pg s q)).
    { intros k q N. destruct (Pos.eq_dec q p~0) as [->|N0]; [apply Hc|]. destruct (Pos.eq_dec q p~1) as [->|N1]; [apply Hc|].
      rewrite Hf by assumption. reflexivity. }
    split; try assumption.
    + intros q Hq. apply Hf; intros ->; apply Hq; [apply desc_refl| |]; right; apply desc_refl.
    + intros k q lq rq Hq. unfold eff. destruct (Pos.eq_dec q p) as [->|N].
      * rewrite Hp in Hq. injection Hq as <- <-. rewrite HEp, Hfd, <- ap_comp, <- E_above. reflexivity.
      * rewrite HE, Hfield by assumption. reflexivity.
    + intros k q Hq. apply Hfield. intros ->. lia.
  - assert (Hlr : l = r).
    { pose proof (range_bounds n p Hn l r Hp). destruct (Z.eq_dec l r); [assumption|].
      pose proof (range_index n p~1 _ _ Hn (range_r n p l r Hp ltac:(lia))). lia. }
    subst r. pose proof (update_oob s p l l ltac:(lia) ltac:(lia)) as H.
    destruct (update (Z.pos p) l l s) as [s'| | |]; cbn [outc] in H |- *; try contradiction.
    + destruct H as [-> Ht]. split; try reflexivity; [|assumption].
      rewrite E_above. change (pg s p) with (gt s (Zpos p)). rewrite Ht. apply comp_id_r.
    + exists p, l. split; [assumption|lia].
Qed.

(** ** interval updates *)
Definition tagu (u : change) : Z * Z := match u with Add x => (1, x) | Mul x => (x, 0) end.
Definition covers (lv rv l r : Z) : bool := (lv <=? l) && (r <=? rv).
Record good_interval (n : Z) (u : change) (lv rv : Z) (p : positive) (s s' : tree) : Prop := {
  gi_len : length s' = length s;
  gi_frame : forall q, ~ desc p q -> pg s' q = pg s q;
  gi_eff : forall k q lq rq, desc p q -> range n q = Some (lq, rq) ->
     eff k s' q lq rq = if covers lv rv lq rq then ap k (rq - lq + 1) (tagu u) (eff k s q lq rq) else eff k s q lq rq;
  gi_field : forall k q, 4 * n <= 2 * Zpos q -> field k (pg s' q) = field k (pg s q) }.

Lemma E_mark s s' p t : (forall q, q <> p -> pg s' q = pg s q) -> tag (pg s' p) = t -> above s p = idt -> tag (pg s p) = idt ->
  forall q, desc p q -> E s' q = comp t (E s q).
Proof.
  intros Hf Ht Ha Hi.
  assert (Hp : E s' p = comp t (E s p)).
  { rewrite !E_above. rewrite (above_frame s s' p).
    - rewrite Ha, Hi, Ht, !comp_id_l, comp_id_r. reflexivity.
    - intros q Hq. apply Hf. intros ->. apply Hq, desc_refl. }
  induction q as [q IH|q IH|]; intros Hd.
  - destruct (Pos.eq_dec q~1 p) as [->|N]; [exact Hp|]. destruct Hd as [Hd|Hd]; [congruence|]. cbn [E].
    rewrite (IH Hd), Hf by assumption. symmetry. apply comp_assoc.
  - destruct (Pos.eq_dec q~0 p) as [->|N]; [exact Hp|]. destruct Hd as [Hd|Hd]; [congruence|]. cbn [E].
    rewrite (IH Hd), Hf by assumption. symmetry. apply comp_assoc.
  - destruct Hd as [<-|[]]. exact Hp.
Qed.

Lemma eff_frame n k s s' p q lq rq : (forall q, ~ desc p q -> pg s' q = pg s q) -> ~ desc p q ->
  range n q = Some (lq, rq) -> eff k s' q lq rq = eff k s q lq rq.
Proof. intros F H _. unfold eff. rewrite (E_frame s s' p F q H), (F q H). reflexivity. Qed.

Lemma interval_spec n u lv rv : 0 < n -> forall fuel p l r s, len s = 4 * n -> range n p = Some (l, r) ->
  r - l < Z.of_nat fuel -> lv <= rv -> lv <= r -> l <= rv -> above s p = idt ->
  outc (bad n) (interval fuel u lv rv l r (Zpos p) s) (good_interval n u lv rv p s).
Proof.
  intros Hn. induction fuel as [|f IH]; intros p l r s Hl Hp Hf Hv Hov1 Hov2 Hab;
    pose proof (range_bounds n p Hn l r Hp) as Hlr; [lia|].
  cbn [interval]. apply (outc_bind _ _ _ _ _ (update_spec n s p l r Hn Hl Hp)). intros s1 U.
  pose proof (gu_len _ _ _ _ _ _ U) as L1. pose proof (range_index n p l r Hn Hp) as Hidx.
  assert (Hab1 : above s1 p = idt) by (rewrite (above_frame s s1 p (gu_frame _ _ _ _ _ _ U)); assumption).
  assert (HE1 : E s1 p = idt) by (rewrite (gu_Ep _ _ _ _ _ _ U); assumption).
  destruct ((lv <=? l) && (r <=? rv)) eqn:Ecov.
  - rewrite aget_gt by lia. cbn [bind]. change (gt s1 (Z.pos p)) with (pg s1 p).
    destruct (aset_gt s1 (Zpos p) (mark (pg s1 p) u) ltac:(lia)) as (s2 & E2 & L2 & G2). unfold tree in *. rewrite E2. cbn [outc].
    assert (Hf2 : forall q, q <> p -> pg s2 q = pg s1 q).
    { intros q N. unfold pg. rewrite G2 by lia. destruct (Z.eqb_spec (Zpos q) (Zpos p)) as [Q|]; [injection Q as ->; congruence|reflexivity]. }
    assert (Hp2 : pg s2 p = mark (pg s1 p) u) by (unfold pg at 1; rewrite G2 by lia; now rewrite Z.eqb_refl).
    assert (Ht2 : tag (pg s2 p) = tagu u).
    { rewrite Hp2. pose proof (gu_tag _ _ _ _ _ _ U) as T. unfold tag in *. injection T as T1 T2.
      destruct u; cbn [mark hmul hadd mulf addf tagu]; f_equal; assumption. }
    assert (Hfd : forall k q, field k (pg s2 q) = field k (pg s1 q)).
    { intros k q. destruct (Pos.eq_dec q p) as [->|N]; [|now rewrite Hf2]. rewrite Hp2. destruct u, k; reflexivity. }
    split.
    + congruence.
    + intros q Hq. rewrite Hf2 by (intros ->; apply Hq, desc_refl). now apply (gu_frame _ _ _ _ _ _ U).
    + intros k q lq rq Hd Hq. destruct (range_desc n p Hn q Hd l r lq rq Hp Hq) as [Q1 Q2].
      assert (Hc : covers lv rv lq rq = true) by (unfold covers; lia). rewrite Hc.
      unfold eff at 1. rewrite (E_mark s1 s2 p (tagu u) Hf2 Ht2 Hab1 (gu_tag _ _ _ _ _ _ U) q Hd), Hfd, ap_comp.
      f_equal. apply (gu_eff _ _ _ _ _ _ U k q lq rq Hq).
    + intros k q Hq. rewrite Hfd. now apply (gu_field _ _ _ _ _ _ U).
  - assert (Hlt : l < r).
    { destruct (Z.eq_dec l r) as [->|]; [|lia]. exfalso. apply andb_false_iff in Ecov. lia. }
    cbv zeta. change (Z.shiftr (l + r) 1) with (mid l r). pose proof (mid_bounds l r Hlt) as Hm.
    change (2 * Z.pos p) with (Z.pos p~0). change (Z.pos p~0 + 1) with (Z.pos p~1).
    pose proof (range_l n p l r Hp Hlt) as Hpl. pose proof (range_r n p l r Hp Hlt) as Hpr.
    (* left half *)
    assert (HL : outc (bad n) (if lv <=? mid l r then interval f u lv rv l (mid l r) (Z.pos p~0) s1 else Ok s1)
       (fun s2 => length s2 = length s1 /\ (forall q, ~ desc p~0 q -> pg s2 q = pg s1 q) /\
          (forall k q lq rq, desc p~0 q -> range n q = Some (lq, rq) ->
             eff k s2 q lq rq = if covers lv rv lq rq then ap k (rq - lq + 1) (tagu u) (eff k s1 q lq rq) else eff k s1 q lq rq) /\
          (forall k q, 4 * n <= 2 * Zpos q -> field k (pg s2 q) = field k (pg s1 q)))).
    { destruct (Z.leb_spec lv (mid l r)) as [Hle|Hle].
      - eapply outc_weak; [apply (IH p~0%positive l (mid l r) s1); try assumption; try lia|].
        intros s2 [K1 K2 K3 K4]. auto.
      - cbn [outc]. split; [reflexivity|]. split; [reflexivity|]. split; [|reflexivity].
        intros k q lq rq Hd Hq. pose proof (range_bounds n q Hn lq rq Hq).
        destruct (range_desc n p~0 Hn q Hd l (mid l r) lq rq Hpl Hq).
        replace (covers lv rv lq rq) with false by (unfold covers; lia). reflexivity. }
    apply (outc_bind _ _ _ _ _ HL). clear HL. intros s2 (L2 & F2 & Ef2 & Fd2).
    assert (HE2 : E s2 p = idt) by (rewrite (E_frame s1 s2 _ F2 p (desc_not_self0 p)); assumption).
    assert (HR : outc (bad n) (if mid l r <? rv then interval f u lv rv (mid l r + 1) r (Z.pos p~1) s2 else Ok s2)
       (fun s3 => length s3 = length s2 /\ (forall q, ~ desc p~1 q -> pg s3 q = pg s2 q) /\
          (forall k q lq rq, desc p~1 q -> range n q = Some (lq, rq) ->
             eff k s3 q lq rq = if covers lv rv lq rq then ap k (rq - lq + 1) (tagu u) (eff k s2 q lq rq) else eff k s2 q lq rq) /\
          (forall k q, 4 * n <= 2 * Zpos q -> field k (pg s3 q) = field k (pg s2 q)))).
    { destruct (Z.ltb_spec (mid l r) rv) as [Hle|Hle].
      - eapply outc_weak; [apply (IH p~1%positive (mid l r + 1) r s2); try assumption; try lia|].
        intros s3 [K1 K2 K3 K4]. auto.
      - cbn [outc]. split; [reflexivity|]. split; [reflexivity|]. split; [|reflexivity].
        intros k q lq rq Hd Hq. pose proof (range_bounds n q Hn lq rq Hq).
        destruct (range_desc n p~1 Hn q Hd (mid l r + 1) r lq rq Hpr Hq).
        replace (covers lv rv lq rq) with false by (unfold covers; lia). reflexivity. }
    eapply outc_weak; [exact HR|]. intros s3 (L3 & F3 & Ef3 & Fd3). split.
    + congruence.
    + intros q Hq. rewrite F3 by (intros K; apply Hq; now apply desc_child1).
      rewrite F2 by (intros K; apply Hq; now apply desc_child0). now apply (gu_frame _ _ _ _ _ _ U).
    + intros k q lq rq Hd Hq. rewrite <- (gu_eff _ _ _ _ _ _ U k q lq rq Hq).
      destruct (desc_cases p q Hd) as [->|[Hd'|Hd']].
      * rewrite Hp in Hq. injection Hq as <- <-. unfold covers. rewrite Ecov.
        rewrite (eff_frame n k s2 s3 p~1 p l r F3 (desc_not_self1 p) Hp).
        apply (eff_frame n k s1 s2 p~0 p l r F2 (desc_not_self0 p) Hp).
      * rewrite (eff_frame n k s2 s3 p~1 q lq rq F3) by (assumption || (intros K; exact (desc_disjoint p q Hd' K))).
        now apply Ef2.
      * rewrite (Ef3 k q lq rq Hd' Hq).
        rewrite (eff_frame n k s1 s2 p~0 q lq rq F2) by (assumption || (intros K; exact (desc_disjoint p q K Hd'))).
        reflexivity.
    + intros k q Hq. rewrite Fd3, Fd2 by assumption. now apply (gu_field _ _ _ _ _ _ U).
Qed.

(** ** queries *)
Lemma update_spec_any n : 0 < n -> forall p l r s, True -> len s = 4 * n -> range n p = Some (l, r) ->
  outc (bad n) (update (Zpos p) l r s) (fun s' => good_update n p l r s s' /\ True).
Proof. intros Hn p l r s _ Hl Hp. eapply outc_weak; [now apply update_spec|]. auto. Qed.
Lemma query_spec (B : Prop) (K : tree -> Prop) n k lv rv (P : Z -> Z -> Z -> Prop) : 0 < n ->
  (forall p l r s, K s -> len s = 4 * n -> range n p = Some (l, r) ->
     outc B (update (Zpos p) l r s) (fun s' => good_update n p l r s s' /\ K s')) ->
  (forall a m b x y, a <= m < b -> P a m x -> P (m + 1) b y -> P a b (combine k x y)) ->
  forall fuel p l r s, K s -> len s = 4 * n -> range n p = Some (l, r) ->
  (forall q a b, range n q = Some (a, b) -> lv <= a -> b <= rv -> P a b (eff k s q a b)) ->
  r - l < Z.of_nat fuel -> lv <= rv -> lv <= r -> l <= rv -> above s p = idt ->
  outc B (query fuel k lv rv l r (Zpos p) s) (fun xs =>
    P (Z.max lv l) (Z.min rv r) (fst xs) /\ length (snd xs) = length s /\
    (forall q, ~ desc p q -> pg (snd xs) q = pg s q) /\
    (forall k' q a b, range n q = Some (a, b) -> eff k' (snd xs) q a b = eff k' s q a b) /\ K (snd xs)).
Proof.
  intros Hn HU Hcomb. induction fuel as [|f IH]; intros p l r s HK Hl Hp Hnode Hf Hv Hov1 Hov2 Hab;
    pose proof (range_bounds n p Hn l r Hp) as Hlr; [lia|].
  cbn [query]. apply (outc_bind _ _ _ _ _ (HU p l r s HK Hl Hp)). intros s1 [U HK1].
  pose proof (gu_len _ _ _ _ _ _ U) as L1. pose proof (range_index n p l r Hn Hp) as Hidx.
  assert (HE1 : E s1 p = idt) by (rewrite (gu_Ep _ _ _ _ _ _ U); assumption).
  assert (Hnode1 : forall q a b, range n q = Some (a, b) -> lv <= a -> b <= rv -> P a b (eff k s1 q a b)).
  { intros q a b Hq H1 H2. rewrite (gu_eff _ _ _ _ _ _ U k q a b Hq). now apply Hnode. }
  destruct ((lv <=? l) && (r <=? rv)) eqn:Ecov.
  - rewrite aget_gt by lia. cbn [bind outc fst snd].
    replace (Z.max lv l) with l by lia. replace (Z.min rv r) with r by lia. split; [|split; [assumption|split; [|split; [|assumption]]]].
    + replace (field k (gt s1 (Z.pos p))) with (eff k s1 p l r); [apply Hnode1; [assumption|lia|lia]|].
      unfold eff. rewrite HE1. apply ap_id.
    + apply (gu_frame _ _ _ _ _ _ U).
    + apply (gu_eff _ _ _ _ _ _ U).
  - assert (Hlt : l < r).
    { destruct (Z.eq_dec l r) as [->|]; [|lia]. exfalso. apply andb_false_iff in Ecov. lia. }
    cbv zeta. change (Z.shiftr (l + r) 1) with (mid l r). pose proof (mid_bounds l r Hlt) as Hm.
    change (2 * Z.pos p) with (Z.pos p~0). change (Z.pos p~0 + 1) with (Z.pos p~1).
    pose proof (range_l n p l r Hp Hlt) as Hpl. pose proof (range_r n p l r Hp Hlt) as Hpr.
    destruct (Z.leb_spec rv (mid l r)) as [Hrm|Hrm]; [|destruct (Z.ltb_spec (mid l r) lv) as [Hlm|Hlm]].
    + eapply outc_weak; [apply (IH p~0%positive l (mid l r) s1); try assumption; try lia|].
      intros [x s2] (K1 & K2 & K3 & K4 & K5). cbn [fst snd] in *. split; [|split; [congruence|split; [|split; [|assumption]]]].
      * replace (Z.min rv r) with (Z.min rv (mid l r)) by lia. assumption.
      * intros q Hq. rewrite K3 by (intros Q; apply Hq; now apply desc_child0). now apply (gu_frame _ _ _ _ _ _ U).
      * intros k' q a b Hq. rewrite (K4 k' q a b Hq). now apply (gu_eff _ _ _ _ _ _ U).
    + eapply outc_weak; [apply (IH p~1%positive (mid l r + 1) r s1); try assumption; try lia|].
      intros [x s2] (K1 & K2 & K3 & K4 & K5). cbn [fst snd] in *. split; [|split; [congruence|split; [|split; [|assumption]]]].
      * replace (Z.max lv l) with (Z.max lv (mid l r + 1)) by lia. assumption.
      * intros q Hq. rewrite K3 by (intros Q; apply Hq; now apply desc_child1). now apply (gu_frame _ _ _ _ _ _ U).
      * intros k' q a b Hq. rewrite (K4 k' q a b Hq). now apply (gu_eff _ _ _ _ _ _ U).
    + eapply outc_bind; [apply (IH p~0%positive l (mid l r) s1); try assumption; try lia|].
      intros [x s2] (K1 & K2 & K3 & K4 & K5). cbn [fst snd] in *.
      assert (HL2 : len s2 = 4 * n) by congruence.
      assert (HN2 : forall q a b, range n q = Some (a, b) -> lv <= a -> b <= rv -> P a b (eff k s2 q a b)).
      { intros q a b Hq H1 H2. rewrite (K4 k q a b Hq). now apply Hnode1. }
      assert (HA2 : above s2 p~1 = idt).
      { cbn [above]. rewrite (E_frame s1 s2 _ K3 p (desc_not_self0 p)). assumption. }
      eapply outc_bind; [apply (IH p~1%positive (mid l r + 1) r s2); try assumption; try lia|].
      intros [y s3] (J1 & J2 & J3 & J4 & J5). cbn [fst snd outc] in *. split; [|split; [congruence|split; [|split; [|assumption]]]].
      * apply (Hcomb _ (mid l r)); [lia| |].
        -- replace (mid l r) with (Z.min rv (mid l r)) at 1 by lia. assumption.
        -- replace (mid l r + 1) with (Z.max lv (mid l r + 1)) at 1 by lia. assumption.
      * intros q Hq. rewrite J3 by (intros Q; apply Hq; now apply desc_child1).
        rewrite K3 by (intros Q; apply Hq; now apply desc_child0). now apply (gu_frame _ _ _ _ _ _ U).
      * intros k' q a b Hq. rewrite (J4 k' q a b Hq), (K4 k' q a b Hq). now apply (gu_eff _ _ _ _ _ _ U).
Qed.

(** ** aggregates *)
Lemma rsum_ext n f g l : (forall i, l <= i < l + Z.of_nat n -> f i = g i) -> rsum n f l = rsum n g l.
Proof. revert l; induction n as [|n IH]; intros l H; cbn [rsum]; [reflexivity|]. rewrite H by lia. f_equal. apply IH. intros; apply H; lia. Qed.
Lemma rsum_app n m f l : rsum (n + m) f l = rsum n f l + rsum m f (l + Z.of_nat n).
Proof.
  revert l; induction n as [|n IH]; intros l; cbn [rsum Nat.add].
  - rewrite Z.add_0_r. reflexivity.
  - rewrite IH. replace (l + Z.of_nat (S n)) with (l + 1 + Z.of_nat n) by lia. ring.
Qed.
Lemma rsum_affine n f l m a : rsum n (fun i => f i * m + a) l = rsum n f l * m + a * Z.of_nat n.
Proof. revert l; induction n as [|n IH]; intros l; cbn [rsum]; [lia|]. rewrite IH. lia. Qed.
Lemma answers_combine k f a m b x y : a <= m < b -> answers k f a m x -> answers k f (m + 1) b y -> answers k f a b (combine k x y).
Proof.
  intros H. destruct k; cbn [answers combine].
  - intros ((i & Hi & Ei) & Hx) ((j & Hj & Ej) & Hy). unfold stdmax. destruct (Z.ltb_spec x y); split.
    + exists j. split; [lia|assumption].
    + intros t Ht. destruct (Z.le_gt_cases t m) as [L|L]; [specialize (Hx t)|specialize (Hy t)]; lia.
    + exists i. split; [lia|assumption].
    + intros t Ht. destruct (Z.le_gt_cases t m) as [L|L]; [specialize (Hx t)|specialize (Hy t)]; lia.
  - intros ((i & Hi & Ei) & Hx) ((j & Hj & Ej) & Hy). unfold stdmin. destruct (Z.ltb_spec y x); split.
    + exists j. split; [lia|assumption].
    + intros t Ht. destruct (Z.le_gt_cases t m) as [L|L]; [specialize (Hx t)|specialize (Hy t)]; lia.
    + exists i. split; [lia|assumption].
    + intros t Ht. destruct (Z.le_gt_cases t m) as [L|L]; [specialize (Hx t)|specialize (Hy t)]; lia.
  - intros -> ->. replace (Z.to_nat (b - a + 1)) with (Z.to_nat (m - a + 1) + Z.to_nat (b - (m + 1) + 1))%nat by lia.
    rewrite rsum_app. f_equal. f_equal. lia.
Qed.
Lemma answers_ext k f g l r x : (forall i, l <= i <= r -> f i = g i) -> answers k f l r x -> answers k g l r x.
Proof.
  intros H. destruct k; cbn [answers].
  - intros ((i & Hi & Ei) & Hx). split; [exists i; split; [assumption|rewrite <- H; assumption]|]. intros j Hj. rewrite <- H; auto.
  - intros ((i & Hi & Ei) & Hx). split; [exists i; split; [assumption|rewrite <- H; assumption]|]. intros j Hj. rewrite <- H; auto.
  - intros ->. apply rsum_ext. intros i Hi. apply H. lia.
Qed.
Lemma app1_tagu u x : app1 u x = x * fst (tagu u) + snd (tagu u).
Proof. destruct u; cbn; lia. Qed.
Lemma answers_affine k f l r x u : l <= r -> answers k f l r x ->
  k = QSum \/ l = r \/ 0 <= fst (tagu u) ->
  answers k (fun i => app1 u (f i)) l r (ap k (r - l + 1) (tagu u) x).
Proof.
  intros Hlr Hx Hm. assert (K : forall y, app1 u y = y * fst (tagu u) + snd (tagu u)) by apply app1_tagu.
  destruct k; cbn [answers ap] in *.
  - destruct Hx as ((i & Hi & Ei) & Hx). split.
    + exists i. split; [assumption|]. rewrite K, Ei. reflexivity.
    + intros j Hj. rewrite K. destruct Hm as [Hm|[<-|Hm]]; [discriminate| |].
      * assert (j = l) by lia. assert (i = l) by lia. subst. lia.
      * specialize (Hx j Hj). nia.
  - destruct Hx as ((i & Hi & Ei) & Hx). split.
    + exists i. split; [assumption|]. rewrite K, Ei. reflexivity.
    + intros j Hj. rewrite K. destruct Hm as [Hm|[<-|Hm]]; [discriminate| |].
      * assert (j = l) by lia. assert (i = l) by lia. subst. lia.
      * specialize (Hx j Hj). nia.
  - rewrite Hx. rewrite (rsum_ext _ (fun i => app1 u (f i)) (fun i => f i * fst (tagu u) + snd (tagu u))) by (intros; apply K).
    rewrite rsum_affine. rewrite Z2Nat.id by lia. reflexivity.
Qed.

(** ** building *)
Definition clean (s : tree) : Prop := forall q, hadd (pg s q) = false /\ hmul (pg s q) = false.
Lemma init_spec n v : 0 < n -> len v = n -> forall fuel p l r s, len s = 4 * n -> range n p = Some (l, r) ->
  r - l < Z.of_nat fuel -> clean s ->
  exists s', init fuel v l r (Zpos p) s = Ok s' /\ length s' = length s /\ clean s' /\
    (forall q, ~ desc p q -> pg s' q = pg s q) /\
    (forall k q a b, desc p q -> range n q = Some (a, b) -> answers k (at_ v) a b (field k (pg s' q))).
Proof.
  intros Hn Hv. induction fuel as [|f IH]; intros p l r s Hl Hp Hf Hc; pose proof (range_bounds n p Hn l r Hp) as Hlr; [lia|].
  pose proof (range_index n p l r Hn Hp) as Hidx. cbn [init]. destruct (Z.eqb_spec l r) as [->|Hne].
  - rewrite (aget_ok v r 0) by lia. cbn [bind]. rewrite aget_gt by lia. cbn [bind].
    match goal with |- context [aset s _ ?x] => destruct (aset_gt s (Zpos p) x ltac:(lia)) as (s' & Es & L & G) end.
    exists s'. split; [assumption|]. split; [assumption|].
    assert (Hp' : pg s' p = Cell (at_ v r) (at_ v r) (at_ v r) (addf (gt s (Zpos p))) (mulf (gt s (Zpos p))) false false).
    { unfold pg. rewrite G by lia. rewrite Z.eqb_refl. reflexivity. }
    assert (Hq' : forall q, q <> p -> pg s' q = pg s q).
    { intros q N. unfold pg. rewrite G by lia. destruct (Z.eqb_spec (Zpos q) (Zpos p)) as [Q|]; [injection Q as ->; congruence|reflexivity]. }
    split; [|split].
    + intros q. destruct (Pos.eq_dec q p) as [->|N]; [rewrite Hp'; auto|rewrite Hq' by assumption; apply Hc].
    + intros q Hd. apply Hq'. intros ->. apply Hd, desc_refl.
    + intros k q a b Hd Hq. destruct (Pos.eq_dec q p) as [->|N].
      * rewrite Hp in Hq. injection Hq as <- <-. rewrite Hp'. destruct k; cbn [answers field mn mx sm].
        -- split; [exists r; split; [lia|reflexivity]|]. intros i Hi. assert (i = r) by lia. subst. lia.
        -- split; [exists r; split; [lia|reflexivity]|]. intros i Hi. assert (i = r) by lia. subst. lia.
        -- replace (r - r + 1) with 1 by lia. change (Z.to_nat 1) with 1%nat. cbn [rsum]. lia.
      * exfalso. (* a leaf has no proper descendant node *)
        destruct (desc_cases p q Hd) as [->|[K|K]]; [congruence| |].
        -- assert (R : forall t, desc p~0 t -> range n t = None).
           { induction t as [t IHt|t IHt|]; cbn [desc]; intros [Q|Q]; try discriminate; try contradiction.
             - cbn [range]. rewrite (IHt Q). reflexivity.
             - injection Q as ->. cbn [range]. rewrite Hp. rewrite Z.ltb_irrefl. reflexivity.
             - cbn [range]. rewrite (IHt Q). reflexivity. }
           rewrite (R q K) in Hq. discriminate.
        -- assert (R : forall t, desc p~1 t -> range n t = None).
           { induction t as [t IHt|t IHt|]; cbn [desc]; intros [Q|Q]; try discriminate; try contradiction.
             - injection Q as ->. cbn [range]. rewrite Hp. rewrite Z.ltb_irrefl. reflexivity.
             - cbn [range]. rewrite (IHt Q). reflexivity.
             - cbn [range]. rewrite (IHt Q). reflexivity. }
           rewrite (R q K) in Hq. discriminate.
  - assert (Hlt : l < r) by lia.
    cbv zeta. change (Z.shiftr (l + r) 1) with (mid l r). pose proof (mid_bounds l r Hlt) as Hm.
    change (2 * Z.pos p) with (Z.pos p~0). change (Z.pos p~0 + 1) with (Z.pos p~1).
    pose proof (range_l n p l r Hp Hlt) as Hpl. pose proof (range_r n p l r Hp Hlt) as Hpr.
    destruct (IH p~0%positive l (mid l r) s Hl Hpl ltac:(lia) Hc) as (s1 & E1 & L1 & C1 & F1 & A1). rewrite E1. cbn [bind].
    destruct (IH p~1%positive (mid l r + 1) r s1 ltac:(congruence) Hpr ltac:(lia) C1) as (s2 & E2 & L2 & C2 & F2 & A2). rewrite E2. cbn [bind].
    pose proof (range_index n p~0 _ _ Hn Hpl). pose proof (range_index n p~1 _ _ Hn Hpr).
    assert (Hlen2 : len s2 = 4 * n) by congruence.
    rewrite !aget_gt by lia. cbn [bind].
    change (gt s2 (Z.pos p~0)) with (pg s2 p~0). change (gt s2 (Z.pos p~1)) with (pg s2 p~1). change (gt s2 (Z.pos p)) with (pg s2 p).
    match goal with |- context [aset s2 _ ?x] => set (c := x); destruct (aset_gt s2 (Zpos p) c ltac:(lia)) as (s3 & E3 & L3 & G3) end.
    exists s3. split; [assumption|]. split; [congruence|].
    assert (Hp3 : pg s3 p = c) by (unfold pg at 1; rewrite G3 by lia; now rewrite Z.eqb_refl).
    assert (Hq3 : forall q, q <> p -> pg s3 q = pg s2 q).
    { intros q N. unfold pg. rewrite G3 by lia. destruct (Z.eqb_spec (Zpos q) (Zpos p)) as [Q|]; [injection Q as ->; congruence|reflexivity]. }
    split; [|split].
    + intros q. destruct (Pos.eq_dec q p) as [->|N]; [rewrite Hp3; unfold c; cbn [hadd hmul]; apply C2|rewrite Hq3 by assumption; apply C2].
    + intros q Hd. rewrite Hq3 by (intros ->; apply Hd, desc_refl).
      rewrite F2 by (intros K; apply Hd; now apply desc_child1). apply F1. intros K; apply Hd; now apply desc_child0.
    + intros k q a b Hd Hq. destruct (desc_cases p q Hd) as [->|[K|K]].
      * rewrite Hp in Hq. injection Hq as <- <-. rewrite Hp3.
        assert (P0 : answers k (at_ v) l (mid l r) (field k (pg s2 p~0))).
        { rewrite F2 by (intros Q; apply (desc_disjoint p p~0); [apply desc_refl|exact Q]). apply A1; [apply desc_refl|assumption]. }
        assert (P1 : answers k (at_ v) (mid l r + 1) r (field k (pg s2 p~1))) by (apply A2; [apply desc_refl|assumption]).
        pose proof (answers_combine k (at_ v) l (mid l r) r _ _ Hm P0 P1) as P. unfold c. destruct k; exact P.
      * rewrite Hq3 by (intros ->; now apply (desc_not_self0 p)).
        rewrite F2 by (intros Q; exact (desc_disjoint p q K Q)). now apply A1.
      * rewrite Hq3 by (intros ->; now apply (desc_not_self1 p)). now apply A2.
Qed.

Lemma clean_E s : clean s -> forall q, E s q = idt.
Proof.
  intros H. induction q as [q IH|q IH|]; cbn [E]; destruct (H xH) as [H1 H2]; try rewrite IH, comp_id_l;
   apply tag_idt; apply H.
Qed.
Lemma build_spec v : v <> [] -> exists s, build v = Ok s /\ len s = 4 * len v /\ clean s /\
  (forall k q a b, range (len v) q = Some (a, b) -> answers k (at_ v) a b (field k (pg s q))).
Proof.
  intros Hv. assert (Hn : 0 < len v) by (destruct v; [congruence|cbn [length]; lia]).
  unfold build. cbv zeta. set (x := hd 0 v). set (s0 := repeat (Cell x x x x x false false) (4 * length v)).
  destruct (init_spec (len v) v Hn eq_refl (S (length v)) xH 0 (len v - 1) s0) as (s & E0 & L & C & F & A).
  - unfold s0. rewrite repeat_length. lia.
  - reflexivity.
  - lia.
  - intros q. unfold pg, gt, s0. destruct (Nat.lt_ge_cases (Z.to_nat (Z.pos q)) (4 * length v)) as [K|K].
    + rewrite (nth_indep _ c0 (Cell x x x x x false false)) by (now rewrite repeat_length). rewrite nth_repeat. auto.
    + rewrite nth_overflow by (now rewrite repeat_length). auto.
  - exists s. split; [exact E0|]. split; [rewrite L; unfold s0; rewrite repeat_length; lia|]. split; [assumption|].
    intros k q a b Hq. apply A; [|assumption]. clear. induction q; cbn [desc]; auto.
Qed.

(** ** histories *)
Definition hist1 (k : kind) (l r : Z) (x : Z) (c : call) : Z :=
  match c with
  | CQuery _ _ _ => x
  | CUpdate u lv rv => if covers lv rv l r then ap k (r - l + 1) (tagu u) x else x
  end.
Definition hinv (n : Z) (g : kind -> Z -> Z -> Z) (s : tree) : Prop :=
  len s = 4 * n /\ forall k q a b, range n q = Some (a, b) -> eff k s q a b = g k a b.
Lemma size_of n s : len s = 4 * n -> size s = n.
Proof. intros H. unfold size. rewrite H, Z.mul_comm. apply Z.div_mul. lia. Qed.
Lemma desc_root q : desc xH q.
Proof. induction q; cbn [desc]; auto. Qed.
Lemma step_hinv n g s c : 0 < n -> hinv n g s -> valid_call n c ->
  outc (bad n) (step c s) (hinv n (fun k a b => hist1 k a b (g k a b) c)).
Proof.
  intros Hn (Hl & Hg) Hc. destruct c as [k lv rv|u lv rv]; cbn [valid_call] in Hc; destruct Hc as (H1 & H2 & H3); cbn [step hist1].
  - unfold query0. rewrite (size_of n s Hl). eapply outc_bind.
    + apply (query_spec (bad n) (fun _ => True) n k lv rv (fun _ _ _ => True) Hn (update_spec_any n Hn) ltac:(auto) _ xH 0 (n - 1) s I Hl eq_refl); auto; lia.
    + intros [x s'] (_ & L & _ & Hq & _). cbn [fst snd outc] in *. split; [congruence|].
      intros k' q a b Hr. rewrite (Hq k' q a b Hr). now apply Hg.
  - unfold interval0. rewrite (size_of n s Hl). eapply outc_weak.
    + apply (interval_spec n u lv rv Hn _ xH 0 (n - 1) s Hl eq_refl); auto; lia.
    + intros s' [L _ He _]. split; [congruence|]. intros k q a b Hr. rewrite (He k q a b (desc_root q) Hr), (Hg k q a b Hr). reflexivity.
Qed.
Lemma hinv_ext n g g' s : hinv n g s -> (forall k a b, g k a b = g' k a b) -> hinv n g' s.
Proof. intros (H1 & H2) H. split; [assumption|]. intros. rewrite <- H. now apply H2. Qed.
Lemma run_hinv n cs : 0 < n -> Forall (valid_call n) cs -> forall g s, hinv n g s ->
  outc (bad n) (run cs s) (hinv n (fun k a b => fold_left (hist1 k a b) cs (g k a b))).
Proof.
  intros Hn. induction 1 as [|c cs Hc Hcs IH]; intros g s Hs; cbn [run].
  - exact Hs.
  - eapply outc_bind; [apply (step_hinv n g s c Hn Hs Hc)|]. intros s' Hs'. apply (IH _ s' Hs').
Qed.
(** all-or-nothing updates keep the aggregate of [l, r] right *)
Lemma hist_answers k l r cs : l <= r -> Forall (all_or_nothing l r) cs -> Forall (monotone k l r) cs ->
  forall f x, answers k f l r x -> answers k (after cs f) l r (fold_left (hist1 k l r) cs x).
Proof.
  intros Hlr HA HM. induction HA as [|c cs Hc Hcs IH]; intros f x Hx; [exact Hx|].
  inversion HM as [|? ? Hm HM']; subst. unfold after in *. cbn [fold_left]. apply IH; [assumption|].
  destruct c as [k' lv rv|u lv rv]; cbn [hist1 after1 all_or_nothing monotone] in *; [exact Hx|].
  unfold covers. destruct ((lv <=? l) && (r <=? rv)) eqn:Ec.
  - apply (answers_ext k (fun i => app1 u (f i))).
    + intros i Hi. cbn [after1]. replace ((lv <=? i) && (i <=? rv)) with true by lia. reflexivity.
    + apply answers_affine; [assumption|assumption|]. destruct u as [a|m]; cbn [tagu fst]; [right; right; lia|].
      destruct Hm as [Hm|[Hm|[Hm|[Hm|Hm]]]]; auto; exfalso; lia.
  - apply (answers_ext k f); [|assumption]. intros i Hi. cbn [after1].
    replace ((lv <=? i) && (i <=? rv)) with false by (apply andb_false_iff in Ec; lia). reflexivity.
Qed.
Lemma fold_narrow_aon l r a b cs : l <= a -> b <= r -> Forall (all_or_nothing l r) cs -> Forall (all_or_nothing a b) cs.
Proof. intros H1 H2. apply Forall_impl. intros [|u lv rv]; cbn; lia. Qed.
Lemma fold_narrow_mono k l r a b cs : l <= a -> a <= b -> b <= r -> Forall (monotone k l r) cs -> Forall (monotone k a b) cs.
Proof. intros H1 H2 H3. apply Forall_impl. intros [|[x|m] lv rv]; cbn; intuition lia. Qed.

Theorem history_query v cs k lv rv : v <> [] -> let n := len v in
  Forall (valid_call n) cs -> valid_range n lv rv ->
  Forall (all_or_nothing lv rv) cs -> Forall (monotone k lv rv) cs ->
  outc (bad n) (s <- build v ;; s <- run cs s ;; query0 k lv rv s)
       (fun xs => answers k (after cs (at_ v)) lv rv (fst xs)).
Proof.
  intros Hv n Hcs (H1 & H2 & H3) HA HM. assert (Hn : 0 < n) by (unfold n; destruct v; [congruence|cbn [length]; lia]).
  destruct (build_spec v Hv) as (s0 & E0 & L0 & C0 & A0). rewrite E0. cbn [bind]. fold n in L0, A0.
  (* initial aggregates, looked up by range *)
  assert (Heff : forall k q a b, range n q = Some (a, b) -> answers k (at_ v) a b (eff k s0 q a b)).
  { intros k' q a b Hq. unfold eff. rewrite (clean_E s0 C0), ap_id. now apply A0. }
  set (g := fun (k : kind) (a b : Z) => match k with
       | QSum => rsum (Z.to_nat (b - a + 1)) (at_ v) a
       | QMax => fold_right Z.max (at_ v a) (map (fun i => at_ v (a + Z.of_nat i)) (seq 0 (Z.to_nat (b - a + 1))))
       | QMin => fold_right Z.min (at_ v a) (map (fun i => at_ v (a + Z.of_nat i)) (seq 0 (Z.to_nat (b - a + 1))))
       end).
  assert (Huniq : forall k a b x y, answers k (at_ v) a b x -> answers k (at_ v) a b y -> x = y).
  { intros [] a b x y; cbn [answers].
    - intros ((i & Hi & Ei) & Hx) ((j & Hj & Ej) & Hy). specialize (Hx j Hj). specialize (Hy i Hi). lia.
    - intros ((i & Hi & Ei) & Hx) ((j & Hj & Ej) & Hy). specialize (Hx j Hj). specialize (Hy i Hi). lia.
    - congruence. }
  assert (Hmax : forall a m, answers QMax (at_ v) a (a + Z.of_nat m) (fold_right Z.max (at_ v a) (map (fun i => at_ v (a + Z.of_nat i)) (seq 0 (S m))))).
  { intros a m. cbn [answers].
    assert (K : forall l, (exists i, In i (0%nat :: l) /\ at_ v (a + Z.of_nat i) = fold_right Z.max (at_ v a) (map (fun i => at_ v (a + Z.of_nat i)) l)) /\
       forall i, In i (0%nat :: l) -> at_ v (a + Z.of_nat i) <= fold_right Z.max (at_ v a) (map (fun i => at_ v (a + Z.of_nat i)) l)).
    { induction l as [|h l ((i & Hi & Ei) & Hall)]; cbn [map fold_right].
      - split; [exists 0%nat; split; [now left|f_equal; lia]|]. intros i [<-|[]]. rewrite Z.add_0_r. lia.
      - split.
        + destruct (Z.max_spec (at_ v (a + Z.of_nat h)) (fold_right Z.max (at_ v a) (map (fun i => at_ v (a + Z.of_nat i)) l))) as [[? ->]|[? ->]].
          * exists i. split; [|assumption]. destruct Hi as [<-|Hi]; [now left|right; now right].
          * exists h. split; [right; now left|reflexivity].
        + intros t [<-|[<-|Ht]]; [specialize (Hall 0%nat (or_introl eq_refl)); lia|lia|specialize (Hall t (or_intror Ht)); lia]. }
    destruct (K (seq 0 (S m))) as ((i & Hi & Ei) & Hall). split.
    - exists (a + Z.of_nat i). split; [|assumption]. destruct Hi as [<-|Hi]; [lia|]. apply in_seq in Hi. lia.
    - intros i' Hi'. replace i' with (a + Z.of_nat (Z.to_nat (i' - a))) by lia. apply Hall. right. apply in_seq. lia. }
  assert (Hmin : forall a m, answers QMin (at_ v) a (a + Z.of_nat m) (fold_right Z.min (at_ v a) (map (fun i => at_ v (a + Z.of_nat i)) (seq 0 (S m))))).
  { intros a m. cbn [answers].
    assert (K : forall l, (exists i, In i (0%nat :: l) /\ at_ v (a + Z.of_nat i) = fold_right Z.min (at_ v a) (map (fun i => at_ v (a + Z.of_nat i)) l)) /\
       forall i, In i (0%nat :: l) -> fold_right Z.min (at_ v a) (map (fun i => at_ v (a + Z.of_nat i)) l) <= at_ v (a + Z.of_nat i)).
    { induction l as [|h l ((i & Hi & Ei) & Hall)]; cbn [map fold_right].
      - split; [exists 0%nat; split; [now left|f_equal; lia]|]. intros i [<-|[]]. rewrite Z.add_0_r. lia.
      - split.
        + destruct (Z.min_spec (at_ v (a + Z.of_nat h)) (fold_right Z.min (at_ v a) (map (fun i => at_ v (a + Z.of_nat i)) l))) as [[? ->]|[? ->]].
          * exists h. split; [right; now left|reflexivity].
          * exists i. split; [|assumption]. destruct Hi as [<-|Hi]; [now left|right; now right].
        + intros t [<-|[<-|Ht]]; [specialize (Hall 0%nat (or_introl eq_refl)); lia|lia|specialize (Hall t (or_intror Ht)); lia]. }
    destruct (K (seq 0 (S m))) as ((i & Hi & Ei) & Hall). split.
    - exists (a + Z.of_nat i). split; [|assumption]. destruct Hi as [<-|Hi]; [lia|]. apply in_seq in Hi. lia.
    - intros i' Hi'. replace i' with (a + Z.of_nat (Z.to_nat (i' - a))) by lia. apply Hall. right. apply in_seq. lia. }
  assert (Hg : forall k a b, a <= b -> answers k (at_ v) a b (g k a b)).
  { intros k' a b Hab. assert (Hw : Z.to_nat (b - a + 1) = S (Z.to_nat (b - a))) by lia.
    destruct k'; unfold g; [| |reflexivity]; rewrite Hw.
    - replace b with (a + Z.of_nat (Z.to_nat (b - a))) at 1 by lia. apply Hmax.
    - replace b with (a + Z.of_nat (Z.to_nat (b - a))) at 1 by lia. apply Hmin. }
  assert (Hinv0 : hinv n g s0).
  { split; [assumption|]. intros k' q a b Hq. apply (Huniq k' a b); [now apply Heff|]. apply Hg.
    pose proof (range_bounds n q Hn a b Hq). lia. }
  eapply outc_bind; [apply (run_hinv n cs Hn Hcs g s0 Hinv0)|]. intros s (Ls & Hs).
  unfold query0. rewrite (size_of n s Ls).
  eapply outc_weak; [apply (query_spec (bad n) (fun _ => True) n k lv rv (fun a b x => answers k (after cs (at_ v)) a b x) Hn (update_spec_any n Hn)
      (fun a m b x y => answers_combine k _ a m b x y) _ xH 0 (n - 1) s I Ls eq_refl)|]; auto; try lia.
  - intros q a b Hq Ha Hb. rewrite (Hs k q a b Hq). pose proof (range_bounds n q Hn a b Hq).
    apply hist_answers; [lia| | |apply Hg; lia].
    + now apply (fold_narrow_aon lv rv).
    + apply (fold_narrow_mono k lv rv); try assumption; lia.
  - intros [x s'] (K & _). cbn [fst] in *. replace (Z.max lv 0) with lv in K by lia. replace (Z.min rv (n - 1)) with rv in K by lia. exact K.
Qed.

(** ** fresh trees: nothing is pending, nothing is pushed *)
Lemma update_clean n : 0 < n -> forall p l r s, clean s -> len s = 4 * n -> range n p = Some (l, r) ->
  outc False (update (Zpos p) l r s) (fun s' => good_update n p l r s s' /\ clean s').
Proof.
  intros Hn p l r s Hc Hl Hp. pose proof (range_index n p l r Hn Hp). unfold update.
  rewrite aget_gt by lia. cbn [bind]. destruct (Hc p) as [H1 H2]. unfold pg in H1, H2. rewrite H2. cbn [bind].
  rewrite aget_gt by lia. cbn [bind]. rewrite H1. cbn [outc]. split; [|assumption].
  split; try reflexivity.
  - rewrite E_above. rewrite (tag_idt (pg s p)) by (apply Hc). apply comp_id_r.
  - apply tag_idt; apply Hc.
Qed.
Theorem fresh_query v k lv rv : v <> [] -> valid_range (len v) lv rv ->
  exists s x s', build v = Ok s /\ query0 k lv rv s = Ok (x, s') /\ answers k (at_ v) lv rv x.
Proof.
  intros Hv (H1 & H2 & H3). assert (Hn : 0 < len v) by lia.
  destruct (build_spec v Hv) as (s0 & E0 & L0 & C0 & A0). exists s0.
  assert (Q : outc False (query0 k lv rv s0) (fun xs => answers k (at_ v) lv rv (fst xs))).
  { unfold query0. rewrite (size_of _ _ L0).
    eapply outc_weak; [apply (query_spec False clean (len v) k lv rv (fun a b x => answers k (at_ v) a b x) Hn (update_clean _ Hn)
      (fun a m b x y => answers_combine k _ a m b x y) _ xH 0 (len v - 1) s0 C0 L0 eq_refl)|]; auto; try lia.
    - intros q a b Hq _ _. unfold eff. rewrite (clean_E s0 C0), ap_id. now apply A0.
    - intros [x s'] (K & _). cbn [fst] in *. replace (Z.max lv 0) with lv in K by lia.
      replace (Z.min rv (len v - 1)) with rv in K by lia. exact K. }
  destruct (query0 k lv rv s0) as [[x s']| | |] eqn:Eq; cbn [outc fst] in Q; try contradiction.
  exists x, s'. auto.
Qed.
