(** Lemmas for segment trees over an arbitrary value type. *)
From Verif Require Import Base SegModel SegSpec SegProofs SegAnyModel SegAnySpec.
Local Open Scope Z_scope.

Lemma bracketed_weak {T} (op : T -> T -> T) f h l r x : bracketed op f h l r x -> forall h', (h <= h')%nat -> bracketed op f h' l r x.
Proof.
  induction 1 as [h l|h l m r x y Hm A IHA B IHB]; intros h' Hh; [constructor|].
  destruct h' as [|h']; [lia|]. apply two_parts with m; auto with arith.
Qed.
Lemma bracketed_range {T} (op : T -> T -> T) f h l r x : bracketed op f h l r x -> l <= r.
Proof. induction 1; lia. Qed.
Lemma bracketed_invariant {T} (op : T -> T -> T) f (I : T -> Prop) h l r x : bracketed op f h l r x ->
  (forall i, l <= i <= r -> I (f i)) -> (forall a b, I a -> I b -> I (op a b)) -> I x.
Proof.
  induction 1 as [h l|h l m r x y Hm A IHA B IHB]; intros Hf Ho; [apply Hf; lia|].
  apply bracketed_range in A, B. apply Ho; [apply IHA|apply IHB]; auto; intros; apply Hf; lia.
Qed.

Section Any.
Context {T : Type} (ty : ops T) (d : T).
Notation gl := (@gtree T).
Definition e0 : gcell T := GCell d d d d d false false.
Definition ng (s : gl) (p : positive) : gcell T := nth (Z.to_nat (Zpos p)) s e0.
Definition op (k : kind) : T -> T -> T := gcombine ty k.
Definition quiet (s : gl) : Prop := forall q, ghadd (ng s q) = false /\ ghmul (ng s q) = false.

Lemma aset_ng (s : gl) p x : Zpos p < len s ->
  exists s', aset s (Zpos p) x = Ok s' /\ length s' = length s /\ ng s' p = x /\ forall q, q <> p -> ng s' q = ng s q.
Proof.
  intros H. rewrite aset_ok by lia. eexists. split; [reflexivity|]. split; [apply upd_length|]. unfold ng. split.
  - apply nth_upd_eq. lia.
  - intros q N. apply nth_upd_neq. lia.
Qed.
Lemma aget_ng (s : gl) p : Zpos p < len s -> aget s (Zpos p) = Ok (ng s p).
Proof. intros H. apply aget_ok. lia. Qed.

(** nodes are at most as high as their width asks for *)
Lemma half_width l r h : l < r -> r - l + 1 <= 2 ^ Z.of_nat (S h) -> mid l r - l + 1 <= 2 ^ Z.of_nat h /\ r - (mid l r + 1) + 1 <= 2 ^ Z.of_nat h.
Proof.
  intros Hlr H. rewrite Nat2Z.inj_succ, Z.pow_succ_r in H by lia. rewrite mid_div.
  pose proof (Z_div_mod_eq_full (l + r) 2). pose proof (Z.mod_pos_bound (l + r) 2). lia.
Qed.

Lemma no_deeper n p q l a b : range n p = Some (l, l) -> desc p q -> range n q = Some (a, b) -> q = p.
Proof.
  intros Hp Hd Hq. destruct (desc_cases p q Hd) as [->|[K|K]]; [reflexivity| |]; exfalso.
  - assert (R : forall t, desc p~0 t -> range n t = None).
    { induction t as [t IHt|t IHt|]; cbn [desc]; intros [Q|Q]; try discriminate; try contradiction.
      - cbn [range]. rewrite (IHt Q). reflexivity.
      - injection Q as ->. cbn [range]. rewrite Hp. rewrite Z.ltb_irrefl. reflexivity.
      - cbn [range]. rewrite (IHt Q). reflexivity. }
    rewrite (R q K) in Hq. discriminate.
  - assert (R : forall t, desc p~1 t -> range n t = None).
    { induction t as [t IHt|t IHt|]; cbn [desc]; intros [Q|Q]; try discriminate; try contradiction.
      - injection Q as ->. cbn [range]. rewrite Hp. rewrite Z.ltb_irrefl. reflexivity.
      - cbn [range]. rewrite (IHt Q). reflexivity.
      - cbn [range]. rewrite (IHt Q). reflexivity. }
    rewrite (R q K) in Hq. discriminate.
Qed.

(** what a node holds *)
Definition holds (v : list T) (a b : Z) (c : gcell T) : Prop :=
  forall k h, b - a + 1 <= 2 ^ Z.of_nat h -> bracketed (op k) (nth_of v d) h a b (gfield k c).
Lemma ginit_spec n v : 0 < n -> len v = n -> forall fuel p l r (s : gl), len s = 4 * n -> range n p = Some (l, r) ->
  r - l < Z.of_nat fuel -> quiet s ->
  exists s', ginit ty fuel v l r (Zpos p) s = Ok s' /\ length s' = length s /\ quiet s' /\
    (forall q, ~ desc p q -> ng s' q = ng s q) /\
    (forall q a b, desc p q -> range n q = Some (a, b) -> holds v a b (ng s' q)).
Proof.
  intros Hn Hv. induction fuel as [|f IH]; intros p l r s Hl Hp Hf Hc; pose proof (range_bounds n p Hn l r Hp) as Hlr; [lia|].
  pose proof (range_index n p l r Hn Hp) as Hidx. cbn [ginit]. destruct (Z.eqb_spec l r) as [->|Hne].
  - rewrite (aget_ok v r d) by lia. cbn [bind]. rewrite aget_ng by lia. cbn [bind].
    match goal with |- context [aset s _ ?x] => destruct (aset_ng s p x ltac:(lia)) as (s' & Es & L & Hp' & Hq') end.
    exists s'. split; [assumption|]. split; [assumption|].
    split; [|split].
    + intros q. destruct (Pos.eq_dec q p) as [->|N]; [rewrite Hp'; auto|rewrite Hq' by assumption; apply Hc].
    + intros q Hd. apply Hq'. intros ->. apply Hd, desc_refl.
    + intros q a b Hd Hq. pose proof (no_deeper n p q r a b Hp Hd Hq) as ->.
      rewrite Hp in Hq. injection Hq as <- <-. rewrite Hp'. intros k h _. destruct k; cbn [gfield gmn gmx gsm]; apply (one_value (op _) (nth_of v d) h r).
  - assert (Hlt : l < r) by lia.
    cbv zeta. change (Z.shiftr (l + r) 1) with (mid l r). pose proof (mid_bounds l r Hlt) as Hm.
    change (2 * Z.pos p) with (Z.pos p~0). change (Z.pos p~0 + 1) with (Z.pos p~1).
    pose proof (range_l n p l r Hp Hlt) as Hpl. pose proof (range_r n p l r Hp Hlt) as Hpr.
    destruct (IH p~0%positive l (mid l r) s Hl Hpl ltac:(lia) Hc) as (s1 & E1 & L1 & C1 & F1 & A1). rewrite E1. cbn [bind].
    destruct (IH p~1%positive (mid l r + 1) r s1 ltac:(congruence) Hpr ltac:(lia) C1) as (s2 & E2 & L2 & C2 & F2 & A2). rewrite E2. cbn [bind].
    pose proof (range_index n p~0 _ _ Hn Hpl). pose proof (range_index n p~1 _ _ Hn Hpr).
    assert (Hlen2 : len s2 = 4 * n) by congruence.
    rewrite !aget_ng by lia. cbn [bind].
    match goal with |- context [aset s2 _ ?x] => set (c := x); destruct (aset_ng s2 p c ltac:(lia)) as (s3 & E3 & L3 & Hp3 & Hq3) end.
    exists s3. split; [assumption|]. split; [congruence|].
    split; [|split].
    + intros q. destruct (Pos.eq_dec q p) as [->|N]; [rewrite Hp3; unfold c; cbn [ghadd ghmul]; apply C2|rewrite Hq3 by assumption; apply C2].
    + intros q Hd. rewrite Hq3 by (intros ->; apply Hd, desc_refl).
      rewrite F2 by (intros K; apply Hd; now apply desc_child1). apply F1. intros K; apply Hd; now apply desc_child0.
    + intros q a b Hd Hq. destruct (desc_cases p q Hd) as [->|[K|K]].
      * rewrite Hp in Hq. injection Hq as <- <-. rewrite Hp3. intros k h Hh. destruct h as [|h]; [change (2 ^ Z.of_nat 0) with 1 in Hh; lia|].
        destruct (half_width l r h Hlt Hh) as [H1 H2].
        assert (P0 : bracketed (op k) (nth_of v d) h l (mid l r) (gfield k (ng s2 p~0))).
        { rewrite F2 by (intros Q; apply (desc_disjoint p p~0); [apply desc_refl|exact Q]). apply A1; [apply desc_refl|assumption|assumption]. }
        assert (P1 : bracketed (op k) (nth_of v d) h (mid l r + 1) r (gfield k (ng s2 p~1))) by (apply A2; [apply desc_refl|assumption|assumption]).
        replace (gfield k c) with (op k (gfield k (ng s2 p~0)) (gfield k (ng s2 p~1))) by (destruct k; reflexivity).
        now apply two_parts with (mid l r).
      * rewrite Hq3 by (intros ->; now apply (desc_not_self0 p)).
        rewrite F2 by (intros Q; exact (desc_disjoint p q K Q)). now apply A1.
      * rewrite Hq3 by (intros ->; now apply (desc_not_self1 p)). now apply A2.
Qed.

Lemma gbuild_spec v : v <> [] -> exists s : gl, gbuild ty v = Ok s /\ len s = 4 * len v /\ quiet s /\
  (forall q a b, range (len v) q = Some (a, b) -> holds v a b (ng s q)).
Proof.
  intros Hv. assert (Hn : 0 < len v) by (destruct v; [congruence|cbn [length]; lia]).
  assert (exists x, gbuild ty v = ginit ty (S (length v)) v 0 (len v - 1) 1 (repeat (GCell x x x x x false false) (4 * length v))) as (x & E).
  { destruct v as [|x v']; [congruence|]. exists x. reflexivity. }
  rewrite E. set (s0 := repeat (GCell x x x x x false false) (4 * length v)).
  destruct (ginit_spec (len v) v Hn eq_refl (S (length v)) xH 0 (len v - 1) s0) as (s & E0 & L & C & F & A).
  - unfold s0. rewrite repeat_length. lia.
  - reflexivity.
  - lia.
  - intros q. unfold ng, s0. destruct (Nat.lt_ge_cases (Z.to_nat (Z.pos q)) (4 * length v)) as [K|K].
    + rewrite (nth_indep _ e0 (GCell x x x x x false false)) by (now rewrite repeat_length). rewrite nth_repeat. auto.
    + rewrite nth_overflow by (now rewrite repeat_length). auto.
  - exists s. split; [exact E0|]. split; [rewrite L; unfold s0; rewrite repeat_length; lia|]. split; [assumption|].
    intros q a b Hq. apply A; [|assumption]. clear. induction q; cbn [desc]; auto.
Qed.

(** queries on a tree without pending changes leave it alone *)
Lemma gupdate_quiet p l r (s : gl) : quiet s -> Zpos p < len s -> gupdate ty (Zpos p) l r s = Ok s.
Proof.
  intros Q H. unfold gupdate. cbv zeta. rewrite aget_ng by assumption. cbn [bind]. destruct (Q p) as [Qa Qm]. rewrite Qm. cbn [bind].
  rewrite aget_ng by assumption. cbn [bind]. now rewrite Qa.
Qed.
Lemma gquery_spec n v s : 0 < n -> len s = 4 * n -> quiet s -> (forall q a b, range n q = Some (a, b) -> holds v a b (ng s q)) ->
  forall fuel k lv rv p l r, range n p = Some (l, r) -> r - l < Z.of_nat fuel -> lv <= r -> l <= rv -> lv <= rv ->
  exists x, gquery ty fuel k lv rv l r (Zpos p) s = Ok (x, s) /\
    forall h, r - l + 1 <= 2 ^ Z.of_nat h -> bracketed (op k) (nth_of v d) h (Z.max lv l) (Z.min rv r) x.
Proof.
  intros Hn Hs Hq Ha. induction fuel as [|f IH]; intros k lv rv p l r Hp Hf H1 H2 H3; pose proof (range_bounds n p Hn l r Hp) as Hlr; [lia|].
  pose proof (range_index n p l r Hn Hp) as Hidx. cbn [gquery]. rewrite gupdate_quiet by (assumption || lia). cbn [bind].
  destruct (Z.leb_spec lv l) as [La|La], (Z.leb_spec r rv) as [Lb|Lb]; cbn [andb].
  { rewrite aget_ng by lia. cbn [bind]. eexists. split; [reflexivity|]. intros h Hh.
    replace (Z.max lv l) with l by lia. replace (Z.min rv r) with r by lia. now apply Ha with (1 := Hp). }
  all: assert (Hlt : l < r) by lia; cbv zeta; change (Z.shiftr (l + r) 1) with (mid l r); pose proof (mid_bounds l r Hlt) as Hm;
    change (2 * Z.pos p) with (Z.pos p~0); change (Z.pos p~0 + 1) with (Z.pos p~1);
    pose proof (range_l n p l r Hp Hlt) as Hpl; pose proof (range_r n p l r Hp Hlt) as Hpr;
    (destruct (Z.leb_spec rv (mid l r)) as [C|C];
     [destruct (IH k lv rv p~0%positive l (mid l r) Hpl ltac:(lia) ltac:(lia) ltac:(lia) H3) as (x & E & B); exists x; (split; [exact E|]);
      intros h Hh; (destruct h as [|h]; [change (2 ^ Z.of_nat 0) with 1 in Hh; lia|]); destruct (half_width l r h Hlt Hh) as [W1 W2];
      replace (Z.min rv r) with (Z.min rv (mid l r)) by lia; apply bracketed_weak with h; [apply B; assumption|lia]|];
     destruct (Z.ltb_spec (mid l r) lv) as [D|D];
     [destruct (IH k lv rv p~1%positive (mid l r + 1) r Hpr ltac:(lia) ltac:(lia) ltac:(lia) H3) as (x & E & B); exists x; (split; [exact E|]);
      intros h Hh; (destruct h as [|h]; [change (2 ^ Z.of_nat 0) with 1 in Hh; lia|]); destruct (half_width l r h Hlt Hh) as [W1 W2];
      replace (Z.max lv l) with (Z.max lv (mid l r + 1)) by lia; apply bracketed_weak with h; [apply B; assumption|lia]|];
     destruct (IH k lv rv p~0%positive l (mid l r) Hpl ltac:(lia) ltac:(lia) ltac:(lia) H3) as (x & E & B); rewrite E; cbn [bind];
     destruct (IH k lv rv p~1%positive (mid l r + 1) r Hpr ltac:(lia) ltac:(lia) ltac:(lia) H3) as (y & E' & B'); rewrite E'; cbn [bind];
     eexists; (split; [reflexivity|]); intros h Hh; (destruct h as [|h]; [change (2 ^ Z.of_nat 0) with 1 in Hh; lia|]);
     destruct (half_width l r h Hlt Hh) as [W1 W2]; specialize (B h W1); specialize (B' h W2);
     replace (Z.min rv (mid l r)) with (mid l r) in B by lia; replace (Z.max lv (mid l r + 1)) with (mid l r + 1) in B' by lia;
     apply two_parts with (mid l r); [lia|exact B|exact B']).
Qed.
Lemma height_width n : 0 < n -> n <= 2 ^ Z.of_nat (height n).
Proof. intros H. unfold height. rewrite Z2Nat.id by apply Z.log2_up_nonneg. destruct (Z.eq_dec n 1) as [->|]; [cbn; lia|]. apply Z.log2_log2_up_spec. assumption. Qed.
Lemma gquery0_spec v (s : gl) k lv rv : v <> [] -> len s = 4 * len v -> quiet s ->
  (forall q a b, range (len v) q = Some (a, b) -> holds v a b (ng s q)) -> valid_range (len v) lv rv ->
  exists x, gquery0 ty k lv rv s = Ok (x, s) /\ bracketed (op k) (nth_of v d) (height (len v)) lv rv x.
Proof.
  intros Hv Hl Hq Ha (V1 & V2 & V3). assert (Hn : 0 < len v) by (destruct v; [congruence|cbn [length]; lia]).
  unfold gquery0. assert (gsize s = len v) as -> by (unfold gsize; rewrite Hl; rewrite Z.mul_comm; apply Z.div_mul; lia).
  destruct (gquery_spec (len v) v s Hn Hl Hq Ha (S (length s)) k lv rv xH 0 (len v - 1) eq_refl) as (x & E & B); try lia.
  exists x. split; [exact E|]. pose proof (height_width (len v) Hn) as W. specialize (B (height (len v)) ltac:(lia)).
  replace (Z.max lv 0) with lv in B by lia. replace (Z.min rv (len v - 1)) with rv in B by lia. exact B.
Qed.
Lemma grun_quiet v (s : gl) : v <> [] -> len s = 4 * len v -> quiet s ->
  (forall q a b, range (len v) q = Some (a, b) -> holds v a b (ng s q)) ->
  forall cs, only_queries (len v) cs -> grun ty cs s = Ok s.
Proof.
  intros Hv Hl Hq Ha. induction cs as [|c cs IH]; intros H; [reflexivity|]. inversion H as [|? ? H1 H2]; subst. cbn [grun].
  destruct c as [k lv rv|u lv rv]; [|contradiction]. cbn [gstep]. destruct (gquery0_spec v s k lv rv Hv Hl Hq Ha H1) as (x & E & _).
  rewrite E. cbn [bind]. now apply IH.
Qed.
Lemma gclient_spec v k lv rv : v <> [] -> valid_range (len v) lv rv ->
  exists x, bracketed (op k) (nth_of v d) (height (len v)) lv rv x /\ forall cs, only_queries (len v) cs -> gclient ty v cs k lv rv = Ok x.
Proof.
  intros Hv Hr. destruct (gbuild_spec v Hv) as (s & E & L & Q & A). destruct (gquery0_spec v s k lv rv Hv L Q A Hr) as (x & Eq & B).
  exists x. split; [exact B|]. intros cs Hc. unfold gclient. rewrite E. cbn [bind]. rewrite (grun_quiet v s Hv L Q A cs Hc). cbn [bind]. rewrite Eq. reflexivity.
Qed.

(** maxima and minima with respect to a strict weak order on some values *)
Definition weak_on (D : T -> Prop) : Prop :=
  (forall a, D a -> vlt ty a a = false) /\
  (forall a b c, D a -> D b -> D c -> vlt ty a b = true -> vlt ty b c = true -> vlt ty a c = true) /\
  (forall a b c, D a -> D b -> D c -> vlt ty a c = true -> vlt ty a b = true \/ vlt ty b c = true).
Lemma bracketed_max (D : T -> Prop) f h l r x : weak_on D -> (forall i, l <= i <= r -> D (f i)) -> bracketed (op QMax) f h l r x ->
  (exists i, l <= i <= r /\ f i = x) /\ forall i, l <= i <= r -> vlt ty x (f i) = false.
Proof.
  intros (W1 & W2 & W3) HD B. induction B as [h l|h l m r x y Hm A IHA B IHB].
  - split; [exists l; split; [lia|reflexivity]|]. intros i Hi. replace i with l by lia. apply W1, HD. lia.
  - pose proof (bracketed_range _ _ _ _ _ _ A). pose proof (bracketed_range _ _ _ _ _ _ B).
    destruct IHA as [(i & Hi & Ei) FA]; [intros; apply HD; lia|]. destruct IHB as [(j & Hj & Ej) FB]; [intros; apply HD; lia|].
    assert (Dx : D x) by (subst; apply HD; lia). assert (Dy : D y) by (subst; apply HD; lia).
    unfold op, gcombine, vmax. destruct (vlt ty x y) eqn:C.
    + split; [exists j; split; [lia|assumption]|]. intros t Ht. destruct (Z.le_gt_cases t m) as [L|L]; [|apply FB; lia].
      destruct (vlt ty y (f t)) eqn:Q; [|reflexivity]. rewrite <- (FA t) by lia. symmetry. apply (W2 x y (f t)); auto; apply HD; lia.
    + split; [exists i; split; [lia|assumption]|]. intros t Ht. destruct (Z.le_gt_cases t m) as [L|L]; [apply FA; lia|].
      destruct (vlt ty x (f t)) eqn:Q; [|reflexivity]. destruct (W3 x y (f t) Dx Dy ltac:(apply HD; lia) Q) as [K|K]; [congruence|].
      rewrite <- (FB t) by lia. now symmetry.
Qed.
Lemma bracketed_min (D : T -> Prop) f h l r x : weak_on D -> (forall i, l <= i <= r -> D (f i)) -> bracketed (op QMin) f h l r x ->
  (exists i, l <= i <= r /\ f i = x) /\ forall i, l <= i <= r -> vlt ty (f i) x = false.
Proof.
  intros (W1 & W2 & W3) HD B. induction B as [h l|h l m r x y Hm A IHA B IHB].
  - split; [exists l; split; [lia|reflexivity]|]. intros i Hi. replace i with l by lia. apply W1, HD. lia.
  - pose proof (bracketed_range _ _ _ _ _ _ A). pose proof (bracketed_range _ _ _ _ _ _ B).
    destruct IHA as [(i & Hi & Ei) FA]; [intros; apply HD; lia|]. destruct IHB as [(j & Hj & Ej) FB]; [intros; apply HD; lia|].
    assert (Dx : D x) by (subst; apply HD; lia). assert (Dy : D y) by (subst; apply HD; lia).
    unfold op, gcombine, vmin. destruct (vlt ty y x) eqn:C.
    + split; [exists j; split; [lia|assumption]|]. intros t Ht. destruct (Z.le_gt_cases t m) as [L|L]; [|apply FB; lia].
      destruct (vlt ty (f t) y) eqn:Q; [|reflexivity]. rewrite <- (FA t) by lia. symmetry. apply (W2 (f t) y x); auto; apply HD; lia.
    + split; [exists i; split; [lia|assumption]|]. intros t Ht. destruct (Z.le_gt_cases t m) as [L|L]; [apply FA; lia|].
      destruct (vlt ty (f t) x) eqn:Q; [|reflexivity]. destruct (W3 (f t) y x ltac:(apply HD; lia) Dy Dx Q) as [K|K]; [|congruence].
      rewrite <- (FB t) by lia. now symmetry.
Qed.
End Any.
