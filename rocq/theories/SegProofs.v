(** Lemmas for SegmentTree. *)
From Verif Require Import Base SegModel SegSpec.
Local Open Scope Z_scope.

(** outcomes that are either fine or excused by [bad] *)
Definition outc (bad : Prop) {X} (r : outcome X) (P : X -> Prop) : Prop :=
  match r with Ok x => P x | UB => bad | _ => False end.
Lemma outc_bind bad {X Y} (r : outcome X) (k : X -> outcome Y) P Q :
  outc bad r P -> (forall x, P x -> outc bad (k x) Q) -> outc bad (bind r k) Q.
Proof. destruct r; cbn; auto. Qed.
Lemma outc_weak bad {X} (r : outcome X) (P Q : X -> Prop) : outc bad r P -> (forall x, P x -> Q x) -> outc bad r Q.
Proof. destruct r; cbn; auto. Qed.

Definition c0 : cell := Cell 0 0 0 0 0 false false.
Definition gt (s : tree) (i : Z) : cell := nth (Z.to_nat i) s c0.
Notation len s := (Z.of_nat (length s)).
Lemma aget_gt s i : 0 <= i < len s -> aget s i = Ok (gt s i).
Proof. intros H. apply aget_ok. lia. Qed.
Lemma aset_gt s i x : 0 <= i < len s ->
  exists s', aset s i x = Ok s' /\ length s' = length s /\ forall j, 0 <= j -> gt s' j = if j =? i then x else gt s j.
Proof.
  intros H. rewrite aset_ok by lia. eexists. split; [reflexivity|]. split; [apply upd_length|].
  intros j Hj. unfold gt. destruct (Z.eqb_spec j i) as [->|N].
  - apply nth_upd_eq. lia.
  - apply nth_upd_neq. lia.
Qed.
Lemma aget_oob {X} (s : list X) i : Z.of_nat (length s) <= i -> aget s i = UB.
Proof. intros H. destruct (aget s i) eqn:E; try reflexivity; unfold aget in E; destruct (Z.ltb_spec i 0); try discriminate; try lia.
  - destruct (nth_error s (Z.to_nat i)) eqn:E'; [|discriminate]. assert (nth_error s (Z.to_nat i) <> None) by congruence.
    apply nth_error_Some in H1. lia.
  - destruct (nth_error s (Z.to_nat i)); discriminate.
  - destruct (nth_error s (Z.to_nat i)); discriminate.
Qed.

(** pending tag of a cell: v |-> v * fst + snd *)
Definition tag (c : cell) : Z * Z := (if hmul c then mulf c else 1, if hadd c then addf c else 0).
Definition comp (t u : Z * Z) : Z * Z := (fst u * fst t, snd u * fst t + snd t).
Definition idt : Z * Z := (1, 0).
Lemma comp_assoc t u w : comp t (comp u w) = comp (comp t u) w.
Proof. unfold comp. destruct t, u, w. cbn [fst snd]. f_equal; ring. Qed.
Lemma comp_id_l t : comp idt t = t.
Proof. unfold comp, idt. destruct t. cbn [fst snd]. f_equal; ring. Qed.
Lemma comp_id_r t : comp t idt = t.
Proof. unfold comp, idt. destruct t. cbn [fst snd]. f_equal; ring. Qed.
(** its action on an aggregate over w positions *)
Definition ap (k : kind) (w : Z) (t : Z * Z) (x : Z) : Z :=
  match k with QSum => x * fst t + snd t * w | _ => x * fst t + snd t end.
Lemma ap_comp k w t u x : ap k w (comp t u) x = ap k w t (ap k w u x).
Proof. unfold ap, comp. destruct t, u. cbn [fst snd]. destruct k; ring. Qed.
Lemma ap_id k w x : ap k w idt x = x.
Proof. unfold ap, idt. cbn [fst snd]. destruct k; ring. Qed.

(** nodes: the range of the node with index p in a tree of size n *)
Definition mid (l r : Z) : Z := Z.shiftr (l + r) 1.
Lemma mid_div l r : mid l r = (l + r) / 2.
Proof. unfold mid. rewrite Z.shiftr_div_pow2 by lia. reflexivity. Qed.
Lemma mid_bounds l r : l < r -> l <= mid l r < r.
Proof. intros H. rewrite mid_div. pose proof (Z_div_mod_eq_full (l + r) 2). pose proof (Z.mod_pos_bound (l + r) 2). lia. Qed.
Fixpoint range (n : Z) (p : positive) : option (Z * Z) :=
  match p with
  | xH => Some (0, n - 1)
  | xO p => match range n p with Some (l, r) => if l <? r then Some (l, mid l r) else None | None => None end
  | xI p => match range n p with Some (l, r) => if l <? r then Some (mid l r + 1, r) else None | None => None end
  end.
Lemma range_l n p l r : range n p = Some (l, r) -> l < r -> range n p~0 = Some (l, mid l r).
Proof. intros H L. cbn [range]. rewrite H. replace (l <? r) with true by lia. reflexivity. Qed.
Lemma range_r n p l r : range n p = Some (l, r) -> l < r -> range n p~1 = Some (mid l r + 1, r).
Proof. intros H L. cbn [range]. rewrite H. replace (l <? r) with true by lia. reflexivity. Qed.
Lemma range_bounds n p : 0 < n -> forall l r, range n p = Some (l, r) -> 0 <= l <= r /\ r < n.
Proof.
  intros Hn. induction p as [p IH|p IH|]; cbn [range]; intros l r H.
  - destruct (range n p) as [(l', r')|]; [|discriminate]. specialize (IH _ _ eq_refl).
    destruct (Z.ltb_spec l' r') as [L|L]; [|discriminate]. injection H as <- <-. pose proof (mid_bounds l' r' L). lia.
  - destruct (range n p) as [(l', r')|]; [|discriminate]. specialize (IH _ _ eq_refl).
    destruct (Z.ltb_spec l' r') as [L|L]; [|discriminate]. injection H as <- <-. pose proof (mid_bounds l' r' L). lia.
  - injection H as <- <-. lia.
Qed.
(** depth and width *)
Fixpoint depth (p : positive) : Z := match p with xH => 0 | xO p | xI p => 1 + depth p end.
Lemma depth_nonneg p : 0 <= depth p.
Proof. induction p; cbn [depth]; lia. Qed.
Lemma depth_bounds p : 2 ^ depth p <= Zpos p < 2 ^ (depth p + 1).
Proof.
  induction p as [p IH|p IH|]; cbn [depth]; [| |cbn; lia]; pose proof (depth_nonneg p);
    rewrite (Z.add_comm 1), !Z.pow_add_r in * by lia; change (2 ^ 1) with 2 in *; lia.
Qed.
Lemma range_width n p : 0 < n -> forall l r, range n p = Some (l, r) -> (r - l) * 2 ^ depth p < n.
Proof.
  intros Hn. induction p as [p IH|p IH|]; cbn [range depth]; intros l r H.
  - destruct (range n p) as [(l', r')|]; [|discriminate]. specialize (IH _ _ eq_refl).
    destruct (Z.ltb_spec l' r') as [L|L]; [|discriminate]. injection H as <- <-. pose proof (depth_nonneg p).
    rewrite Z.pow_add_r by lia. change (2 ^ 1) with 2.
    assert (0 < 2 ^ depth p) by (apply Z.pow_pos_nonneg; lia).
    assert (2 * (r' - (mid l' r' + 1)) <= r' - l').
    { rewrite mid_div. pose proof (Z_div_mod_eq_full (l' + r') 2). pose proof (Z.mod_pos_bound (l' + r') 2). lia. }
    nia.
  - destruct (range n p) as [(l', r')|]; [|discriminate]. specialize (IH _ _ eq_refl).
    destruct (Z.ltb_spec l' r') as [L|L]; [|discriminate]. injection H as <- <-. pose proof (depth_nonneg p).
    rewrite Z.pow_add_r by lia. change (2 ^ 1) with 2.
    assert (0 < 2 ^ depth p) by (apply Z.pow_pos_nonneg; lia).
    assert (2 * (mid l' r' - l') <= r' - l').
    { rewrite mid_div. pose proof (Z_div_mod_eq_full (l' + r') 2). pose proof (Z.mod_pos_bound (l' + r') 2). lia. }
    nia.
  - injection H as <- <-. cbn. lia.
Qed.
Lemma range_parent n p : (exists x, range n p~0 = Some x) \/ (exists x, range n p~1 = Some x) ->
  exists l r, range n p = Some (l, r) /\ l < r.
Proof.
  cbn [range]. destruct (range n p) as [(l, r)|]; [|intros [(x & H)|(x & H)]; discriminate].
  destruct (Z.ltb_spec l r); [eauto|]. intros [(x & H')|(x & H')]; discriminate.
Qed.
Lemma range_index n p l r : 0 < n -> range n p = Some (l, r) -> Zpos p < 4 * n.
Proof.
  intros Hn H.
  assert (Hpar : p = xH \/ exists q, (p = xO q \/ p = xI q) /\ exists l' r', range n q = Some (l', r') /\ l' < r').
  { destruct p as [q|q|]; [right|right|left; reflexivity]; exists q; (split; [auto|]); apply range_parent; eauto. }
  destruct Hpar as [->|(q & Hq & l' & r' & Hr & L)]; [lia|].
  pose proof (range_width n q Hn l' r' Hr). pose proof (depth_bounds q). pose proof (depth_nonneg q).
  rewrite Z.pow_add_r in H1 by lia. change (2 ^ 1) with 2 in H1.
  assert (0 < 2 ^ depth q) by (apply Z.pow_pos_nonneg; lia).
  assert (2 ^ depth q < n) by nia. destruct Hq as [->| ->]; lia.
Qed.

(** state at positive indices *)
Definition pg (s : tree) (p : positive) : cell := gt s (Zpos p).
Fixpoint E (s : tree) (p : positive) : Z * Z :=
  match p with
  | xH => tag (pg s xH)
  | xO q => comp (E s q) (tag (pg s p))
  | xI q => comp (E s q) (tag (pg s p))
  end.
(** what is pending strictly above p *)
Definition above (s : tree) (p : positive) : Z * Z :=
  match p with xH => idt | xO q | xI q => E s q end.
Lemma E_above s p : E s p = comp (above s p) (tag (pg s p)).
Proof. destruct p; cbn [E above]; [reflexivity|reflexivity|]. symmetry. apply comp_id_l. Qed.
Definition eff (k : kind) (s : tree) (p : positive) (l r : Z) : Z :=
  ap k (r - l + 1) (E s p) (field k (pg s p)).

(** q lies in the subtree of p *)
Fixpoint desc (p q : positive) : Prop :=
  q = p \/ match q with xH => False | xO q' | xI q' => desc p q' end.
Lemma desc_refl p : desc p p.
Proof. destruct p; left; reflexivity. Qed.
Lemma desc_lt p q : desc p q -> (Zpos p <= Zpos q)%Z.
Proof. induction q; cbn [desc]; intros [->|H]; try lia; try (now elim H); specialize (IHq H); lia. Qed.
Lemma desc_child0 p q : desc p~0 q -> desc p q.
Proof.
  induction q; cbn [desc]; intros [E|H]; try discriminate; try (now elim H); right; auto.
  injection E as ->. apply desc_refl.
Qed.
Lemma desc_child1 p q : desc p~1 q -> desc p q.
Proof.
  induction q; cbn [desc]; intros [E|H]; try discriminate; try (now elim H); right; auto.
  injection E as ->. apply desc_refl.
Qed.
Lemma desc_cases p q : desc p q -> q = p \/ desc p~0 q \/ desc p~1 q.
Proof.
  induction q as [q IH|q IH|]; cbn [desc]; intros [E0|H]; try (now left); try (now elim H).
  - right. destruct (IH H) as [->|[K|K]]; [right; left; reflexivity|left; right; assumption|right; right; assumption].
  - right. destruct (IH H) as [->|[K|K]]; [left; left; reflexivity|left; right; assumption|right; right; assumption].
Qed.
Lemma desc_disjoint p q : desc p~0 q -> desc p~1 q -> False.
Proof.
  induction q as [q IH|q IH|]; cbn [desc]; intros [E0|H] [E1|H1]; try congruence; try contradiction; auto.
  - injection E1 as ->. apply desc_lt in H. lia.
  - injection E0 as ->. apply desc_lt in H1. lia.
Qed.
Lemma desc_not_self0 p : ~ desc p~0 p.
Proof. intros H. apply desc_lt in H. lia. Qed.
Lemma desc_not_self1 p : ~ desc p~1 p.
Proof. intros H. apply desc_lt in H. lia. Qed.

(** agreement outside a subtree *)
Lemma E_frame s s' p : (forall q, ~ desc p q -> pg s' q = pg s q) -> forall q, ~ desc p q -> E s' q = E s q.
Proof.
  intros F. induction q as [q IH|q IH|]; intros H; cbn [E]; rewrite (F _ H); try reflexivity; f_equal; apply IH; intros K; apply H; right; exact K.
Qed.
Lemma above_frame s s' p : (forall q, ~ desc p q -> pg s' q = pg s q) -> above s' p = above s p.
Proof.
  intros F. destruct p as [p|p|]; cbn [above]; [| |reflexivity]; apply (E_frame s s' _ F).
  - apply desc_not_self1.
  - apply desc_not_self0.
Qed.

(** ** update *)
Lemma push_mul_spec s c m : 0 <= c < len s ->
  exists s', push_mul c m s = Ok s' /\ length s' = length s /\ (forall j, 0 <= j -> j <> c -> gt s' j = gt s j) /\
    (forall k, field k (gt s' c) = field k (gt s c)) /\ tag (gt s' c) = comp (m, 0) (tag (gt s c)).
Proof.
  intros H. unfold push_mul. rewrite aget_gt by assumption. cbn [bind].
  match goal with |- context [aset s c ?x] => destruct (aset_gt s c x H) as (s' & Es & L & G) end.
  exists s'. split; [assumption|]. split; [assumption|]. split.
  - intros j Hj N. rewrite G by assumption. destruct (Z.eqb_spec j c); [contradiction|reflexivity].
  - rewrite G by lia. rewrite Z.eqb_refl. destruct (gt s c) as [a b d e f [] []]; cbn; (split; [intros []; reflexivity|]);
      unfold tag, comp; cbn [hmul hadd mulf addf fst snd]; f_equal; ring.
Qed.
Lemma push_add_spec s c a : 0 <= c < len s ->
  exists s', push_add c a s = Ok s' /\ length s' = length s /\ (forall j, 0 <= j -> j <> c -> gt s' j = gt s j) /\
    (forall k, field k (gt s' c) = field k (gt s c)) /\ tag (gt s' c) = comp (1, a) (tag (gt s c)).
Proof.
  intros H. unfold push_add. rewrite aget_gt by assumption. cbn [bind].
  match goal with |- context [aset s c ?x] => destruct (aset_gt s c x H) as (s' & Es & L & G) end.
  exists s'. split; [assumption|]. split; [assumption|]. split.
  - intros j Hj N. rewrite G by assumption. destruct (Z.eqb_spec j c); [contradiction|reflexivity].
  - rewrite G by lia. rewrite Z.eqb_refl. destruct (gt s c) as [a' b d e f [] []]; cbn; (split; [intros []; reflexivity|]);
      unfold tag, comp; cbn [hmul hadd mulf addf fst snd]; f_equal; ring.
Qed.

(** the effect of update on the cells *)
Definition pushed (p : positive) (w : Z) (s s' : tree) : Prop :=
  length s' = length s /\
  (forall q, q <> p -> q <> p~0%positive -> q <> p~1%positive -> pg s' q = pg s q) /\
  tag (pg s' p) = idt /\
  (forall k, field k (pg s' p) = ap k w (tag (pg s p)) (field k (pg s p))) /\
  (forall k, field k (pg s' p~0) = field k (pg s p~0) /\ field k (pg s' p~1) = field k (pg s p~1)) /\
  (2 * Zpos p + 1 < len s ->
     tag (pg s' p~0) = comp (tag (pg s p)) (tag (pg s p~0)) /\ tag (pg s' p~1) = comp (tag (pg s p)) (tag (pg s p~1))) /\
  (len s <= 2 * Zpos p -> s' = s).

Lemma tag_idt c : hmul c = false -> hadd c = false -> tag c = idt.
Proof. unfold tag. intros -> ->. reflexivity. Qed.
Lemma update_ok s p l r : 2 * Zpos p + 1 < len s -> exists s', update (Zpos p) l r s = Ok s' /\ pushed p (r - l + 1) s s'.
Proof.
  intros H. unfold update. rewrite aget_gt by lia. cbn [bind]. set (c := gt s (Zpos p)).
  (* the multiplication stage *)
  assert (Hmul : exists s1, (if hmul c then
          s <- aset s (Zpos p) (Cell (mn c * mulf c) (mx c * mulf c) (sm c * mulf c) (addf c) (mulf c) (hadd c) false) ;;
          s <- push_mul (2 * Zpos p) (mulf c) s ;; push_mul (2 * Zpos p + 1) (mulf c) s
        else Ok s) = Ok s1 /\ length s1 = length s /\
     (forall j, 0 <= j -> j <> Zpos p -> j <> 2 * Zpos p -> j <> 2 * Zpos p + 1 -> gt s1 j = gt s j) /\
     (forall k, field k (gt s1 (Zpos p)) = field k c * fst (tag c)) /\ tag (gt s1 (Zpos p)) = (1, snd (tag c)) /\
     hmul (gt s1 (Zpos p)) = false /\
     (forall k, field k (gt s1 (2 * Zpos p)) = field k (gt s (2 * Zpos p)) /\ field k (gt s1 (2 * Zpos p + 1)) = field k (gt s (2 * Zpos p + 1))) /\
     tag (gt s1 (2 * Zpos p)) = comp (fst (tag c), 0) (tag (gt s (2 * Zpos p))) /\
     tag (gt s1 (2 * Zpos p + 1)) = comp (fst (tag c), 0) (tag (gt s (2 * Zpos p + 1)))).
  { destruct (hmul c) eqn:Em.
    - match goal with |- context [aset s _ ?x] => destruct (aset_gt s (Zpos p) x ltac:(lia)) as (a & Ea & La & Ga) end.
      rewrite Ea. cbn [bind].
      destruct (push_mul_spec a (2 * Zpos p) (mulf c) ltac:(lia)) as (b & Eb & Lb & Gb & Fb & Tb). rewrite Eb. cbn [bind].
      destruct (push_mul_spec b (2 * Zpos p + 1) (mulf c) ltac:(lia)) as (d & Ed & Ld & Gd & Fd & Td). rewrite Ed.
      exists d. split; [reflexivity|]. split; [lia|]. split.
      { intros j Hj N1 N2 N3. rewrite Gd, Gb, Ga by lia. destruct (Z.eqb_spec j (Zpos p)); [contradiction|reflexivity]. }
      assert (Gp : gt d (Zpos p) = Cell (mn c * mulf c) (mx c * mulf c) (sm c * mulf c) (addf c) (mulf c) (hadd c) false).
      { rewrite Gd, Gb, Ga by lia. now rewrite Z.eqb_refl. }
      rewrite Gp. unfold tag at 1. rewrite Em. cbn [fst]. split; [intros []; reflexivity|].
      split; [unfold tag; cbn; reflexivity|]. split; [reflexivity|].
      assert (G0 : gt a (2 * Zpos p) = gt s (2 * Zpos p)) by (rewrite Ga by lia; destruct (Z.eqb_spec (2 * Zpos p) (Zpos p)); [lia|reflexivity]).
      assert (G1 : gt b (2 * Zpos p + 1) = gt s (2 * Zpos p + 1)).
      { rewrite Gb, Ga by lia. destruct (Z.eqb_spec (2 * Zpos p + 1) (Zpos p)); [lia|reflexivity]. }
      split.
      { intros k. rewrite Fd, G1. split; [|reflexivity]. rewrite Gd by lia. rewrite Fb, G0. reflexivity. }
      split.
      { rewrite Gd by lia. rewrite Tb, G0. unfold tag at 2. rewrite Em. reflexivity. }
      { rewrite Td, G1. unfold tag at 2. rewrite Em. reflexivity. }
    - assert (Hf : fst (tag c) = 1) by (unfold tag; rewrite Em; reflexivity). rewrite Hf.
      exists s. split; [reflexivity|]. split; [reflexivity|]. split; [reflexivity|].
      split; [intros k; unfold c; ring|]. split; [fold c; unfold tag; rewrite Em; reflexivity|]. split; [exact Em|]. split; [auto|].
      change (1, 0) with idt. rewrite !comp_id_l. auto. }
  destruct Hmul as (s1 & E1 & L1 & G1 & F1 & T1 & M1 & C1 & D1 & D2).
  cbv zeta. unfold tree in *. rewrite E1. cbn [bind]. rewrite aget_gt by lia. cbn [bind]. set (c1 := gt s1 (Zpos p)) in *.
  assert (Hsnd : snd (tag c1) = snd (tag c)) by (rewrite T1; reflexivity).
  destruct (hadd c1) eqn:Ea.
  - match goal with |- context [aset s1 _ ?x] => destruct (aset_gt s1 (Zpos p) x ltac:(lia)) as (a & Eq & La & Ga) end.
    rewrite Eq. cbn [bind].
    destruct (push_add_spec a (2 * Zpos p) (addf c1) ltac:(lia)) as (b & Eb & Lb & Gb & Fb & Tb). rewrite Eb. cbn [bind].
    destruct (push_add_spec b (2 * Zpos p + 1) (addf c1) ltac:(lia)) as (d & Ed & Ld & Gd & Fd & Td). rewrite Ed.
    exists d. split; [reflexivity|].
    assert (Hadd : addf c1 = snd (tag c)) by (rewrite <- Hsnd; unfold tag; rewrite Ea; reflexivity).
    assert (Gp : gt d (Zpos p) = Cell (mn c1 + addf c1) (mx c1 + addf c1) (sm c1 + addf c1 * (r - l + 1)) (addf c1) (mulf c1) false (hmul c1)).
    { rewrite Gd, Gb, Ga by lia. now rewrite Z.eqb_refl. }
    assert (H0 : gt a (2 * Zpos p) = gt s1 (2 * Zpos p)) by (rewrite Ga by lia; destruct (Z.eqb_spec (2 * Zpos p) (Zpos p)); [lia|reflexivity]).
    assert (H1 : gt b (2 * Zpos p + 1) = gt s1 (2 * Zpos p + 1)).
    { rewrite Gb, Ga by lia. destruct (Z.eqb_spec (2 * Zpos p + 1) (Zpos p)); [lia|reflexivity]. }
    unfold pushed, pg. change (Zpos p~0) with (2 * Zpos p). change (Zpos p~1) with (2 * Zpos p + 1).
    split; [lia|]. split.
    { intros q N1 N2 N3. assert (Zpos q <> Zpos p) by congruence. assert (Zpos q <> 2 * Zpos p) by (change (2 * Zpos p) with (Zpos p~0); congruence).
      assert (Zpos q <> 2 * Zpos p + 1) by (change (2 * Zpos p + 1) with (Zpos p~1); congruence).
      rewrite Gd, Gb, Ga by lia. destruct (Z.eqb_spec (Zpos q) (Zpos p)); [contradiction|]. apply G1; lia. }
    rewrite Gp. split; [apply tag_idt; [exact M1|reflexivity]|]. fold c. split.
    { intros k. rewrite Hadd. pose proof (F1 QMax) as K1. pose proof (F1 QMin) as K2. pose proof (F1 QSum) as K3.
      unfold c1 in *. destruct k; cbn [field mx mn sm ap] in *; congruence. }
    split.
    { intros k. destruct (C1 k) as [Ca Cb]. split; [rewrite Gd by lia; rewrite Fb, H0; assumption|rewrite Fd, H1; assumption]. }
    assert (Hc : comp (1, addf c1) (fst (tag c), 0) = tag c).
    { rewrite Hadd. destruct (tag c) as [x y]. unfold comp. cbn [fst snd]. f_equal; ring. }
    split; [|intros; lia]. intros _. split.
    { rewrite Gd by lia. rewrite Tb, H0, D1, comp_assoc, Hc. reflexivity. }
    { rewrite Td, H1, D2, comp_assoc, Hc. reflexivity. }
  - exists s1. split; [reflexivity|].
    assert (Hz : snd (tag c) = 0) by (rewrite <- Hsnd; unfold tag; rewrite Ea; reflexivity).
    assert (Hc : (fst (tag c), 0) = tag c) by (rewrite <- Hz; destruct (tag c); reflexivity).
    unfold pushed, pg. change (Zpos p~0) with (2 * Zpos p). change (Zpos p~1) with (2 * Zpos p + 1).
    split; [lia|]. split.
    { intros q N1 N2 N3. apply G1; [lia| | |].
      - congruence. - change (2 * Zpos p) with (Zpos p~0); congruence. - change (2 * Zpos p + 1) with (Zpos p~1); congruence. }
    fold c1 c. split; [apply tag_idt; assumption|]. split.
    { intros k. rewrite F1. unfold ap. rewrite Hz. destruct k; ring. }
    split; [exact C1|]. rewrite Hc in D1, D2. split; [auto|intros; lia].
Qed.
(** a node without children in the vectors: either nothing is pending or the
    push indexes past the end *)
Lemma update_oob s p l r : Zpos p < len s -> len s <= 2 * Zpos p ->
  outc True (update (Zpos p) l r s) (fun s' => s' = s /\ tag (gt s (Zpos p)) = idt).
Proof.
  intros H1 H2. unfold update. rewrite aget_gt by lia. cbn [bind]. set (c := gt s (Zpos p)).
  destruct (hmul c) eqn:Em.
  - match goal with |- context [aset s _ ?x] => destruct (aset_gt s (Zpos p) x ltac:(lia)) as (a & Ea & La & Ga) end.
    rewrite Ea. cbn [bind]. unfold push_mul at 1. rewrite aget_oob by lia. exact I.
  - cbn [bind]. rewrite aget_gt by lia. fold c. cbn [bind]. destruct (hadd c) eqn:Ed.
    + match goal with |- context [aset s _ ?x] => destruct (aset_gt s (Zpos p) x ltac:(lia)) as (a & Ea & La & Ga) end.
      rewrite Ea. cbn [bind]. unfold push_add at 1. rewrite aget_oob by lia. exact I.
    + cbn. split; [reflexivity|]. now apply tag_idt.
Qed.
