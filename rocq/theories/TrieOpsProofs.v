(** The operations of the trie against the pure layer of TrieProofs. *)
From Verif Require Import Base TrieModel TrieProofs.
Local Open Scope Z_scope.

Definition Bt (t : trie) := at_ (base t).
Definition Ct (t : trie) := at_ (check t).
Definition Tt (t : trie) := tat (tail t).

Lemma setb_spec t i v : 0 <= i -> exists t', setb t i v = Ok t' /\ (forall y, Bt t' y = if y =? i then v else Bt t y) /\
  check t' = check t /\ tail t' = tail t /\ pos t' = pos t /\ tailList t' = tailList t /\ size t' = size t /\
  (length (base t) <= length (base t'))%nat /\ i < Z.of_nat (length (base t')).
Proof.
  intros H. destruct (iset_at (base t) i v H) as (a & E & N & L & L'). unfold setb. rewrite E. cbn [bind].
  exists (with_base t a). unfold with_base, Bt. cbn. tauto.
Qed.
Lemma setc_spec t i v : 0 <= i -> exists t', setc t i v = Ok t' /\ (forall y, Ct t' y = if y =? i then v else Ct t y) /\
  base t' = base t /\ tail t' = tail t /\ pos t' = pos t /\ tailList t' = tailList t /\ size t' = size t.
Proof.
  intros H. destruct (iset_at (check t) i v H) as (a & E & N & L & L'). unfold setc. rewrite E. cbn [bind].
  exists (with_check t a). unfold with_check, Ct. cbn. tauto.
Qed.
Lemma sett_spec t i v : 0 <= i -> exists t', sett t i v = Ok t' /\ (forall y, 0 <= y -> Tt t' y = if y =? i then v else Tt t y) /\
  base t' = base t /\ check t' = check t /\ pos t' = pos t /\ tailList t' = tailList t /\ size t' = size t /\
  (length (tail t) <= length (tail t'))%nat /\ i < Z.of_nat (length (tail t')).
Proof.
  intros H. destruct (tset_at (tail t) i v H) as (a & E & N & L & L'). unfold sett. rewrite E. cbn [bind].
  exists (with_tail t a). unfold with_tail, Tt. cbn. tauto.
Qed.

(** ** Searching *)
Lemma at_beyond a x : Z.of_nat (length a) <= x -> at_ a x = -1.
Proof. intros H. unfold at_. destruct (x <? 0); [reflexivity|]. apply nth_overflow. lia. Qed.
Lemma all_free_ok c q l : 0 <= q -> (forall j, In j l -> 0 <= j) ->
  exists b, all_free c q l = Ok b /\ (b = true <-> forall j, In j l -> at_ c (q + j) = -1).
Proof.
  intros Hq. induction l as [|j l IH]; intros H; cbn [all_free].
  - exists true. split; [reflexivity|]. split; [intros _ j []|reflexivity].
  - rewrite igetc_at by (specialize (H j (or_introl eq_refl)); lia). cbn [bind].
    destruct (Z.eqb_spec (at_ c (q + j)) (-1)).
    + destruct IH as (b & E & S); [firstorder|]. exists b. split; [assumption|]. rewrite S. split.
      * intros Q k [<-|Hk]; auto.
      * firstorder.
    + exists false. split; [reflexivity|]. split; [discriminate|]. intros Q. exfalso. apply n, Q. now left.
Qed.
Lemma avail_loop_ok c l : (forall j, In j l -> 0 <= j) -> forall f q, 0 <= q -> (1 <= f)%nat ->
  Z.of_nat (length c) <= q + Z.of_nat f - 1 ->
  exists r, avail_loop f c q l = Ok r /\ 0 <= r /\ forall j, In j l -> at_ c (r + j) = -1.
Proof.
  intros H. induction f as [|f IH]; intros q Hq Hf Hl; [lia|]. cbn [avail_loop].
  destruct (all_free_ok c q l Hq H) as (b & -> & S). cbn [bind]. destruct b.
  - exists q. split; [reflexivity|]. split; [assumption|]. now apply S.
  - apply IH; [lia| |lia]. destruct f; [|lia]. exfalso.
    assert (false = true); [|discriminate]. apply S. intros j Hj. apply at_beyond. specialize (H j Hj). lia.
Qed.
Lemma avail_ok t l : (forall j, In j l -> 0 <= j) ->
  exists q, checkAvailable t l = Ok q /\ 0 <= q /\ forall j, In j l -> Ct t (q + j) = -1.
Proof. intros H. unfold checkAvailable. apply avail_loop_ok; [assumption|lia|lia|lia]. Qed.

Lemma arcs_loop_ok t n bn : forall k i, 0 <= bn + i ->
  exists l, arcs_loop k t n bn i = Ok l /\ NoDup l /\ forall j, In j l <-> i <= j < i + Z.of_nat k /\ Ct t (bn + j) = n.
Proof.
  induction k as [|k IH]; intros i Hi; cbn [arcs_loop].
  - exists []. split; [reflexivity|]. split; [constructor|]. intros j. cbn [In]. lia.
  - rewrite igetc_at by assumption. cbn [bind]. fold (Ct t (bn + i)). destruct (IH (i + 1)) as (l & -> & N & S); [lia|]. cbn [bind].
    destruct (Z.eqb_spec (Ct t (bn + i)) n) as [E|E]; eexists; (split; [reflexivity|]).
    + split.
      * constructor; [|assumption]. rewrite S. lia.
      * intros j. cbn [In]. rewrite S. destruct (Z.eq_dec i j) as [<-|]; [lia|]. lia.
    + split; [assumption|]. intros j. rewrite S. destruct (Z.eq_dec i j) as [<-|]; [|lia]. split; [lia|]. intros [_ ?]. contradiction.
Qed.

(** ** Concrete states *)
Section Ops.
Context {AL : Alphabet}.
Context (smap omap : ascii -> outcome Z).
Context (smap_ok : forall ch, alpha ch -> smap ch = Ok (code ch)) (omap_ok : forall ch, alpha ch -> omap ch = Ok (code ch)).

Notation IV t h := (Inv (Bt t) (Ct t) (Tt t) (pos t) (tailList t) h).
Notation HAS t h := (has (Bt t) (Ct t) (Tt t) h).
Notation PATH t := (path (Bt t) (Ct t)).

Record Good (t : trie) (h : Z) : Prop := {
  g_inv : IV t h;
  g_base : 0 < Z.of_nat (length (base t));
  g_live : forall x, Ct t x <> -1 -> x <> h -> x < Z.of_nat (length (base t));
  g_tail : forall x, Ct t x <> -1 -> x <> h -> Bt t x < -1 -> - Bt t x - 2 < Z.of_nat (length (tail t)) }.

Lemma live_base t h x : Good t h -> Ct t x <> -1 -> x <> h -> iget (base t) x = Ok (Bt t x).
Proof.
  intros G L N. apply iget_at. split; [|now apply (g_live _ _ G)]. pose proof (inv_pos (g_inv _ _ G) _ L). lia.
Qed.
Lemma path_base t h x w : Good t h -> PATH t x w -> x <> h -> iget (base t) x = Ok (Bt t x).
Proof.
  intros G P N. destruct (path_live (g_inv _ _ G) _ _ P) as [[-> _]|L].
  - apply iget_at. pose proof (g_base _ _ G). lia.
  - now apply live_base with h.
Qed.
Lemma inner_child t h n ch : Good t h -> 0 <= Bt t n -> alpha ch -> 0 < Bt t n + code ch.
Proof. intros G B A. pose proof (code_range ch A). lia. Qed.

Lemma outArcs_ok t h n w : Good t h -> PATH t n w -> n <> h -> 0 <= Bt t n ->
  exists l, outArcs t n = Ok l /\ NoDup l /\ forall k, In k l <-> 1 <= k <= 27 /\ Ct t (Bt t n + k) = n.
Proof.
  intros G P N B. unfold outArcs. rewrite (path_base t h n w G P N). cbn [bind].
  destruct (arcs_loop_ok t n (Bt t n) 27 1) as (l & E & ND & S); [lia|]. exists l. split; [assumption|]. split; [assumption|].
  intros k. rewrite S. lia.
Qed.

(** the text behind a leaf *)
Lemma has_leaf t x w u : Good t (-1) -> Ct t x <> -1 -> PATH t x w -> Bt t x < 0 ->
  HAS t (-1) (w ++ u) <-> (Bt t x = -1 /\ u = [] \/ Bt t x < -1 /\ u = Tt t (- Bt t x - 2)).
Proof.
  intros G L P B. pose proof (g_inv _ _ G) as I. split.
  - intros (y & w1 & w2 & E & Py & Ly & _ & K).
    assert (x = y) by (eapply leaf_unique; try eassumption; lia). subst y.
    rewrite (path_word I x _ Py _ P) in E. apply app_inv_head in E. subst w2. tauto.
  - intros K. exists x, w, u. pose proof (inv_pos I _ L). split; [reflexivity|]. split; [assumption|]. split; [assumption|]. split; [lia|tauto].
Qed.
Lemma has_step t n w ch rest : Good t (-1) -> PATH t n w -> 0 <= Bt t n -> HAS t (-1) (w ++ ch :: rest) ->
  Ct t (Bt t n + code ch) = n /\ alpha ch.
Proof.
  intros G P B (y & w1 & w2 & E & Py & Ly & _ & K). pose proof (g_inv _ _ G) as I.
  assert (H : n <> y) by (intros ->; lia).
  apply app_eq_app in E as (l & [[-> E]|[-> E]]).
  - exfalso. destruct l as [|c l].
    + rewrite app_nil_r in P. apply H. eapply path_node; eassumption.
    + destruct (prefix_path _ _ _ _ _ _ I _ _ _ P) as (z & Pz & Bz); [discriminate|].
      assert (z = y) by (eapply path_node; eassumption). subst. lia.
  - destruct l as [|c l].
    + exfalso. rewrite app_nil_r in Py. apply H. eapply path_node; eassumption.
    + injection E as <- E. 
      assert (exists z, PATH t z (w ++ [ch])) as [z Pz].
      { destruct l as [|d l]; [eauto|]. change (ch :: d :: l) with ([ch] ++ d :: l) in Py. rewrite app_assoc in Py.
        destruct (prefix_path _ _ _ _ _ _ I _ _ _ Py) as (z & Pz & _); [discriminate|]. eauto. }
      apply path_inv in Pz as (Pc & A & Z0). assert (Ct t z = n) as E2 by (eapply path_node; eassumption).
      rewrite E2 in Z0. rewrite <- Z0. auto.
Qed.
Lemma child_path t n w ch : PATH t n w -> alpha ch -> Ct t (Bt t n + code ch) = n -> PATH t (Bt t n + code ch) (w ++ [ch]).
Proof. intros P A E. now apply path_step with n. Qed.

(** kind of a child *)
Lemma child_kind t n w ch rest : Good t (-1) -> PATH t n w -> 0 <= Bt t n -> term (ch :: rest) -> Ct t (Bt t n + code ch) = n ->
  let x := Bt t n + code ch in
  (ch = endChar /\ rest = [] /\ HAS t (-1) (w ++ ch :: rest) /\ Bt t x = -1) \/
  (ch = endChar /\ rest = [] /\ HAS t (-1) (w ++ ch :: rest) /\ Bt t x < -1 /\ Tt t (- Bt t x - 2) = []) \/
  (ch <> endChar /\ term rest /\ 0 <= Bt t x) \/
  (ch <> endChar /\ term rest /\ Bt t x < -1 /\ term (Tt t (- Bt t x - 2)) /\ (HAS t (-1) (w ++ ch :: rest) <-> rest = Tt t (- Bt t x - 2))).
Proof.
  intros G P B TM E x. pose proof (term_alpha _ _ TM) as A. pose proof (g_inv _ _ G) as I. pose proof (inner_child t _ n ch G B A) as Px.
  pose proof (path_nonneg I _ _ P). fold x in E, Px. assert (L : Ct t x <> -1) by lia.
  pose proof (child_path t n w ch P A E) as PX. fold x in PX.
  destruct (i_kind _ _ _ _ _ _ I x ch L ltac:(lia) A) as [K1 K2]; [rewrite E; reflexivity|].
  replace (w ++ ch :: rest) with ((w ++ [ch]) ++ rest) by (rewrite <- app_assoc; reflexivity).
  destruct (term_rest _ _ TM) as [[E1 E2]|[[_ NE] TR]].
  - subst rest. destruct (K1 E1) as [K|[K KT]]; [left|right; left].
    + split; [assumption|]. split; [reflexivity|]. split; [|assumption]. apply (has_leaf t x); auto. lia.
    + split; [assumption|]. split; [reflexivity|]. split; [|auto]. apply (has_leaf t x); auto. lia.
  - right; right. destruct (K2 NE) as [K|[K KT]]; [left; auto|right]. split; [assumption|]. split; [assumption|]. split; [assumption|].
    split; [assumption|]. rewrite (has_leaf t x) by (auto; lia). intuition lia.
Qed.

Lemma retrieve_ok t : Good t (-1) -> forall l n w, PATH t n w -> 0 <= Bt t n -> term l ->
  exists b, retrieve_loop smap t n l = Ok b /\ (b = true <-> HAS t (-1) (w ++ l)).
Proof.
  intros G. induction l as [|ch rest IH]; intros n w P B TM; [now apply term_nonempty in TM|].
  pose proof (term_alpha _ _ TM) as A. pose proof (g_inv _ _ G) as I. pose proof (inner_child t _ n ch G B A) as Px.
  pose proof (path_nonneg I _ _ P).
  cbn [retrieve_loop]. rewrite smap_ok by assumption. cbn [bind]. rewrite (path_base t (-1) n w G P) by lia. cbn [bind].
  rewrite igetc_at by lia. cbn [bind]. fold (Ct t (Bt t n + code ch)).
  destruct (Z.eqb_spec (Ct t (Bt t n + code ch)) n) as [E|E]; cbn [negb].
  2: { exists false. split; [reflexivity|]. split; [discriminate|]. intros H'. exfalso. apply E. now apply (has_step t n w ch rest). }
  rewrite igetc_at by lia. cbn [bind]. fold (Bt t (Bt t n + code ch)).
  assert (L : Ct t (Bt t n + code ch) <> -1) by lia.
  destruct (child_kind t n w ch rest G P B TM E) as [(E1 & -> & H1 & K)|[(E1 & -> & H1 & K & KT)|[(E1 & TR & K)|(E1 & TR & K & KT & H1)]]].
  - rewrite K. cbn. exists true. tauto.
  - destruct (Z.ltb_spec (Bt t (Bt t n + code ch)) (-1)); [|lia]. exists true. tauto.
  - destruct (Z.ltb_spec (Bt t (Bt t n + code ch)) (-1)); [lia|].
    destruct (IH (Bt t n + code ch) (w ++ [ch])) as (b & Eb & Hb); [now apply child_path|assumption|assumption|].
    exists b. split; [assumption|]. rewrite Hb, <- app_assoc. reflexivity.
  - destruct (Z.ltb_spec (Bt t (Bt t n + code ch)) (-1)); [|lia].
    destruct rest as [|c rest]; [now apply term_nonempty in TR|].
    rewrite (live_base t (-1) _ G L) by lia. cbn [bind].
    pose proof (g_tail _ _ G _ L ltac:(lia) K). rewrite tgetc_at by lia. cbn [bind]. fold (Tt t (- Bt t (Bt t n + code ch) - 2)).
    destruct (list_eq_dec _ _ _) as [Q|Q]; [exists true|exists false]; (split; [reflexivity|]); rewrite H1; intuition congruence.
Qed.

(** ** Adding a leaf *)
Lemma good_add t t' n w ch x rest : Good t (-1) -> Inv (Bt t) (Ct t) (Tt t) (pos t') (tailList t') (-1) ->
  PATH t n w -> 0 <= Bt t n -> alpha ch -> x = Bt t n + code ch -> Ct t x = -1 ->
  (forall y, y <> x -> Bt t' y = Bt t y) -> (forall y, Ct t' y = if y =? x then n else Ct t y) ->
  (Bt t' x = -1 /\ ch = endChar /\ rest = [] /\ tail t' = tail t) \/
  (exists p, fresh (Bt t) (Ct t) (pos t') (tailList t') (-1) p /\ Bt t' x = - p - 2 /\ Tt t' p = rest /\
     (forall q, 0 <= q -> q <> p -> Tt t' q = Tt t q) /\ (ch = endChar -> rest = []) /\ (ch <> endChar -> term rest) /\
     p < Z.of_nat (length (tail t'))) ->
  (length (base t) <= length (base t'))%nat -> x < Z.of_nat (length (base t')) -> (length (tail t) <= length (tail t'))%nat ->
  Good t' (-1) /\ (forall y v, PATH t y v -> PATH t' y v) /\ (forall s, HAS t' (-1) s <-> HAS t (-1) s \/ s = w ++ ch :: rest).
Proof.
  intros G I P B A X Cx HB HC K L1 L2 L3. pose proof (inner_child t _ n ch G B A) as Px.
  assert (PT : forall y, Ct t y <> -1 -> Bt t y < -1 -> Tt t' (- Bt t y - 2) = Tt t (- Bt t y - 2)).
  { intros y Ly N. destruct K as [(_ & _ & _ & E)|(p & (_ & _ & F) & _ & _ & E & _)]; [unfold Tt; now rewrite E|].
    apply E; [lia|]. apply F; auto. pose proof (inv_pos I _ Ly). lia. }
  destruct (add_node _ _ _ _ _ n w ch x (Bt t') (Ct t') (Tt t') (-1) rest I P B A X Cx HB HC PT) as (I' & F & PX & H).
  { right. split; [reflexivity|]. destruct K as [(K1 & -> & -> & _)|(p & (F1 & F2 & F3) & K1 & K2 & _ & K3 & K4 & _)].
    - rewrite K1. split; [auto|]. split; [congruence|]. split; [lia|reflexivity].
    - rewrite K1. replace (- (- p - 2) - 2) with p by lia. rewrite K2. split; [|split; [|split]].
      + intros E. right. split; [lia|auto].
      + intros E. split; [lia|auto].
      + intros _. split; [|split; [lia|assumption]]. intros y Ly E. pose proof (inv_pos I _ Ly). apply (F3 y Ly); lia.
      + destruct (Z.eqb_spec (- p - 2) (-1)); [lia|reflexivity]. }
  split; [|split; [assumption|]].
  - constructor.
    + assumption.
    + pose proof (g_base _ _ G). lia.
    + intros y Ly N. rewrite HC in Ly. destruct (Z.eqb_spec y x) as [Ey|]; [rewrite Ey; assumption|]. pose proof (g_live _ _ G y Ly N). lia.
    + intros y Ly N Q. rewrite HC in Ly. destruct (Z.eqb_spec y x) as [Ey|Ny]; [rewrite Ey|].
      * destruct K as [(K1 & _)|(p & _ & K1 & _ & _ & _ & _ & K2)]; [lia|]. rewrite K1. lia.
      * rewrite HB in * by assumption. pose proof (g_tail _ _ G y Ly N Q). lia.
  - intros s. rewrite H. intuition.
Qed.

Lemma nextTail_ok t h : IV t h -> exists t' p, nextTail t = (t', p) /\
  base t' = base t /\ check t' = check t /\ tail t' = tail t /\ size t' = size t /\
  Inv (Bt t) (Ct t) (Tt t) (pos t') (tailList t') h /\ fresh (Bt t) (Ct t) (pos t') (tailList t') h p.
Proof.
  intros I. unfold nextTail. destruct (tailList t) as [|p q] eqn:E; (do 2 eexists; split; [reflexivity|]); cbn [base check tail size pos tailList];
  (split; [reflexivity|]); (split; [reflexivity|]); (split; [reflexivity|]); (split; [reflexivity|]).
  - destruct (alloc _ _ _ _ _ _ I (pos t) (pos t + 1) []) as (I' & F & _); [left; auto|]. auto.
  - destruct (alloc _ _ _ _ _ _ I p (pos t) q) as (I' & F & _); [right; auto|]. auto.
Qed.

Lemma Bt_eq t t' : base t' = base t -> Bt t' = Bt t. Proof. unfold Bt. congruence. Qed.
Lemma Ct_eq t t' : check t' = check t -> Ct t' = Ct t. Proof. unfold Ct. congruence. Qed.
Lemma Tt_eq t t' : tail t' = tail t -> Tt t' = Tt t. Proof. unfold Tt. congruence. Qed.

Definition added (t t' : trie) (word : bytes) : Prop :=
  Good t' (-1) /\ size t' = size t /\ (forall y v, PATH t y v -> PATH t' y v) /\
  (forall s, HAS t' (-1) s <-> HAS t (-1) s \/ s = word).

(** Trie.cpp:267-272 *)
Lemma setTail_ok t n w ch x rest : Good t (-1) -> PATH t n w -> 0 <= Bt t n -> term (ch :: rest) -> x = Bt t n + code ch -> Ct t x = -1 ->
  exists t', setTail t n x rest = Ok t' /\ added t t' (w ++ ch :: rest).
Proof.
  intros G P B TM X Cx. pose proof (term_alpha _ _ TM) as A. pose proof (inner_child t _ n ch G B A) as Px. rewrite <- X in Px.
  destruct (nextTail_ok t (-1) (g_inv _ _ G)) as (t0 & p & E & E1 & E2 & E3 & E4 & I & F). unfold setTail. rewrite E.
  destruct F as (F1 & F2 & F3).
  destruct (sett_spec t0 p rest) as (t1 & -> & T1 & T2 & T3 & T4 & T5 & T6 & T7 & T8); [lia|]. cbn [bind].
  destruct (setb_spec t1 x (- p - 2)) as (t2 & -> & S1 & S2 & S3 & S4 & S5 & S6 & S7 & S8); [lia|]. cbn [bind].
  destruct (setc_spec t2 x n) as (t3 & -> & R1 & R2 & R3 & R4 & R5 & R6); [lia|]. exists t3. split; [reflexivity|].
  assert (B0 : Bt t1 = Bt t) by (rewrite (Bt_eq _ _ T2); now apply Bt_eq).
  assert (C0 : Ct t2 = Ct t) by (rewrite (Ct_eq _ _ S2), (Ct_eq _ _ T3); now apply Ct_eq).
  assert (T0 : Tt t0 = Tt t) by now apply Tt_eq.
  assert (B3 : Bt t3 = Bt t2) by now apply Bt_eq. assert (T3' : Tt t3 = Tt t1) by (rewrite (Tt_eq _ _ R3); now apply Tt_eq).
  destruct (good_add t t3 n w ch x rest G) as (G' & PP & H'); auto.
  - now rewrite R4, R5, S4, S5, T4, T5.
  - intros y N. rewrite B3, S1, B0. destruct (Z.eqb_spec y x); [congruence|reflexivity].
  - intros y. now rewrite R1, C0.
  - right. exists p. rewrite R4, R5, S4, S5, T4, T5. split; [split; [assumption|split; assumption]|].
    rewrite B3, S1, Z.eqb_refl, T3'. split; [reflexivity|]. rewrite T1 by lia. rewrite Z.eqb_refl. split; [reflexivity|].
    split; [|split; [|split]].
    + intros q Q1 Q2. rewrite T1, T0 by assumption. destruct (Z.eqb_spec q p); [congruence|reflexivity].
    + destruct (term_rest _ _ TM) as [[_ ->]|[[_ ?] _]]; [reflexivity|congruence].
    + destruct (term_rest _ _ TM) as [[-> _]|[_ ?]]; [congruence|auto].
    + rewrite R3, S3. lia.
  - rewrite R2. rewrite T2, E1 in S7. lia.
  - rewrite R2. lia.
  - rewrite R3, S3. rewrite E3 in T7. lia.
  - split; [assumption|]. split; [congruence|]. split; [assumption|assumption].
Qed.

(** Trie.cpp:145-152 and 195-202: a new leaf for the inserted word *)
Lemma store_leaf t n w ch x rest (b : bool) : Good t (-1) -> PATH t n w -> 0 <= Bt t n -> term (ch :: rest) -> x = Bt t n + code ch ->
  Ct t x = -1 -> (b = true <-> ch = endChar) ->
  exists t', (t1 <- (if b then setb t x (-1) else let '(t0, p) := nextTail t in t0 <- setb t0 x (- p - 2) ;; sett t0 p rest) ;; setc t1 x n) = Ok t' /\
    added t t' (w ++ ch :: rest).
Proof.
  intros G P B TM X Cx Hb. pose proof (term_alpha _ _ TM) as A. pose proof (inner_child t _ n ch G B A) as Px. rewrite <- X in Px.
  destruct b.
  - destruct (setb_spec t x (-1)) as (t2 & -> & S1 & S2 & S3 & S4 & S5 & S6 & S7 & S8); [lia|]. cbn [bind].
    destruct (setc_spec t2 x n) as (t3 & -> & R1 & R2 & R3 & R4 & R5 & R6); [lia|]. exists t3. split; [reflexivity|].
    assert (EC : ch = endChar) by now apply Hb. assert (ER : rest = []).
    { destruct (term_rest _ _ TM) as [[_ ?]|[[_ ?] _]]; [assumption|congruence]. }
    assert (B3 : Bt t3 = Bt t2) by now apply Bt_eq.
    destruct (good_add t t3 n w ch x rest G) as (G' & PP & H'); auto.
    + rewrite R4, R5, S4, S5. exact (g_inv _ _ G).
    + intros y N. rewrite B3, S1. destruct (Z.eqb_spec y x); [congruence|reflexivity].
    + intros y. rewrite R1, (Ct_eq _ _ S2). reflexivity.
    + left. rewrite B3, S1, Z.eqb_refl. split; [reflexivity|]. split; [assumption|]. split; [assumption|congruence].
    + rewrite R2. assumption.
    + rewrite R2. assumption.
    + rewrite R3, S3. lia.
    + split; [assumption|]. split; [congruence|]. split; assumption.
  - assert (EC : ch <> endChar) by (intros Q; now apply Hb in Q).
    assert (TR : term rest). { destruct (term_rest _ _ TM) as [[? _]|[_ ?]]; [congruence|assumption]. }
    destruct (nextTail_ok t (-1) (g_inv _ _ G)) as (t0 & p & E & E1 & E2 & E3 & E4 & I & F). rewrite E.
    destruct F as (F1 & F2 & F3).
    destruct (setb_spec t0 x (- p - 2)) as (t1 & -> & S1 & S2 & S3 & S4 & S5 & S6 & S7 & S8); [lia|]. cbn [bind].
    destruct (sett_spec t1 p rest) as (t2 & -> & T1 & T2 & T3 & T4 & T5 & T6 & T7 & T8); [lia|]. cbn [bind].
    destruct (setc_spec t2 x n) as (t3 & -> & R1 & R2 & R3 & R4 & R5 & R6); [lia|]. exists t3. split; [reflexivity|].
    assert (B0 : Bt t0 = Bt t) by now apply Bt_eq.
    assert (C0 : Ct t2 = Ct t) by (rewrite (Ct_eq _ _ T3), (Ct_eq _ _ S2); now apply Ct_eq).
    assert (T0 : Tt t1 = Tt t) by (rewrite (Tt_eq _ _ S3); now apply Tt_eq).
    assert (B3 : Bt t3 = Bt t1) by (rewrite (Bt_eq _ _ R2); now apply Bt_eq). assert (T3' : Tt t3 = Tt t2) by now apply Tt_eq.
    destruct (good_add t t3 n w ch x rest G) as (G' & PP & H'); auto.
    + now rewrite R4, R5, T4, T5, S4, S5.
    + intros y N. rewrite B3, S1, B0. destruct (Z.eqb_spec y x); [congruence|reflexivity].
    + intros y. now rewrite R1, C0.
    + right. exists p. rewrite R4, R5, T4, T5, S4, S5. split; [split; [assumption|split; assumption]|].
      rewrite B3, S1, Z.eqb_refl, T3'. split; [reflexivity|]. rewrite T1 by lia. rewrite Z.eqb_refl. split; [reflexivity|].
      split; [|split; [|split]].
      * intros q Q1 Q2. rewrite T1, T0 by assumption. destruct (Z.eqb_spec q p); [congruence|reflexivity].
      * congruence.
      * auto.
      * rewrite R3. lia.
    + rewrite R2, T2. rewrite E1 in S7. lia.
    + rewrite R2, T2. lia.
    + rewrite R3. rewrite S3, E3 in T7. lia.
    + split; [assumption|]. split; [congruence|]. split; assumption.
Qed.

(** Trie.cpp:136-143: the leaf of the word that was there, reusing its slot *)
Lemma store_old t n w ch x rest temp : Good t (-1) -> PATH t n w -> 0 <= Bt t n -> term (ch :: rest) -> x = Bt t n + code ch ->
  Ct t x = -1 -> fresh (Bt t) (Ct t) (pos t) (tailList t) (-1) temp ->
  exists t', (t1 <- (if Ascii.eqb ch endChar then
          t <- setb t x (-1) ;;
          Ok (Trie (base t) (check t) (tail t) (pos t) (tailList t ++ [temp]) (size t))
        else
          t <- setb t x (- temp - 2) ;;
          sett t temp rest) ;; setc t1 x n) = Ok t' /\
    added t t' (w ++ ch :: rest) /\ (forall y, y <> x -> Ct t' y = Ct t y) /\ (forall y, y <> x -> Bt t' y = Bt t y).
Proof.
  intros G P B TM X Cx F. pose proof (term_alpha _ _ TM) as A. pose proof (inner_child t _ n ch G B A) as Px. rewrite <- X in Px.
  destruct (Ascii.eqb_spec ch endChar) as [EC|EC].
  - destruct (setb_spec t x (-1)) as (t2 & -> & S1 & S2 & S3 & S4 & S5 & S6 & S7 & S8); [lia|]. cbn [bind].
    set (t2' := Trie _ _ _ _ _ _).
    destruct (setc_spec t2' x n) as (t3 & -> & R1 & R2 & R3 & R4 & R5 & R6); [lia|]. exists t3. split; [reflexivity|].
    cbn in R2, R3, R4, R5, R6.
    assert (ER : rest = []).
    { destruct (term_rest _ _ TM) as [[_ ?]|[[_ ?] _]]; [assumption|congruence]. }
    assert (B3 : Bt t3 = Bt t2) by now apply Bt_eq.
    assert (C3 : forall y, Ct t3 y = if y =? x then n else Ct t y).
    { intros y. rewrite R1. destruct (y =? x); [reflexivity|]. change (Ct t2' y) with (Ct t2 y). now rewrite (Ct_eq _ _ S2). }
    assert (BO : forall y, y <> x -> Bt t3 y = Bt t y).
    { intros y N. rewrite B3, S1. destruct (Z.eqb_spec y x); [congruence|reflexivity]. }
    destruct (good_add t t3 n w ch x rest G) as (G' & PP & H'); auto.
    + rewrite R4, R5, S4, S5. now apply release; [exact (g_inv _ _ G)|].
    + left. rewrite B3, S1, Z.eqb_refl. split; [reflexivity|]. split; [assumption|]. split; [assumption|congruence].
    + rewrite R2. assumption.
    + rewrite R2. assumption.
    + rewrite R3, S3. lia.
    + split; [|split].
      * split; [assumption|]. split; [congruence|]. split; assumption.
      * intros y N. rewrite C3. destruct (Z.eqb_spec y x); [congruence|reflexivity].
      * assumption.
  - assert (TR : term rest). { destruct (term_rest _ _ TM) as [[? _]|[_ ?]]; [congruence|assumption]. }
    destruct F as (F1 & F2 & F3).
    destruct (setb_spec t x (- temp - 2)) as (t1 & -> & S1 & S2 & S3 & S4 & S5 & S6 & S7 & S8); [lia|]. cbn [bind].
    destruct (sett_spec t1 temp rest) as (t2 & -> & T1 & T2 & T3 & T4 & T5 & T6 & T7 & T8); [lia|]. cbn [bind].
    destruct (setc_spec t2 x n) as (t3 & -> & R1 & R2 & R3 & R4 & R5 & R6); [lia|]. exists t3. split; [reflexivity|].
    assert (C0 : Ct t2 = Ct t) by (rewrite (Ct_eq _ _ T3); now apply Ct_eq).
    assert (T0 : Tt t1 = Tt t) by now apply Tt_eq.
    assert (B3 : Bt t3 = Bt t1) by (rewrite (Bt_eq _ _ R2); now apply Bt_eq). assert (T3' : Tt t3 = Tt t2) by now apply Tt_eq.
    assert (BO : forall y, y <> x -> Bt t3 y = Bt t y).
    { intros y N. rewrite B3, S1. destruct (Z.eqb_spec y x); [congruence|reflexivity]. }
    assert (C3 : forall y, Ct t3 y = if y =? x then n else Ct t y) by (intros y; now rewrite R1, C0).
    destruct (good_add t t3 n w ch x rest G) as (G' & PP & H'); auto.
    + rewrite R4, R5, T4, T5, S4, S5. exact (g_inv _ _ G).
    + right. exists temp. rewrite R4, R5, T4, T5, S4, S5. split; [split; [assumption|split; assumption]|].
      rewrite B3, S1, Z.eqb_refl, T3'. split; [reflexivity|]. rewrite T1 by lia. rewrite Z.eqb_refl. split; [reflexivity|].
      split; [|split; [|split]].
      * intros q Q1 Q2. rewrite T1, T0 by assumption. destruct (Z.eqb_spec q temp); [congruence|reflexivity].
      * congruence.
      * auto.
      * rewrite R3. lia.
    + rewrite R2, T2. lia.
    + rewrite R2, T2. lia.
    + rewrite R3. rewrite S3 in T7. lia.
    + split; [|split].
      * split; [assumption|]. split; [congruence|]. split; assumption.
      * intros y N. rewrite C3. destruct (Z.eqb_spec y x); [congruence|reflexivity].
      * assumption.
Qed.

(** ** Common prefixes *)
Lemma term_split u : term u -> forall v, term v -> u <> v ->
  exists p a u' b v', u = p ++ a :: u' /\ v = p ++ b :: v' /\ a <> b /\ Forall letter p.
Proof.
  induction 1 as [|a u La Tu IH]; intros v Tv N.
  - destruct Tv as [|b v Lb Tv]; [congruence|]. exists [], endChar, [], b, v. cbn [app]. repeat split; auto. intros E. destruct Lb as [_ Q]. congruence.
  - destruct Tv as [|b v Lb Tv].
    + exists [], a, u, endChar, []. cbn [app]. repeat split; auto. destruct La as [_ Q]. congruence.
    + destruct (ascii_dec a b) as [<-|Nab].
      * destruct (IH v Tv ltac:(congruence)) as (p & c & u' & d & v' & -> & -> & Q1 & Q2). exists (a :: p), c, u', d, v'. repeat split; auto.
      * exists [], a, u, b, v. cbn [app]. repeat split; auto.
Qed.
Lemma common_split p a u b v : a <> b -> common (p ++ a :: u) (p ++ b :: v) = p.
Proof.
  intros N. induction p as [|c p IH]; cbn [app common].
  - destruct (Ascii.eqb_spec a b); [congruence|reflexivity].
  - rewrite Ascii.eqb_refl, IH. reflexivity.
Qed.
Lemma commonPrefix_split p a u b v : a <> b -> commonPrefix (p ++ a :: u) (p ++ b :: v) = p.
Proof.
  intros N. unfold commonPrefix. destruct (Nat.ltb _ _); rewrite common_split by congruence; rewrite app_length; cbn [length];
  match goal with |- context [Nat.eqb (length p) ?x] => destruct (Nat.eqb_spec (length p) x) end; reflexivity || lia.
Qed.
Lemma char_at_split p a u : char_at (p ++ a :: u) (length p) = Ok a.
Proof. unfold char_at. rewrite <- app_assoc, nth_error_app2, Nat.sub_diag by lia. reflexivity. Qed.
Lemma skipn_split (p : bytes) a u : skipn (S (length p)) (p ++ a :: u) = u.
Proof. induction p; [reflexivity|assumption]. Qed.
Lemma term_app p u : Forall letter p -> term (p ++ u) -> term u.
Proof.
  induction p as [|c p IH]; intros F T; [assumption|]. inversion F; subst. apply IH; [assumption|].
  destruct (term_rest _ _ T) as [[E _]|[_ Q]]; [now destruct H1|exact Q].
Qed.

(** ** Splitting a leaf *)
Lemma chain_ok : forall prefix t h w temp, Good t h -> h <> -1 -> PATH t h w -> Forall letter prefix ->
  fresh (Bt t) (Ct t) (pos t) (tailList t) h temp ->
  exists t' h', chain_loop smap t h prefix = Ok (t', h') /\ Good t' h' /\ h' <> -1 /\ PATH t' h' (w ++ prefix) /\
    fresh (Bt t') (Ct t') (pos t') (tailList t') h' temp /\ (forall y v, PATH t y v -> PATH t' y v) /\
    (forall s, HAS t' h' s <-> HAS t h s) /\ size t' = size t.
Proof.
  induction prefix as [|ch prefix IH]; intros t h w temp G Nh P FL F; cbn [chain_loop].
  - exists t, h. rewrite app_nil_r. split; [reflexivity|]. split; [assumption|]. split; [assumption|]. split; [assumption|].
    split; [assumption|]. split; [auto|]. split; [tauto|reflexivity].
  - inversion FL as [|? ? [A NE] FL']; subst. rewrite smap_ok by assumption. cbn [bind].
    pose proof (code_range ch A) as CR.
    destruct (avail_ok t [code ch]) as (q & -> & Nq & Fq); [intros j [<-|[]]; lia|]. cbn [bind].
    specialize (Fq (code ch) (or_introl eq_refl)).
    pose proof (g_inv _ _ G) as I. destruct (i_hole _ _ _ _ _ _ I Nh) as [Lh _]. pose proof (inv_pos I _ Lh).
    destruct (setb_spec t h q) as (t1 & -> & S1 & S2 & S3 & S4 & S5 & S6 & S7 & S8); [lia|]. cbn [bind].
    destruct (setc_spec t1 (q + code ch) h) as (t2 & -> & R1 & R2 & R3 & R4 & R5 & R6); [lia|]. cbn [bind].
    destruct (close_hole _ _ _ _ _ _ q (Bt t1) I Nh Nq S1) as (I1 & P1 & H1 & F1).
    assert (C1 : Ct t1 = Ct t) by now apply Ct_eq. assert (T1 : Tt t1 = Tt t) by now apply Tt_eq.
    assert (B2 : Bt t2 = Bt t1) by now apply Bt_eq. assert (T2 : Tt t2 = Tt t1) by now apply Tt_eq.
    assert (BH : Bt t1 h = q) by (rewrite S1, Z.eqb_refl; reflexivity).
    destruct (add_node _ _ _ _ _ h w ch (q + code ch) (Bt t1) (Ct t2) (Tt t) (q + code ch) [] I1 (P1 _ _ P)) as (I2 & P2 & PX & H2);
      [lia|assumption|lia|assumption|reflexivity|intros y; rewrite R1, C1; reflexivity|reflexivity|left; auto|].
    assert (G2 : Good t2 (q + code ch)).
    { constructor.
      - now rewrite B2, T2, T1, R4, R5, S4, S5.
      - rewrite R2. lia.
      - intros x Lx Nx. rewrite R2. rewrite R1, C1 in Lx. destruct (Z.eqb_spec x (q + code ch)); [congruence|].
        destruct (Z.eq_dec x h) as [->|N]; [assumption|]. pose proof (g_live _ _ G x Lx N). lia.
      - intros x Lx Nx. rewrite B2, S1, R3, S3. rewrite R1, C1 in Lx. destruct (Z.eqb_spec x (q + code ch)); [congruence|].
        destruct (Z.eqb_spec x h) as [E|N]; [lia|]. apply (g_tail _ _ G x Lx N). }
    rewrite iget_at by (rewrite R2; lia). cbn [bind]. fold (Bt t2 h). rewrite B2, BH.
    destruct (IH t2 (q + code ch) (w ++ [ch]) temp) as (t' & h' & E & G' & Nh' & P' & F' & PP & H' & S'); auto.
    + lia.
    + now rewrite B2.
    + specialize (F1 _ F). destruct F1 as (Q1 & Q2 & Q3). rewrite R4, R5, S4, S5. split; [assumption|]. split; [assumption|].
      intros x Lx Nx. rewrite B2. rewrite R1, C1 in Lx. destruct (Z.eqb_spec x (q + code ch)); [congruence|].
      apply Q3; [assumption|]. pose proof (inv_pos I _ Lx). lia.
    + exists t', h'. split; [assumption|]. split; [assumption|]. split; [assumption|]. split; [|split; [assumption|]].
      * rewrite <- app_assoc in P'. exact P'.
      * split; [|split].
        -- intros y v Py. apply PP. rewrite B2. auto.
        -- intros s. rewrite H'. rewrite B2, T2, T1. rewrite H2, H1. intuition lia.
        -- congruence.
Qed.

Lemma split_ok t n w ch rest : Good t (-1) -> PATH t n w -> 0 <= Bt t n -> term (ch :: rest) ->
  Ct t (Bt t n + code ch) = n -> Bt t (Bt t n + code ch) < -1 -> ~ HAS t (-1) (w ++ ch :: rest) ->
  exists t', split_leaf smap omap t (Bt t n + code ch) rest = Ok t' /\ added t t' (w ++ ch :: rest).
Proof.
  intros G P B TM E K NH. pose proof (term_alpha _ _ TM) as A. pose proof (g_inv _ _ G) as I. pose proof (path_nonneg I _ _ P).
  pose proof (inner_child t _ n ch G B A) as Px. assert (L : Ct t (Bt t n + code ch) <> -1) by lia.
  destruct (child_kind t n w ch rest G P B TM E) as [(_ & _ & H1 & _)|[(_ & _ & H1 & _)|[(_ & _ & ?)|(NE & TR & _ & TT & H1)]]];
    [contradiction|contradiction|lia|].
  pose proof (child_path t n w ch P A E) as PX. set (x := Bt t n + code ch) in *. set (temp := - Bt t x - 2) in *.
  unfold split_leaf. rewrite (live_base t (-1) x G L) by lia. cbn [bind]. fold temp.
  pose proof (g_tail _ _ G x L ltac:(lia) K). fold temp in H0. rewrite tget_at by lia. cbn [bind]. fold (Tt t temp).
  destruct (make_hole _ _ _ _ _ x w ch I L K PX NE) as (I1 & F1 & H2). fold temp in F1, H2.
  assert (NEQ : rest <> Tt t temp) by (rewrite <- H1; assumption).
  destruct (term_split rest TR (Tt t temp) TT NEQ) as (p & b & v & a & u & E1 & E2 & Nab & FL).
  rewrite E2, E1, commonPrefix_split by assumption.
  assert (G1 : Good t x).
  { constructor; [assumption|apply (g_base _ _ G)| |]; intros y Ly _; pose proof (inv_pos I _ Ly); [apply (g_live _ _ G)|apply (g_tail _ _ G)]; auto; lia. }
  destruct (chain_ok p t x (w ++ [ch]) temp G1 ltac:(lia) PX FL F1) as (t2 & h & -> & G2 & Nh & P2 & F2 & PP2 & H3 & S2). cbn [bind].
  rewrite !char_at_split. cbn [bind].
  assert (TA : term (a :: u)) by (apply (term_app p); [assumption|now rewrite <- E2]).
  assert (TB : term (b :: v)) by (apply (term_app p); [assumption|now rewrite <- E1]).
  pose proof (term_alpha _ _ TA) as AA. pose proof (term_alpha _ _ TB) as AB. rewrite !omap_ok by assumption. cbn [bind].
  pose proof (code_range a AA). pose proof (code_range b AB).
  destruct (avail_ok t2 [code a; code b]) as (q & -> & Nq & Fq); [intros j [<-|[<-|[]]]; lia|]. cbn [bind].
  pose proof (Fq (code a) (or_introl eq_refl)) as Fa. pose proof (Fq (code b) (or_intror (or_introl eq_refl))) as Fb. clear Fq.
  pose proof (g_inv _ _ G2) as I2. destruct (i_hole _ _ _ _ _ _ I2 Nh) as [Lh _]. pose proof (inv_pos I2 _ Lh).
  destruct (setb_spec t2 h q) as (t3 & -> & S31 & S32 & S33 & S34 & S35 & S36 & S37 & S38); [lia|]. cbn [bind].
  destruct (close_hole _ _ _ _ _ _ q (Bt t3) I2 Nh Nq S31) as (I3 & P3 & HH4 & F3).
  assert (C3 : Ct t3 = Ct t2) by now apply Ct_eq. assert (T3 : Tt t3 = Tt t2) by now apply Tt_eq.
  assert (BH : Bt t3 h = q) by (rewrite S31, Z.eqb_refl; reflexivity).
  assert (G3 : Good t3 (-1)).
  { constructor.
    - now rewrite C3, T3, S34, S35.
    - lia.
    - intros y Ly Ny. rewrite C3 in Ly. destruct (Z.eq_dec y h) as [->|N]; [assumption|]. pose proof (g_live _ _ G2 y Ly N). lia.
    - intros y Ly Ny. rewrite S31, S33. rewrite C3 in Ly. destruct (Z.eqb_spec y h); [lia|]. now apply (g_tail _ _ G2). }
  assert (P4 : PATH t3 h (w ++ [ch] ++ p)). { rewrite C3. apply P3. now rewrite app_assoc. }
  destruct (store_old t3 h (w ++ [ch] ++ p) a (q + code a) u temp G3 P4) as (t4 & E4 & A4 & C4 & B4);
    [lia|assumption|lia|now rewrite C3|rewrite C3, S34, S35; now apply F3|].
  destruct A4 as (G4 & S4 & PP4 & HH5). rewrite !skipn_split.
  assert (Nx : q + code b <> q + code a). { intros Q. apply Nab. apply code_inj; auto. lia. }
  assert (NHa : h <> q + code a). { intros Q. rewrite <- Q in Fa. lia. }
  destruct (store_leaf t4 h (w ++ [ch] ++ p) b (q + code b) v (Ascii.eqb b endChar) G4) as (t5 & E5 & A5).
  { auto. } { rewrite B4 by assumption. lia. } { assumption. } { rewrite B4, BH by assumption. reflexivity. }
  { rewrite C4, C3 by assumption. assumption. } { apply Ascii.eqb_eq. }
  destruct A5 as (G5 & S5 & PP5 & HH6).
  exists t5. split.
  - destruct (Ascii.eqb a endChar).
    + destruct (setb t3 (q + code a) (-1)) as [t3a| | |]; cbn [bind] in E4 |- *; try discriminate. rewrite E4. cbn [bind]. exact E5.
    + destruct (setb t3 (q + code a) (- temp - 2)) as [t3a| | |]; cbn [bind] in E4 |- *; try discriminate.
      destruct (sett t3a temp u) as [t3b| | |]; cbn [bind] in E4 |- *; try discriminate. rewrite E4. cbn [bind]. exact E5.
  - split; [assumption|]. split; [congruence|]. split.
    + intros y z Py. apply PP5, PP4. rewrite C3. apply P3. auto.
    + intros s. rewrite HH6, HH5, H2, C3, T3, HH4, H3. rewrite E2.
      replace (w ++ ch :: p ++ a :: u) with ((w ++ [ch] ++ p) ++ a :: u) by (cbn [app]; rewrite <- app_assoc; reflexivity).
      replace (w ++ ch :: p ++ b :: v) with ((w ++ [ch] ++ p) ++ b :: v) by (cbn [app]; rewrite <- app_assoc; reflexivity).
      tauto.
Qed.
End Ops.
