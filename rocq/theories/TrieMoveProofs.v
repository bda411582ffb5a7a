(** Moving the children of a node, conflicts, insertion and removal. *)
From Verif Require Import Base TrieModel TrieProofs TrieOpsProofs.
Local Open Scope Z_scope.

Lemma reparent_ok : forall l t old new, 0 <= Bt t old -> 0 <= old < Z.of_nat (length (base t)) -> (forall k, In k l -> 0 <= k) ->
  exists t', reparent_loop t old new l = Ok t' /\ (forall y, Ct t' y = if mem l (y - Bt t old) then new else Ct t y) /\
    base t' = base t /\ tail t' = tail t /\ pos t' = pos t /\ tailList t' = tailList t /\ size t' = size t.
Proof.
  induction l as [|k l IH]; intros t old new B R H; cbn [reparent_loop].
  - exists t. repeat split; reflexivity.
  - rewrite iget_at by assumption. cbn [bind]. fold (Bt t old).
    destruct (setc_spec t (Bt t old + k) new) as (t1 & -> & R1 & R2 & R3 & R4 & R5 & R6); [specialize (H k (or_introl eq_refl)); lia|]. cbn [bind].
    assert (EB : Bt t1 old = Bt t old) by (now rewrite (Bt_eq t t1 R2)).
    destruct (IH t1 old new) as (t' & E & S1 & S2 & S3 & S4 & S5 & S6); [rewrite EB; assumption|rewrite R2; assumption|firstorder|].
    exists t'. split; [assumption|]. split; [|repeat split; congruence]. intros y. rewrite S1, R1, EB. unfold mem. cbn [existsb].
    destruct (Z.eqb_spec y (Bt t old + k)) as [->|N].
    + replace (Bt t old + k - Bt t old =? k) with true by lia. cbn [orb]. now destruct (existsb _ l).
    + replace (y - Bt t old =? k) with false by lia. reflexivity.
Qed.

Lemma mem_cons j l k : mem (j :: l) k = (k =? j) || mem l k.
Proof. reflexivity. Qed.

(** one round of the loop of Trie.cpp:176-192 *)
Lemma move_step t tb nb m j : 0 <= tb -> 0 <= nb -> 0 <= m -> 1 <= j -> Ct t (tb + j) = m -> Ct t (nb + j) = -1 -> m <> tb + j ->
  (forall y, Ct t y = tb + j -> 0 <= Bt t (tb + j) /\ exists k, 1 <= k <= 27 /\ y = Bt t (tb + j) + k) ->
  tb + j < Z.of_nat (length (base t)) ->
  exists t', (forall other l, move_loop t tb nb other (j :: l) = move_loop t' tb nb (if tb + j =? other then nb + j else other) l) /\
    (forall y, Bt t' y = if y =? tb + j then -1 else if y =? nb + j then Bt t (tb + j) else Bt t y) /\
    (forall y, Ct t' y = if y =? tb + j then -1 else if y =? nb + j then m else if Ct t y =? tb + j then nb + j else Ct t y) /\
    tail t' = tail t /\ pos t' = pos t /\ tailList t' = tailList t /\ size t' = size t /\
    (length (base t) <= length (base t'))%nat /\ nb + j < Z.of_nat (length (base t')).
Proof.
  intros Ptb Pnb Pm Pj CO CN NM GC RO.
  assert (NE : tb + j <> nb + j) by (intros Q; rewrite Q in CO; lia).
  destruct (setb_spec t (nb + j) (Bt t (tb + j))) as (t1 & E1 & S1 & S2 & S3 & S4 & S5 & S6 & S7 & S8); [lia|].
  assert (C1 : Ct t1 = Ct t) by (now apply Ct_eq).
  destruct (setc_spec t1 (nb + j) m) as (t2 & E2 & R1 & R2 & R3 & R4 & R5 & R6); [lia|].
  assert (B2 : Bt t2 = Bt t1) by (now apply Bt_eq).
  assert (BO2 : Bt t2 (tb + j) = Bt t (tb + j)).
  { rewrite B2, S1. destruct (Z.eqb_spec (tb + j) (nb + j)); [congruence|reflexivity]. }
  assert (C2 : forall y, Ct t2 y = tb + j -> Ct t y = tb + j /\ y <> nb + j).
  { intros y. rewrite R1, C1. destruct (Z.eqb_spec y (nb + j)); [congruence|]. auto. }
  assert (X : exists t3, (if Bt t2 (tb + j) >? -1 then list <- outArcs t2 (tb + j) ;; reparent_loop t2 (tb + j) (nb + j) list else Ok t2) = Ok t3 /\
    (forall y, Ct t3 y = if Ct t2 y =? tb + j then nb + j else Ct t2 y) /\
    base t3 = base t2 /\ tail t3 = tail t2 /\ pos t3 = pos t2 /\ tailList t3 = tailList t2 /\ size t3 = size t2).
  { rewrite BO2. destruct (Z.gtb_spec (Bt t (tb + j)) (-1)) as [P|P].
    - unfold outArcs. rewrite iget_at by (rewrite R2; lia). cbn [bind]. fold (Bt t2 (tb + j)). rewrite BO2.
      destruct (arcs_loop_ok t2 (tb + j) (Bt t (tb + j)) 27 1) as (l & -> & _ & S); [lia|]. cbn [bind].
      destruct (reparent_ok l t2 (tb + j) (nb + j)) as (t3 & E3 & Q1 & Q2); [lia|rewrite R2; lia|intros k Hk; apply S in Hk; lia|].
      exists t3. split; [assumption|]. split; [|assumption]. intros y. rewrite Q1, BO2.
      destruct (Z.eqb_spec (Ct t2 y) (tb + j)) as [E|E].
      + destruct (C2 y E) as [E' _]. destruct (GC y E') as [_ (k & Hk & ->)].
        rewrite (proj2 (mem_spec _ _)); [reflexivity|]. apply S. split; [lia|]. now replace (Bt t (tb + j) + (Bt t (tb + j) + k - Bt t (tb + j))) with (Bt t (tb + j) + k) by lia.
      + destruct (memP l (y - Bt t (tb + j))) as [[Q ->]|[_ ->]]; [|reflexivity]. exfalso. apply E. apply S in Q as [_ Q].
        now replace (Bt t (tb + j) + (y - Bt t (tb + j))) with y in Q by lia.
    - exists t2. split; [reflexivity|]. split; [|repeat split]. intros y. destruct (Z.eqb_spec (Ct t2 y) (tb + j)) as [E|E]; [|reflexivity].
      destruct (C2 y E) as [E' _]. destruct (GC y E'). lia. }
  destruct X as (t3 & E3 & Q1 & Q2 & Q3 & Q4 & Q5 & Q6).
  destruct (setb_spec t3 (tb + j) (-1)) as (t4 & E4 & U1 & U2 & U3 & U4 & U5 & U6 & U7 & U8); [lia|].
  destruct (setc_spec t4 (tb + j) (-1)) as (t5 & E5 & V1 & V2 & V3 & V4 & V5 & V6); [lia|].
  exists t5. split; [|split; [|split]].
  - intros other l. cbn [move_loop]. rewrite iget_at by lia. cbn [bind]. fold (Bt t (tb + j)). rewrite E1. cbn [bind].
    rewrite iget_live by (rewrite S2; fold (Ct t (tb + j)); lia). cbn [bind]. rewrite S2. fold (Ct t (tb + j)). rewrite CO, E2. cbn [bind].
    rewrite iget_at by (rewrite R2; lia). cbn [bind]. fold (Bt t2 (tb + j)). rewrite E3. cbn [bind]. rewrite E4. cbn [bind]. rewrite E5. reflexivity.
  - intros y. rewrite (Bt_eq _ _ V2), U1. destruct (y =? tb + j); [reflexivity|]. rewrite (Bt_eq _ _ Q2), B2. apply S1.
  - intros y. rewrite V1. destruct (y =? tb + j); [reflexivity|]. rewrite (Ct_eq _ _ U2), Q1, R1, C1.
    destruct (y =? nb + j); [|reflexivity]. destruct (Z.eqb_spec m (tb + j)); [congruence|reflexivity].
  - split; [congruence|]. split; [congruence|]. split; [congruence|]. split; [congruence|]. rewrite V2. rewrite Q2, R2 in U7. lia.
Qed.

Lemma move_ok tb nb m : 0 <= tb -> 0 <= nb -> 0 <= m -> forall l t other, NoDup l ->
  (forall j, In j l -> 1 <= j /\ Ct t (tb + j) = m /\ Ct t (nb + j) = -1 /\ m <> tb + j /\ m <> nb + j /\ tb + j < Z.of_nat (length (base t))) ->
  (forall j y, In j l -> Ct t y = tb + j -> 0 <= Bt t (tb + j) /\ exists k, 1 <= k <= 27 /\ y = Bt t (tb + j) + k) ->
  (~ In (other - nb) l \/ forall j j', In j l -> In j' l -> tb + j <> nb + j') ->
  exists t', move_loop t tb nb other l = Ok (t', if mem l (other - tb) then other - tb + nb else other) /\
    (forall y, Bt t' y = if mem l (y - tb) then -1 else if mem l (y - nb) then Bt t (y - nb + tb) else Bt t y) /\
    (forall y, Ct t' y = if mem l (y - tb) then -1 else if mem l (y - nb) then m
                         else if mem l (Ct t y - tb) then Ct t y - tb + nb else Ct t y) /\
    tail t' = tail t /\ pos t' = pos t /\ tailList t' = tailList t /\ size t' = size t /\
    (length (base t) <= length (base t'))%nat /\ (forall j, In j l -> nb + j < Z.of_nat (length (base t'))).
Proof.
  intros Ptb Pnb Pm. induction l as [|j l IH]; intros t other ND HJ HG _.
  - exists t. cbn [move_loop mem existsb]. repeat split; auto. intros j [].
  - inversion ND as [|? ? NI ND']; subst.
    destruct (HJ j (or_introl eq_refl)) as (J1 & J2 & J3 & J4 & J5 & J6).
    destruct (move_step t tb nb m j Ptb Pnb Pm J1 J2 J3 J4 (fun y => HG j y (or_introl eq_refl)) J6)
      as (t1 & E1 & B1 & C1 & M1 & M2 & M3 & M4 & M5 & M6).
    assert (D : forall a b, In a (j :: l) -> In b (j :: l) -> tb + a <> nb + b).
    { intros a b Ha Hb Q. destruct (HJ a Ha) as (_ & Q1 & _). destruct (HJ b Hb) as (_ & _ & Q2 & _). rewrite Q in Q1. lia. }
    destruct (IH t1 (if tb + j =? other then nb + j else other)) as (t' & E & B' & C' & N1 & N2 & N3 & N4 & N5 & N6).
    + assumption.
    + intros a Ha. destruct (HJ a (or_intror Ha)) as (A1 & A2 & A3 & A4 & A5 & A6). assert (a <> j) by congruence.
      split; [assumption|]. rewrite !C1. 
      replace (tb + a =? tb + j) with false by lia. 
      replace (nb + a =? nb + j) with false by lia.
      replace (tb + a =? nb + j) with false by (pose proof (D a j (or_intror Ha) (or_introl eq_refl)); lia).
      replace (nb + a =? tb + j) with false by (pose proof (D j a (or_introl eq_refl) (or_intror Ha)); lia).
      rewrite A2, A3. replace (m =? tb + j) with false by lia. replace (-1 =? tb + j) with false by lia. repeat split; auto; lia.
    + intros a y Ha Ey. destruct (HJ a (or_intror Ha)) as (A1 & A2 & A3 & A4 & A5 & A6). assert (a <> j) by congruence.
      rewrite C1 in Ey. destruct (Z.eqb_spec y (tb + j)); [lia|]. destruct (Z.eqb_spec y (nb + j)); [congruence|].
      destruct (Z.eqb_spec (Ct t y) (tb + j)) as [Q|Q].
      { exfalso. symmetry in Ey. revert Ey. apply D; [now right|now left]. }
      rewrite B1. replace (tb + a =? tb + j) with false by lia.
      replace (tb + a =? nb + j) with false by (pose proof (D a j (or_intror Ha) (or_introl eq_refl)); lia).
      apply (HG a y); auto. now right.
    + right. intros a b Ha Hb. apply D; now right.
    + exists t'. split; [|split; [|split]].
      * rewrite E1, E. do 2 f_equal. rewrite mem_cons. destruct (Z.eqb_spec (tb + j) other) as [Q|Q].
        -- replace (other - tb =? j) with true by lia. cbn [orb].
           destruct (memP l (nb + j - tb)) as [[Q1 ->]|[_ ->]]; [|lia]. exfalso.
           apply (D (nb + j - tb) j); [now right|now left|lia].
        -- replace (other - tb =? j) with false by lia. reflexivity.
      * intros y. rewrite B', !mem_cons. 
        destruct (Z.eqb_spec (y - tb) j) as [Q|Q]; cbn [orb].
        -- rewrite (proj2 (mem_false l (y - tb))) by (rewrite Q; assumption).
           destruct (memP l (y - nb)) as [[Q1 ->]|[_ ->]].
           ++ exfalso. apply (D j (y - nb)); [now left|now right|lia].
           ++ rewrite B1. replace (y =? tb + j) with true by lia. reflexivity.
        -- destruct (mem l (y - tb)); [reflexivity|]. destruct (Z.eqb_spec (y - nb) j) as [Q2|Q2]; cbn [orb].
           ++ rewrite (proj2 (mem_false l (y - nb))) by (rewrite Q2; assumption). rewrite B1.
              replace (y =? tb + j) with false by lia. replace (y =? nb + j) with true by lia. f_equal. lia.
           ++ destruct (memP l (y - nb)) as [[Q3 ->]|[_ ->]]; rewrite B1.
              ** replace (y - nb + tb =? tb + j) with false by lia.
                 replace (y - nb + tb =? nb + j) with false; [reflexivity|].
                 pose proof (D (y - nb) j (or_intror Q3) (or_introl eq_refl)). lia.
              ** replace (y =? tb + j) with false by lia. replace (y =? nb + j) with false by lia. reflexivity.
      * intros y. rewrite C', !mem_cons.
        destruct (Z.eqb_spec (y - tb) j) as [Q|Q]; cbn [orb].
        -- rewrite (proj2 (mem_false l (y - tb))) by (rewrite Q; assumption).
           destruct (memP l (y - nb)) as [[Q1 ->]|[_ ->]].
           ++ exfalso. apply (D j (y - nb)); [now left|now right|lia].
           ++ rewrite C1. replace (y =? tb + j) with true by lia.
              destruct (memP l (-1 - tb)) as [[Q3 ->]|[_ ->]]; [|reflexivity]. destruct (HJ _ (or_intror Q3)). lia.
        -- destruct (mem l (y - tb)); [reflexivity|]. destruct (Z.eqb_spec (y - nb) j) as [Q2|Q2]; cbn [orb].
           ++ rewrite (proj2 (mem_false l (y - nb))) by (rewrite Q2; assumption). rewrite C1.
              replace (y =? tb + j) with false by lia. replace (y =? nb + j) with true by lia.
              destruct (memP l (m - tb)) as [[Q3 ->]|[_ ->]]; [|reflexivity]. destruct (HJ _ (or_intror Q3)) as (_ & _ & _ & Q4 & _). lia.
           ++ destruct (mem l (y - nb)); [reflexivity|]. rewrite C1.
              replace (y =? tb + j) with false by lia. replace (y =? nb + j) with false by lia.
              destruct (Z.eqb_spec (Ct t y) (tb + j)) as [Q3|Q3].
              ** replace (Ct t y - tb =? j) with true by lia. cbn [orb].
                 destruct (memP l (nb + j - tb)) as [[Q4 ->]|[_ ->]]; [|lia]. exfalso.
                 apply (D (nb + j - tb) j); [now right|now left|lia].
              ** replace (Ct t y - tb =? j) with false by lia. reflexivity.
      * split; [congruence|]. split; [congruence|]. split; [congruence|]. split; [congruence|]. split; [lia|].
        intros a [<-|Ha]; [lia|auto].
Qed.

Section Ops.
Context {AL : Alphabet}.
Context (smap omap : ascii -> outcome Z).
Context (smap_ok : forall ch, alpha ch -> smap ch = Ok (code ch)) (omap_ok : forall ch, alpha ch -> omap ch = Ok (code ch)).
Notation HAS t h := (has (Bt t) (Ct t) (Tt t) h).
Notation PATH t := (path (Bt t) (Ct t)).

Lemma move_node t m w nb l other : Good t (-1) -> PATH t m w -> 0 <= Bt t m -> 0 <= nb -> NoDup l ->
  (forall k, In k l <-> 1 <= k <= 27 /\ Ct t (Bt t m + k) = m) -> (forall k, In k l -> Ct t (nb + k) = -1) ->
  exists t', (t1 <- setb t m nb ;; move_loop t1 (Bt t m) nb other l) = Ok (t', ren (Ct t) m (Bt t m) nb other) /\
    Good t' (-1) /\ (forall y v, PATH t y v -> PATH t' (ren (Ct t) m (Bt t m) nb y) v) /\
    (forall s, HAS t' (-1) s <-> HAS t (-1) s) /\ size t' = size t /\
    (forall y, Bt t' y = if y =? m then nb else if mem l (y - Bt t m) then -1 else if mem l (y - nb) then Bt t (y - nb + Bt t m) else Bt t y) /\
    (forall y, Ct t' y = if mem l (y - Bt t m) then -1 else if mem l (y - nb) then m
                      else if mem l (Ct t y - Bt t m) then Ct t y - Bt t m + nb else Ct t y).
Proof.
  intros G P Bm Pn ND HL HF. pose proof (g_inv _ _ G) as I. pose proof (path_nonneg I _ _ P) as Pm.
  assert (Lm : m = 0 \/ Ct t m <> -1) by (destruct (path_live I _ _ P) as [[? _]|]; auto).
  set (tb := Bt t m) in *.
  assert (SELF : Ct t m <> m) by (apply (not_self _ _ _ _ _ _ _ I); assumption).
  assert (NO : forall j, In j l -> m <> tb + j). { intros j Hj Q. apply HL in Hj as [_ Hj]. rewrite <- Q in Hj. congruence. }
  assert (NN : forall j, In j l -> m <> nb + j).
  { intros j Hj Q. pose proof (HF j Hj). apply HL in Hj as [Hj _]. rewrite <- Q in H. destruct Lm; lia. }
  assert (NOLD : forall y, mem l (y - tb) = true <-> Ct t y = m).
  { intros y. rewrite mem_spec, HL. replace (tb + (y - tb)) with y by lia. split; [tauto|]. intros E. split; [|assumption].
    destruct (i_par _ _ _ _ _ _ I y ltac:(lia)) as (_ & _ & _ & ch & A & X). rewrite E in X. fold tb in X. pose proof (code_range ch A). lia. }
  destruct (setb_spec t m nb) as (t1 & -> & S1 & S2 & S3 & S4 & S5 & S6 & S7 & S8); [assumption|]. cbn [bind].
  assert (C1 : Ct t1 = Ct t) by now apply Ct_eq.
  assert (B1 : forall y, y <> m -> Bt t1 y = Bt t y) by (intros y N; rewrite S1; destruct (Z.eqb_spec y m); congruence).
  destruct (move_ok tb nb m Bm Pn Pm l t1 other ND) as (t' & E & B' & C' & N1 & N2 & N3 & N4 & N5 & N6).
  - intros j Hj. rewrite C1. pose proof (NO j Hj). pose proof (NN j Hj). pose proof (HF j Hj). apply HL in Hj as [R Q].
    repeat split; auto; [lia|]. pose proof (g_live _ _ G (tb + j) ltac:(lia) ltac:(lia)). lia.
  - intros j y Hj. rewrite C1, B1 by (pose proof (NO j Hj); congruence). intros Q. apply HL in Hj as [R Q'].
    destruct (i_par _ _ _ _ _ _ I y ltac:(lia)) as (_ & _ & Q3 & ch & A & X). rewrite Q in *. split; [assumption|].
    exists (code ch). split; [now apply code_range|assumption].
  - right. intros a b Ha Hb Q. apply HL in Ha as [_ Ha]. apply HF in Hb. rewrite Q in Ha. lia.
  - exists t'.
    assert (B'' : forall y, Bt t' y = if y =? m then nb else if mem l (y - tb) then -1 else if mem l (y - nb) then Bt t (y - nb + tb) else Bt t y).
    { intros y. rewrite B'. destruct (Z.eqb_spec y m) as [->|N].
      - rewrite (proj2 (mem_false l (m - tb))), (proj2 (mem_false l (m - nb))).
        + rewrite S1, Z.eqb_refl. reflexivity.
        + intros Q. apply (NN _ Q). lia.
        + intros Q. apply (NO _ Q). lia.
      - destruct (mem l (y - tb)); [reflexivity|]. destruct (memP l (y - nb)) as [[Q ->]|[_ ->]]; [|auto].
        apply B1. intros Q1. apply (NO _ Q). lia. }
    assert (C'' : forall y, Ct t' y = if mem l (y - tb) then -1 else if mem l (y - nb) then m
                      else if mem l (Ct t y - tb) then Ct t y - tb + nb else Ct t y) by (intros y; rewrite C', C1; reflexivity).
    destruct (relocate _ _ _ _ _ m nb l (Bt t') (Ct t') I Lm Bm Pn HL HF B'' C'') as (I' & PP & HH).
    assert (T' : Tt t' = Tt t) by (unfold Tt; congruence).
    split; [|split; [|split; [|split; [|split; [|split]]]]].
    + rewrite E. do 2 f_equal. unfold ren. pose proof (NOLD other) as NO'. destruct (mem l (other - tb)), (Z.eqb_spec (Ct t other) m); try reflexivity; intuition congruence.
    + constructor.
      * rewrite T', N2, N3, S4, S5. assumption.
      * lia.
      * intros y Ly Ny. rewrite C'' in Ly. destruct (mem l (y - tb)); [congruence|]. destruct (memP l (y - nb)) as [[Q Em]|[Q Em]]; rewrite Em in Ly.
        -- specialize (N6 _ Q). lia.
        -- assert (Ct t y <> -1). { destruct (memP l (Ct t y - tb)) as [[Q3 E3]|[Q3 E3]]; rewrite E3 in Ly; [|assumption]. apply HL in Q3. lia. }
           pose proof (g_live _ _ G y H Ny). lia.
      * intros y Ly Ny Q0. rewrite N1, S3. rewrite C'' in Ly. rewrite B'' in *. destruct (y =? m); [lia|]. destruct (mem l (y - tb)); [congruence|].
        destruct (memP l (y - nb)) as [[Q Em]|[Q Em]]; rewrite Em in *.
        -- apply HL in Q as [Q1 Q2]. replace (tb + (y - nb)) with (y - nb + tb) in Q2 by lia. apply (g_tail _ _ G (y - nb + tb)); [lia|lia|assumption].
        -- assert (Ct t y <> -1). { destruct (memP l (Ct t y - tb)) as [[Q3 E3]|[Q3 E3]]; rewrite E3 in Ly; [|assumption]. apply HL in Q3. lia. }
           now apply (g_tail _ _ G y).
    + assumption.
    + intros s. rewrite T'. apply HH.
    + congruence.
    + assumption.
    + assumption.
Qed.

Definition added0 (t t' : trie) (word : bytes) : Prop :=
  Good t' (-1) /\ size t' = size t /\ (forall s, HAS t' (-1) s <-> HAS t (-1) s \/ s = word).
Lemma added_added0 t t' word : added t t' word -> added0 t t' word.
Proof. intros (A & B & _ & C). split; [exact A|]. split; [exact B|exact C]. Qed.

Lemma resolve_ok t n w ch rest : Good t (-1) -> PATH t n w -> 0 <= Bt t n -> term (ch :: rest) ->
  Ct t (Bt t n + code ch) <> -1 -> Ct t (Bt t n + code ch) <> n ->
  exists t', resolve_conflict t n (Bt t n + code ch) (code ch) rest = Ok t' /\ added0 t t' (w ++ ch :: rest).
Proof.
  intros G P B TM L N. pose proof (term_alpha _ _ TM) as A. pose proof (g_inv _ _ G) as I. pose proof (path_nonneg I _ _ P) as Pn.
  pose proof (code_range ch A) as CR. set (x := Bt t n + code ch) in *.
  destruct (outArcs_ok t (-1) n w G P ltac:(lia) B) as (ln & E1 & ND1 & L1).
  destruct (no_child I (Ct t x) x eq_refl L) as (_ & Bm & _).
  destruct (i_reach _ _ _ _ _ _ I x L) as [wx Px]. pose proof (inv_pos I _ L) as Pos.
  destruct (path_cases _ _ Px) as [[? _]|(wm & c & _ & Pm & _)]; [lia|].
  pose proof (path_nonneg I _ _ Pm) as Pm0.
  destruct (outArcs_ok t (-1) (Ct t x) wm G Pm ltac:(lia) Bm) as (lc & E2 & ND2 & L2).
  unfold resolve_conflict. rewrite E1. cbn [bind]. rewrite iget_live by assumption. cbn [bind]. fold (Ct t x). rewrite E2. cbn [bind].
  (* both branches end in the same way *)
  assert (FIN : forall m nb l wm, PATH t m wm -> 0 <= Bt t m -> 0 <= nb -> NoDup l ->
    (forall k, In k l <-> 1 <= k <= 27 /\ Ct t (Bt t m + k) = m) -> (forall k, In k l -> Ct t (nb + k) = -1) ->
    (m = n /\ Ct t (nb + code ch) = -1 \/ m = Ct t x) ->
    exists t', (tb <- iget (base t) m ;; t <- setb t m nb ;; '(t, node_other) <- move_loop t tb nb n l ;;
       b <- iget (base t) node_other ;; let temp_node := b + code ch in
       t <- (if code ch =? 1 then setb t temp_node (-1)
        else let '(t, p) := nextTail t in
             t <- setb t temp_node (- p - 2) ;; sett t p rest) ;;
       setc t temp_node node_other) = Ok t' /\ added0 t t' (w ++ ch :: rest)).
  { intros m nb l w' Pmm Bmm Pnb ND HL HF CASE. pose proof (path_nonneg I _ _ Pmm) as Pm'.
    rewrite (path_base t (-1) m w' G Pmm) by lia. cbn [bind].
    destruct (move_node t m w' nb l n G Pmm Bmm Pnb ND HL HF) as (t1 & E & G1 & PP & HH & SZ & B1 & C1).
    destruct (setb t m nb) as [t0| | |]; cbn [bind] in E |- *; try discriminate. rewrite E. cbn [bind].
    pose proof (PP _ _ P) as P1. set (n' := ren (Ct t) m (Bt t m) nb n) in *.
    rewrite (path_base t1 (-1) n' w G1 P1) by (pose proof (path_nonneg (g_inv _ _ G1) _ _ P1); lia). cbn [bind]. cbv zeta.
    assert (SELF : Ct t m <> m) by (apply (not_self _ _ _ _ _ _ _ I); assumption).
    assert (OLD : forall k, In k l -> Ct t (Bt t m + k) = m) by (intros k Hk; now apply HL).
    assert (X : 0 <= Bt t1 n' /\ Ct t1 (Bt t1 n' + code ch) = -1).
    { destruct CASE as [[-> CF]|EM].
      - assert (n' = n) as -> by (unfold n', ren; destruct (Z.eqb_spec (Ct t n) n); [contradiction|reflexivity]).
        rewrite B1, Z.eqb_refl. split; [assumption|]. rewrite C1.
        destruct (memP l (nb + code ch - Bt t n)) as [[_ ->]|[_ ->]]; [reflexivity|].
        destruct (memP l (nb + code ch - nb)) as [[Q ->]|[_ ->]].
        + apply OLD in Q. replace (nb + code ch - nb) with (code ch) in Q by lia. fold x in Q. contradiction.
        + rewrite CF. destruct (memP l (-1 - Bt t n)) as [[Q ->]|[_ ->]]; [|reflexivity]. apply HL in Q. lia.
      - assert (NM : n <> m) by congruence.
        assert (Bt t1 n' = Bt t n) as ->.
        { rewrite B1. unfold n', ren. destruct (Z.eqb_spec (Ct t n) m) as [EN|EN].
          - assert (IN : In (n - Bt t m) l).
            { apply HL. replace (Bt t m + (n - Bt t m)) with n by lia. split; [|assumption].
              destruct (i_par _ _ _ _ _ _ I n ltac:(lia)) as (_ & _ & _ & c' & A' & X'). rewrite EN in X'. pose proof (code_range c' A'). lia. }
            pose proof (HF _ IN) as HFn. replace (nb + (n - Bt t m)) with (n - Bt t m + nb) in HFn by lia.
            destruct (Z.eqb_spec (n - Bt t m + nb) m) as [Q|Q].
            { rewrite Q in HFn. apply HL in IN. destruct (path_live I _ _ Pmm) as [[? _]|]; lia. }
            destruct (memP l (n - Bt t m + nb - Bt t m)) as [[Q1 ->]|[_ ->]].
            { apply OLD in Q1. replace (Bt t m + (n - Bt t m + nb - Bt t m)) with (n - Bt t m + nb) in Q1 by lia. lia. }
            replace (n - Bt t m + nb - nb) with (n - Bt t m) by lia. rewrite (proj2 (mem_spec _ _) IN). f_equal. lia.
          - destruct (Z.eqb_spec n m); [congruence|].
            destruct (memP l (n - Bt t m)) as [[Q1 ->]|[_ ->]].
            { apply OLD in Q1. replace (Bt t m + (n - Bt t m)) with n in Q1 by lia. contradiction. }
            destruct (memP l (n - nb)) as [[Q1 ->]|[_ ->]]; [|reflexivity].
            pose proof (HF _ Q1) as Q2. replace (nb + (n - nb)) with n in Q2 by lia. apply HL in Q1.
            destruct (path_live I _ _ P) as [[? _]|]; [lia|contradiction]. }
        split; [assumption|]. fold x. rewrite C1, (proj2 (mem_spec l (x - Bt t m))); [reflexivity|].
        apply HL. replace (Bt t m + (x - Bt t m)) with x by lia. split; [|congruence].
        destruct (i_par _ _ _ _ _ _ I x L) as (_ & _ & _ & c' & A' & X'). rewrite <- EM in X'. pose proof (code_range c' A'). lia. }
    destruct X as [BN CX].
    destruct (store_leaf smap omap smap_ok omap_ok t1 n' w ch (Bt t1 n' + code ch) rest (code ch =? 1) G1 P1 BN TM eq_refl CX) as (t2 & ES & AD).
    { rewrite Z.eqb_eq. split; [|intros ->; apply code_end]. intros Q. apply code_inj; [assumption|apply alpha_end|]. now rewrite code_end. }
    exists t2. split; [exact ES|]. destruct AD as (G2 & S2 & _ & H2). split; [assumption|]. split; [congruence|]. intros s. rewrite H2, HH. reflexivity. }
  destruct (Nat.ltb (length ln + 1) (length lc)).
  - destruct (avail_ok t (ln ++ [code ch])) as (nb & -> & Nq & Fq).
    { intros j Hj. apply in_app_iff in Hj as [Hj|[<-|[]]]; [apply L1 in Hj|]; lia. }
    cbn [bind]. apply (FIN n nb ln w); auto.
    + intros k Hk. apply Fq. apply in_or_app. now left.
    + left. split; [reflexivity|]. apply Fq. apply in_or_app. right. now left.
  - destruct (avail_ok t lc) as (nb & -> & Nq & Fq); [intros j Hj; apply L2 in Hj; lia|].
    cbn [bind]. apply (FIN (Ct t x) nb lc wm); auto.
Qed.

Lemma insert_loop_ok t : Good t (-1) -> forall l n w, PATH t n w -> 0 <= Bt t n -> term l -> ~ HAS t (-1) (w ++ l) ->
  exists t', insert_loop smap omap t n l = Ok t' /\ added0 t t' (w ++ l).
Proof.
  intros G. induction l as [|ch rest IH]; intros n w P B TM NH; [now apply term_nonempty in TM|].
  pose proof (term_alpha _ _ TM) as A. pose proof (g_inv _ _ G) as I. pose proof (inner_child smap omap smap_ok omap_ok t _ n ch G B A) as Px.
  pose proof (path_nonneg I _ _ P) as Pn.
  cbn [insert_loop]. rewrite smap_ok by assumption. cbn [bind]. rewrite (path_base t (-1) n w G P) by lia. cbn [bind].
  rewrite igetc_at by lia. cbn [bind]. fold (Ct t (Bt t n + code ch)).
  destruct (Z.eqb_spec (Ct t (Bt t n + code ch)) (-1)) as [E|E].
  - destruct (setTail_ok smap omap smap_ok omap_ok t n w ch _ rest G P B TM eq_refl E) as (t' & -> & AD). exists t'. split; [reflexivity|]. now apply added_added0.
  - rewrite iget_live by assumption. cbn [bind]. fold (Ct t (Bt t n + code ch)).
    destruct (Z.eqb_spec (Ct t (Bt t n + code ch)) n) as [E2|E2].
    + rewrite (live_base t (-1) _ G E) by lia. cbn [bind]. destruct (Z.ltb_spec (Bt t (Bt t n + code ch)) (-1)) as [K|K].
      * destruct (split_ok smap omap smap_ok omap_ok t n w ch rest G P B TM E2 K NH) as (t' & -> & AD). exists t'. split; [reflexivity|]. now apply added_added0.
      * destruct (child_kind smap omap smap_ok omap_ok t n w ch rest G P B TM E2) as [(_ & _ & H1 & _)|[(_ & _ & H1 & _)|[(_ & TR & K')|(_ & _ & K' & _)]]];
          [contradiction|contradiction| |lia].
        replace (w ++ ch :: rest) with ((w ++ [ch]) ++ rest) in * by (rewrite <- app_assoc; reflexivity).
        apply IH; auto. now apply child_path.
    + now apply resolve_ok.
Qed.

(** ** Removal *)
Definition removed (t t' : trie) (word : bytes) : Prop :=
  Good t' (-1) /\ size t' = size t /\ (forall s, HAS t' (-1) s <-> HAS t (-1) s /\ s <> word) /\
  (forall y, Ct t' y <> -1 -> Ct t' y = Ct t y /\ Bt t' y = Bt t y) /\ Bt t' 0 = Bt t 0.

Lemma remove_loop_ok t : Good t (-1) -> forall l n w, PATH t n w -> 0 <= Bt t n -> term l ->
  (HAS t (-1) (w ++ l) -> exists t', remove_loop smap t n l = Ok (t', true) /\ removed t t' (w ++ l)) /\
  (~ HAS t (-1) (w ++ l) -> remove_loop smap t n l = Ok (t, false) \/ remove_loop smap t n l = UB).
Proof.
  intros G. induction l as [|ch rest IH]; intros n w P B TM; [now apply term_nonempty in TM|].
  pose proof (term_alpha _ _ TM) as A. pose proof (g_inv _ _ G) as I. pose proof (inner_child smap omap smap_ok omap_ok t _ n ch G B A) as Px.
  pose proof (path_nonneg I _ _ P) as Pn.
  cbn [remove_loop]. rewrite smap_ok by assumption. cbn [bind]. rewrite (path_base t (-1) n w G P) by lia. cbn [bind].
  set (x := Bt t n + code ch) in *.
  destruct (Z.eq_dec (Ct t x) n) as [E|E].
  2: { split.
    - intros H. destruct (has_step smap omap smap_ok omap_ok t n w ch rest G P B H) as [Q _]. contradiction.
    - intros _. destruct (Z_lt_dec x (Z.of_nat (length (check t)))) as [R|R].
      + left. rewrite iget_at by lia. cbn [bind]. fold (Ct t x). destruct (Z.eqb_spec (Ct t x) n); [contradiction|reflexivity].
      + right. unfold iget, get. destruct (aget (check t) x) as [v| | |] eqn:Q; try reflexivity; unfold aget in Q; exfalso.
        * destruct (x <? 0); [discriminate|]. destruct (nth_error _ _) eqn:Q2; [|discriminate].
          assert (nth_error (check t) (Z.to_nat x) <> None) by congruence. apply nth_error_Some in H. lia.
        * destruct (x <? 0); [discriminate|]. destruct (nth_error _ _); discriminate.
        * destruct (x <? 0); [discriminate|]. destruct (nth_error _ _); discriminate. }
  assert (L : Ct t x <> -1) by lia. pose proof (child_path t n w ch P A E) as PX. fold x in PX.
  rewrite iget_live by assumption. cbn [bind]. fold (Ct t x). rewrite E, Z.eqb_refl. cbn [negb].
  rewrite (live_base t (-1) x G L) by lia. cbn [bind].
  assert (RM : forall rest', (Bt t x = -1 /\ rest' = [] \/ Bt t x < -1 /\ rest' = Tt t (- Bt t x - 2)) -> forall t',
    (forall y, y <> x -> Bt t' y = Bt t y) -> (forall y, Ct t' y = if y =? x then -1 else Ct t y) ->
    tail t' = tail t -> pos t' = pos t -> tailList t' = tailList t -> size t' = size t -> (length (base t) <= length (base t'))%nat ->
    removed t t' (w ++ ch :: rest')).
  { intros rest' K t' HB HC T1 T2 T3 T4 T5.
    destruct (remove_leaf _ _ _ _ _ x (w ++ [ch]) rest' (Bt t') (Ct t') I L PX K HB HC) as [I' H'].
    assert (T' : Tt t' = Tt t) by now apply Tt_eq. split; [|split; [assumption|]].
    - constructor.
      + now rewrite T', T2, T3.
      + pose proof (g_base _ _ G). lia.
      + intros y Ly Ny. rewrite HC in Ly. destruct (Z.eqb_spec y x); [congruence|]. pose proof (g_live _ _ G y Ly Ny). lia.
      + intros y Ly Ny. rewrite HC in Ly. destruct (Z.eqb_spec y x); [congruence|]. rewrite HB, T1 by assumption. now apply (g_tail _ _ G).
    - split; [intros s; rewrite T', H', <- app_assoc; reflexivity|]. split.
      + intros y Ly. rewrite HC in *. destruct (Z.eqb_spec y x); [congruence|]. auto.
      + apply HB. lia. }
  destruct (child_kind smap omap smap_ok omap_ok t n w ch rest G P B TM E) as [(_ & -> & H1 & K)|[(_ & -> & H1 & K & KT)|[(NE & TR & K)|(NE & TR & K & KT & H1)]]]; fold x in K.
  - rewrite K. cbn [Z.ltb Z.compare]. change (-1 <? -1) with false. cbn [remove_loop].
    destruct (setc_spec t x (-1)) as (t' & -> & R1 & R2 & R3 & R4 & R5 & R6); [lia|]. cbn [bind]. split; [|contradiction]. intros _.
    exists t'. split; [reflexivity|]. apply RM; auto; [intros y _; now rewrite (Bt_eq _ _ R2)|rewrite R2; lia].
  - fold x in KT. destruct (Z.ltb_spec (Bt t x) (-1)); [|lia].
    pose proof (g_tail _ _ G x L ltac:(lia) K). rewrite tgetc_at by lia. cbn [bind]. fold (Tt t (- Bt t x - 2)). rewrite KT.
    destruct (list_eq_dec _ _ _) as [_|Q]; [|congruence].
    destruct (setb_spec t x (-1)) as (t1 & -> & S1 & S2 & S3 & S4 & S5 & S6 & S7 & S8); [lia|]. cbn [bind].
    destruct (setc_spec t1 x (-1)) as (t2 & -> & R1 & R2 & R3 & R4 & R5 & R6); [lia|]. cbn [bind]. split; [|contradiction]. intros _.
    exists t2. split; [reflexivity|]. apply RM; try congruence.
    + auto.
    + intros y N. rewrite (Bt_eq _ _ R2), S1. destruct (Z.eqb_spec y x); congruence.
    + intros y. now rewrite R1, (Ct_eq _ _ S2).
  - destruct (Z.ltb_spec (Bt t x) (-1)); [lia|].
    replace (w ++ ch :: rest) with ((w ++ [ch]) ++ rest) by (rewrite <- app_assoc; reflexivity).
    apply IH; auto.
  - fold x in KT, H1. destruct (Z.ltb_spec (Bt t x) (-1)); [|lia].
    pose proof (g_tail _ _ G x L ltac:(lia) K). rewrite tgetc_at by lia. cbn [bind]. fold (Tt t (- Bt t x - 2)).
    destruct (list_eq_dec _ _ _) as [Q|Q].
    + destruct (setb_spec t x (-1)) as (t1 & -> & S1 & S2 & S3 & S4 & S5 & S6 & S7 & S8); [lia|]. cbn [bind].
      destruct (setc_spec t1 x (-1)) as (t2 & -> & R1 & R2 & R3 & R4 & R5 & R6); [lia|]. cbn [bind]. split.
      * intros _. exists t2. split; [reflexivity|]. apply RM; try congruence.
        -- right. auto.
        -- intros y N. rewrite (Bt_eq _ _ R2), S1. destruct (Z.eqb_spec y x); congruence.
        -- intros y. now rewrite R1, (Ct_eq _ _ S2).
      * intros NH. exfalso. apply NH, H1. auto.
    + split; [|auto]. intros HH. exfalso. apply Q. symmetry. now apply H1.
Qed.
End Ops.
