(** Loops over Vectors: the loop is the index loop as long as no size changes. *)
From Coq Require Import Lia.
From Verif Require Import Base ContModel ContSpec ContProofs VecWalkModel VecWalkSpec.
Local Open Scope Z_scope.

Section Proofs.
Context {A : Type} (spare : nat -> nat -> nat).

Lemma within_iff (l : list A) i : within_size l i = true <-> 0 <= i < Z.of_nat (length l).
Proof. unfold within_size. rewrite Bool.andb_true_iff, Z.leb_le, Z.ltb_lt. reflexivity. Qed.
Lemma within_not (l : list A) i : ~ 0 <= i < Z.of_nat (length l) -> within_size l i = false.
Proof. intros H. destruct (within_size l i) eqn:E; [|reflexivity]. now apply within_iff in E. Qed.
Lemma skip1 (a : list A) y b : skipn (S (length a)) (a ++ y :: b) = b.
Proof. induction a as [|z a IH]; [reflexivity|exact IH]. Qed.
Lemma put_mid (a : list A) y b x : put_at (a ++ y :: b) (length a) x = a ++ x :: b.
Proof. unfold put_at. now rewrite firstn_mid, skip1. Qed.
Lemma put_upd (l : list A) i x : (i < length l)%nat -> upd l i x = put_at l i x.
Proof.
  intros H. destruct (nth_error l i) as [y|] eqn:E; [|apply nth_error_None in E; lia].
  destruct (nth_error_split l i E) as (a & b & -> & <-). now rewrite upd_mid, put_mid.
Qed.

Lemma step_edited (l : list A) o : vint o ->
  match vec_step l o with
  | Ok (l', _) => edited l o = Some l' /\ (resizes o = false -> length l' = length l)
  | Err => edited l o = None
  | _ => False
  end.
Proof.
  intros W. destruct o as [i| | | | | |i x|i|i x|i x|x|]; cbn [vec_step vint edited resizes] in *.
  - pose proof (vec_get_spec l i W) as H. destruct (vec_get l i); cbn [bind]; try contradiction; [|now rewrite within_not].
    destruct H as [H _]. apply within_iff in H. now rewrite H.
  - destruct l; cbn; auto.
  - pose proof (last_spec l) as H. destruct (seq_last l); cbn [bind]; try contradiction; [|now subst].
    destruct H as [t ->]. now destruct t.
  - auto.
  - auto.
  - split; [reflexivity|discriminate].
  - pose proof (insert_spec l i x W) as H. destruct (seq_insert l i x) as [l'| | |]; cbn [bind]; try contradiction.
    + destruct H as (a & b & -> & La & ->). split; [|discriminate]. rewrite app_length.
      destruct (Z.leb_spec 0 i); [|lia]. destruct (Z.leb_spec i (Z.of_nat (length a + length b))); [|lia]. cbn [andb].
      replace (Z.to_nat i) with (length a) by lia. now rewrite firstn_mid, skipn_mid.
    + destruct (Z.leb_spec 0 i), (Z.leb_spec i (Z.of_nat (length l))); cbn [andb]; try reflexivity. lia.
  - pose proof (erase_spec l i W) as H. destruct (seq_erase l i) as [l'| | |]; cbn [bind]; try contradiction; [|now rewrite within_not].
    destruct H as (a & y & b & -> & La & ->). split; [|discriminate]. replace (within_size (a ++ y :: b) i) with true.
    + replace (Z.to_nat i) with (length a) by lia. now rewrite firstn_mid, skip1.
    + symmetry. apply within_iff. rewrite app_length. cbn [length]. lia.
  - pose proof (set_spec l i x W) as H. destruct (vec_set l i x) as [l'| | |]; cbn [bind]; try contradiction; [|now rewrite within_not].
    destruct H as (a & y & b & -> & La & ->). replace (within_size (a ++ y :: b) i) with true.
    + replace (Z.to_nat i) with (length a) by lia. rewrite put_mid, !app_length. auto.
    + symmetry. apply within_iff. rewrite app_length. cbn [length]. lia.
  - pose proof (ref_set_spec l i x W) as H. destruct (vec_ref_set l i x) as [l'| | |]; cbn [bind]; try contradiction; [|now rewrite within_not].
    destruct H as (a & y & b & -> & La & ->). replace (within_size (a ++ y :: b) i) with true.
    + replace (Z.to_nat i) with (length a) by lia. rewrite put_mid, !app_length. auto.
    + symmetry. apply within_iff. rewrite app_length. cbn [length]. lia.
  - split; [reflexivity|discriminate].
  - pose proof (pop_spec l) as H. destruct (seq_pop l) as [[x l']| | |]; cbn [bind]; try contradiction; [|now subst].
    subst l. split; [|discriminate]. rewrite rev_app_distr. cbn [rev app]. now rewrite rev_involutive.
Qed.
Lemma steady_survive (st : vstate A) o q : resizes o = false -> survive st o q = q.
Proof. destruct o; cbn; try discriminate; reflexivity. Qed.

(** end() does not survive a call that changes the size *)
Lemma past_resized (st st' : vstate A) o : vint o -> (past st = None \/ past st = Some (length (cells st))) -> resizes o = true ->
  vdo spare st (VDo o) = Ok st' -> past st' = None.
Proof.
  intros W P R H. cbn [vdo] in H. pose proof (step_edited (cells st) o W) as E. destruct (vec_step (cells st) o) as [[l' r]| | |] eqn:S0; try discriminate.
  cbn [bind] in H. injection H as <-. cbn [past]. destruct P as [->| ->].
  - destruct o; cbn; try reflexivity; now destruct (Nat.leb _ _).
  - destruct E as [E _]. destruct o as [i| | | | | |i x|i|i x|i x|x|]; try discriminate R; cbn [survive stay edited] in *.
    + reflexivity.
    + destruct (Nat.leb _ _); [|reflexivity]. destruct (Z.leb_spec 0 i); [|discriminate]. destruct (Z.leb_spec i (Z.of_nat (length (cells st)))); [|discriminate].
      destruct (Z.ltb_spec (Z.of_nat (length (cells st))) i); [lia|reflexivity].
    + destruct (within_size (cells st) i) eqn:B; [|discriminate]. apply within_iff in B. destruct (Z.ltb_spec (Z.of_nat (length (cells st))) i); [lia|reflexivity].
    + destruct (Nat.leb _ _); [|reflexivity]. now rewrite Nat.ltb_irrefl.
    + destruct (Nat.ltb_spec (length (cells st) + 1) (length (cells st))); [lia|reflexivity].
Qed.
Lemma past_gone (st st' : vstate A) a : past st = None -> vdo spare st a = Ok st' -> past st' = None.
Proof.
  intros P H. destruct a as [o|x]; cbn [vdo] in H.
  - destruct (vec_step (cells st) o) as [[l' r]| | |]; try discriminate. cbn [bind] in H. injection H as <-. cbn [past]. rewrite P. destruct o; cbn; try reflexivity; now destruct (Nat.leb _ _).
  - destruct (here st); [|discriminate]. destruct (aset _ _ _); try discriminate. cbn [bind] in H. now injection H as <-.
Qed.
Lemma pasts_gone os : forall st st' : vstate A, past st = None -> vdos spare st os = Ok st' -> past st' = None.
Proof.
  induction os as [|o os IH]; intros st st' P H; cbn [vdos] in H; [congruence|].
  destruct (vdo spare st o) as [s1| | |] eqn:E; try discriminate. cbn [bind] in H. eauto using past_gone.
Qed.

(** the state between two actions of a round at index [i] of [n] *)
Definition ready (i n : nat) (r : bool) (st : vstate A) : Prop :=
  if r then past st = None else here st = Some i /\ past st = Some n /\ length (cells st) = n.
Lemma vdos_round i n os : forall r (st : vstate A), (i < n)%nat -> ready i n r st -> (forall o, In (VDo o) os -> vint o) -> 
  match vdos spare st os with
  | Ok st' => exists r', (tidy r os = true -> round i (cells st) r os = Ok (cells st', r')) /\ ready i n r' st' /\ r' = (r || existsb resizing os)%bool
  | Err => tidy r os = true -> round i (cells st) r os = Err
  | UB => tidy r os = false
  | Fuel => False
  end.
Proof.
  induction os as [|a os IH]; intros r st L R W.
  - cbn. exists r. rewrite Bool.orb_false_r. auto.
  - cbn [vdos]. destruct a as [o|x].
    + assert (Wo : vint o) by (apply W; now left). assert (W' : forall o, In (VDo o) os -> vint o) by (intros; apply W; now right).
      pose proof (step_edited (cells st) o Wo) as E. pose proof (past_resized st) as PR. cbn [tidy round existsb resizing].
      destruct (vdo spare st (VDo o)) as [s1| | |] eqn:D; cbn [vdo] in D; destruct (vec_step (cells st) o) as [[l' q]| | |] eqn:S0; try discriminate; try contradiction; cbn [bind] in *.
      * destruct E as [E Le]. rewrite E. specialize (IH (r || resizes o)%bool s1 L). rewrite Bool.orb_assoc.
        assert (R1 : ready i n (r || resizes o) s1).
        { destruct r; cbn [orb ready] in *.
          - apply (past_gone st s1 (VDo o) R). cbn [vdo]. rewrite S0. exact D.
          - destruct R as (R1 & R2 & R3). destruct (resizes o) eqn:Ro; cbn [ready].
            + apply (PR s1 o Wo); auto; [right; congruence|]. cbn [vdo]. rewrite S0. exact D.
            + injection D as <-. cbn [here past cells]. rewrite !steady_survive by exact Ro. rewrite Le by reflexivity. auto. }
        specialize (IH R1 W'). injection D as <-. cbn [cells] in *. exact IH.
      * rewrite E. auto.
    + assert (W' : forall o, In (VDo o) os -> vint o) by (intros; apply W; now right). cbn [tidy round existsb resizing orb].
      destruct r; cbn [ready negb andb] in *.
      * cbn [vdo]. destruct (here st) as [j|] eqn:Hj; cbn [bind]; [|reflexivity].
        destruct (aset (cells st) (Z.of_nat j) x) as [l'| | |] eqn:S0; cbn [bind]; auto.
        -- specialize (IH true (VState l' (cap st) (Some j) (past st)) L R W'). destruct (vdos spare _ os) as [s2| | |]; auto.
           ++ destruct IH as (r' & _ & B & C). exists r'. split; [discriminate|auto].
           ++ discriminate.
        -- discriminate.
        -- unfold aset in S0. destruct (_ || _)%bool; discriminate.
      * destruct R as (R1 & R2 & R3). cbn [vdo]. rewrite R1. rewrite aset_ok by lia. cbn [bind]. rewrite Nat2Z.id, put_upd by lia.
        specialize (IH false (VState (put_at (cells st) i x) (cap st) (Some i) (past st)) L). cbn [cells] in IH. apply IH; [|exact W'].
        cbn [ready here past cells]. repeat split; auto. rewrite <- put_upd, upd_length by lia. exact R3.
Qed.

Context (body : list A -> list (vact A) * bool).
Context (W : int_calls body).

Lemma nth_in (l : list A) i : (i < length l)%nat -> exists e, nth_error l i = Some e /\ aget l (Z.of_nat i) = Ok e.
Proof.
  intros H. destruct (nth_error l i) as [e|] eqn:E; [|apply nth_error_None in E; lia]. exists e. split; [reflexivity|].
  apply aget_nth_error; [lia|]. now rewrite Nat2Z.id.
Qed.
Lemma loop_sweep : (forall vs, tidy false (fst (body vs)) = true) -> forall fuel n i (st : vstate A) vs, (i <= n)%nat -> ready i n false st ->
  omap (fun p => (cells (fst p), snd p)) (vec_loop spare body fuel st vs) = sweep body fuel n i (cells st) vs.
Proof.
  intros T. induction fuel as [|fuel IH]; intros n i st vs L (R1 & R2 & R3); cbn [vec_loop sweep]; rewrite R1, R2; destruct (Nat.eqb_spec i n) as [->|N]; try reflexivity.
  destruct (nth_in (cells st) i) as (e & E1 & E2); [lia|]. rewrite E1, E2. cbn [bind].
  pose proof (vdos_round i n (fst (body (vs ++ [e]))) false st ltac:(lia) (conj R1 (conj R2 R3)) (W (vs ++ [e]))) as H. rewrite T in H.
  destruct (vdos spare st _) as [s1| | |]; try discriminate; try contradiction; [|now rewrite H].
  destruct H as (r & H & R & _). rewrite H by reflexivity. cbn [bind]. destruct (snd (body (vs ++ [e]))); [|reflexivity].
  destruct r; cbn [ready] in R.
  - destruct (here s1) as [j|]; [|reflexivity]. destruct fuel; cbn [vec_loop here past]; now rewrite R.
  - destruct R as (Q1 & Q2 & Q3). rewrite Q1. rewrite <- (IH n (S i) (VState (cells s1) (cap s1) (Some (S i)) (past s1))); [reflexivity|lia|]. cbn. auto.
Qed.
(** the rounds that went on changed no size *)
Lemma loop_only : forall fuel n i (st : vstate A) vs st' vs', (i <= n)%nat -> ready i n false st ->
  vec_loop spare body fuel st vs = Ok (st', vs') ->
  exists ws, vs' = vs ++ ws /\ (length ws <= n - i)%nat /\
    (forall k, (0 < k < length ws)%nat -> existsb resizing (fst (body (vs ++ firstn k ws))) = false /\ snd (body (vs ++ firstn k ws)) = true) /\
    (ws <> [] -> snd (body vs') = true -> existsb resizing (fst (body vs')) = false /\ length ws = (n - i)%nat /\ length (cells st') = n) /\
    (ws = [] -> i = n /\ st' = st).
Proof.
  induction fuel as [|fuel IH]; intros n i st vs st' vs' L (R1 & R2 & R3); cbn [vec_loop]; rewrite R1, R2; destruct (Nat.eqb_spec i n) as [->|N]; intros H; try discriminate.
  1,2: injection H as <- <-; exists []; rewrite app_nil_r; cbn; repeat split; auto; try lia; congruence.
  destruct (nth_in (cells st) i) as (e & E1 & E2); [lia|]. rewrite E2 in H. cbn [bind] in H.
  pose proof (vdos_round i n (fst (body (vs ++ [e]))) false st ltac:(lia) (conj R1 (conj R2 R3)) (W (vs ++ [e]))) as Q.
  destruct (vdos spare st _) as [s1| | |]; try discriminate. destruct Q as (r & _ & R & Er). cbn [bind] in H. destruct (snd (body (vs ++ [e]))) eqn:G.
  - destruct r; cbn [ready] in R.
    { destruct (here s1); [|discriminate]. destruct fuel; cbn [vec_loop here past] in H; rewrite R in H; discriminate. }
    destruct R as (Q1 & Q2 & Q3). rewrite Q1 in H. apply (IH n (S i)) in H; [|lia|cbn; auto].
    destruct H as (ws & -> & Lw & K & F & Z0). exists (e :: ws). rewrite <- app_assoc. cbn [app]. split; [reflexivity|]. split; [cbn; lia|]. split; [|split; [|discriminate]].
    + intros [|[|k]] Hk; [lia| |]; cbn [firstn].
      * cbn [orb] in Er. auto.
      * specialize (K (S k)). rewrite <- app_assoc in K. cbn [app] in K. apply K. cbn [length] in Hk. lia.
    + intros _ Gv. destruct ws as [|w ws].
      * destruct (Z0 eq_refl) as [<- ->]. cbn [cells orb length] in *. split; [congruence|]. split; [lia|exact Q3].
      * rewrite <- app_assoc in F. destruct (F ltac:(discriminate) Gv) as (F1 & F2 & F3). split; [exact F1|]. split; [cbn [length] in *; lia|exact F3].
  - injection H as <- <-. exists [e]. split; [reflexivity|]. split; [cbn; lia|]. split; [intros k Hk; cbn in Hk; lia|]. split; [congruence|discriminate].
Qed.
Lemma loop_ends : forall fuel n i (st : vstate A) vs, (i <= n)%nat -> ready i n false st -> (n - i <= fuel)%nat -> vec_loop spare body fuel st vs <> Fuel.
Proof.
  induction fuel as [|fuel IH]; intros n i st vs L (R1 & R2 & R3) B; cbn [vec_loop]; rewrite R1, R2; destruct (Nat.eqb_spec i n) as [->|N]; try discriminate; try lia.
  destruct (nth_in (cells st) i) as (e & E1 & E2); [lia|]. rewrite E2. cbn [bind].
  pose proof (vdos_round i n (fst (body (vs ++ [e]))) false st ltac:(lia) (conj R1 (conj R2 R3)) (W (vs ++ [e]))) as Q.
  destruct (vdos spare st _) as [s1| | |]; try discriminate; try contradiction. destruct Q as (r & _ & R & Er). cbn [bind]. destruct (snd _); [|discriminate].
  destruct r; cbn [ready] in R.
  - destruct (here s1); [|discriminate]. destruct fuel; cbn [vec_loop here past]; rewrite R; discriminate.
  - destruct R as (Q1 & Q2 & Q3). rewrite Q1. apply (IH n (S i)); [lia|cbn; auto|lia].
Qed.
Lemma loop_safe : (forall vs, tidy false (fst (body vs)) = true) -> (forall vs, snd (body vs) = true -> existsb resizing (fst (body vs)) = false) ->
  forall fuel n i (st : vstate A) vs, (i <= n)%nat -> ready i n false st -> vec_loop spare body fuel st vs <> UB.
Proof.
  intros T S0. induction fuel as [|fuel IH]; intros n i st vs L (R1 & R2 & R3); cbn [vec_loop]; rewrite R1, R2; destruct (Nat.eqb_spec i n) as [->|N]; try discriminate.
  destruct (nth_in (cells st) i) as (e & E1 & E2); [lia|]. rewrite E2. cbn [bind].
  pose proof (vdos_round i n (fst (body (vs ++ [e]))) false st ltac:(lia) (conj R1 (conj R2 R3)) (W (vs ++ [e]))) as Q.
  destruct (vdos spare st _) as [s1| | |]; try discriminate; [|rewrite T in Q; discriminate]. destruct Q as (r & _ & R & Er). cbn [bind].
  destruct (snd (body (vs ++ [e]))) eqn:G; [|discriminate]. rewrite (S0 _ G) in Er. subst r. destruct R as (Q1 & Q2 & Q3). rewrite Q1. apply (IH n (S i)); [lia|cbn; auto].
Qed.

(** writes through the loop variable only *)
Lemma reads_edited (l : list A) o l' : reads o = true -> edited l o = Some l' -> l' = l /\ resizes o = false.
Proof.
  destruct o; cbn; try discriminate; intros _ H; split; try reflexivity; try congruence.
  - destruct (within_size l i); congruence.
  - destruct l; congruence.
  - destruct l; congruence.
Qed.
Lemma quiet_round (d : list A) e t os : forallb quiet os = true -> forall l' r', round (length d) (d ++ e :: t) false os = Ok (l', r') ->
  r' = false /\ l' = d ++ last_put os e :: t.
Proof.
  revert e. induction os as [|a os IH]; intros e Q l' r' H; cbn [round forallb] in *.
  - injection H as <- <-. auto.
  - apply Bool.andb_true_iff in Q as [Qa Q]. destruct a as [o|x]; cbn [quiet] in Qa.
    + destruct (edited _ o) as [l1|] eqn:E; [|discriminate]. apply reads_edited in E as [-> E]; [|exact Qa]. rewrite E in H. cbn [orb] in H. apply IH in H; auto.
    + rewrite put_mid in H. apply IH in H; auto.
Qed.
Lemma quiet_sweep : (forall vs, forallb quiet (fst (body vs)) = true) -> forall fuel (d t : list A) vs l' vs',
  sweep body fuel (length d + length t) (length d) (d ++ t) vs = Ok (l', vs') ->
  exists k, (k <= length t)%nat /\ vs' = vs ++ firstn k t /\ l' = d ++ rewritten body vs t k /\ ((k = O \/ snd (body vs') = true) -> k = length t).
Proof.
  intros Q. induction fuel as [|fuel IH]; intros d t vs l' vs' H; destruct t as [|e t]; cbn [sweep length] in H.
  1,3: rewrite Nat.add_0_r, Nat.eqb_refl in H; injection H as <- <-; exists O; cbn; rewrite !app_nil_r; auto.
  - destruct (Nat.eqb_spec (length d) (length d + S (length t))); [lia|discriminate].
  - destruct (Nat.eqb_spec (length d) (length d + S (length t))); [lia|]. rewrite nth_mid in H.
    destruct (round (length d) (d ++ e :: t) false (fst (body (vs ++ [e])))) as [[l1 r]| | |] eqn:R; try discriminate. cbn [bind] in H.
    destruct (quiet_round d e t _ (Q _) _ _ R) as [-> ->]. destruct (snd (body (vs ++ [e]))) eqn:G.
    + specialize (IH (d ++ [last_put (fst (body (vs ++ [e]))) e]) t (vs ++ [e]) l' vs'). rewrite app_length, <- app_assoc in IH. cbn [length app] in IH.
      rewrite <- Nat.add_assoc, (Nat.add_comm (length d) 1) in IH. cbn [Nat.add] in IH. destruct (IH H) as (k & Lk & -> & -> & K).
      exists (S k). cbn [length firstn rewritten]. rewrite <- !app_assoc. cbn [app]. split; [lia|]. split; [reflexivity|]. split; [reflexivity|].
      intros [?|Gv]; [discriminate|]. f_equal. apply K. right. rewrite <- app_assoc. exact Gv.
    + injection H as <- <-. exists 1%nat. cbn [length firstn rewritten]. split; [lia|]. split; [reflexivity|]. split; [now destruct t|].
      intros [?|Gv]; [discriminate|congruence].
Qed.
End Proofs.
