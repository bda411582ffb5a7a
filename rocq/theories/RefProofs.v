(** Proofs about references into a Vector. *)
From Verif Require Import Base ContModel ContProofs RefModel RefSpec.
Local Open Scope Z_scope.

Section Proofs.
Context {A : Type}.
Implicit Types (l : list A) (v w : rvec A) (o : rop A) (g : nat -> nat -> nat).

(** ** a defined program means what the positions say *)
Definition known (rs : list (option nat)) (ps : list nat) : Prop :=
  length rs = length ps /\ forall h i, nth_error rs h = Some (Some i) -> nth_error ps h = Some i.
Lemma keep_nth p rs h : nth_error (keep p rs) h = match nth_error rs h with Some (Some i) => Some (if p i then Some i else None) | x => x end.
Proof. unfold keep. rewrite nth_error_map. destruct (nth_error rs h) as [[i|]|]; reflexivity. Qed.
Lemma keep_length p rs : length (keep p rs) = length rs. Proof. apply map_length. Qed.
Lemma keep_known p rs ps : known rs ps -> known (keep p rs) ps.
Proof.
  intros [L H]. split; [now rewrite keep_length|]. intros h i. rewrite keep_nth. destruct (nth_error rs h) as [[j|]|] eqn:E; try discriminate.
  destruct (p j); intros X; [|discriminate]. injection X as <-. now apply H.
Qed.
Lemma reserve_known g v n ps : known (refs v) ps -> known (refs (reserve g v n)) ps.
Proof. intros K. unfold reserve. destruct (Nat.leb n (room v)); [exact K|]. now apply keep_known. Qed.
Lemma snoc_known rs ps i : known rs ps -> known (rs ++ [Some i]) (ps ++ [i]).
Proof.
  intros [L H]. split; [rewrite !app_length; cbn; lia|]. intros h j. destruct (Nat.ltb_spec h (length rs)) as [B|B].
  - rewrite !nth_error_app1 by lia. apply H.
  - rewrite !nth_error_app2 by lia. rewrite L. destruct (h - length ps)%nat as [|k]; cbn; [congruence|]. destruct k; discriminate.
Qed.
Lemma aget_nth l (i : nat) : aget l (Z.of_nat i) = match nth_error l i with Some x => Ok x | None => UB end.
Proof. unfold aget. destruct (Z.ltb_spec (Z.of_nat i) 0); [lia|]. now rewrite Nat2Z.id. Qed.
Lemma value_taken v a ps x : known (refs v) ps -> value_of v a = Ok x -> taken (items v) ps a = Some x.
Proof.
  intros [_ H]. destruct a as [y|h]; cbn; [now intros [= ->]|]. unfold look, position. destruct (nth_error (refs v) h) as [[i|]|] eqn:E; try discriminate. cbn [bind].
  rewrite aget_nth, (H h i E). destruct (nth_error (items v) i); [now intros [= ->]|discriminate].
Qed.
Lemma replaced_upd l : forall i x, (i < length l)%nat -> upd l i x = replaced l i x.
Proof. induction l as [|y l IH]; intros [|i] x B; cbn in *; try lia; [reflexivity|]. unfold replaced in *. cbn [firstn skipn app]. now rewrite IH by lia. Qed.
Lemma middle_first (a b : list A) : firstn (length a) (a ++ b) = a.
Proof. rewrite firstn_app, Nat.sub_diag, firstn_all. cbn. apply app_nil_r. Qed.
Lemma middle_skip (a b : list A) : skipn (length a) (a ++ b) = b.
Proof. rewrite skipn_app, Nat.sub_diag, skipn_all. reflexivity. Qed.
Lemma middle_skip1 (a b : list A) y : skipn (S (length a)) (a ++ y :: b) = b.
Proof. rewrite skipn_app. replace (S (length a) - length a)%nat with 1%nat by lia. rewrite skipn_all2 by lia. reflexivity. Qed.
Lemma inside_spec l i : 0 <= i < Z.of_nat (length l) -> inside l i = true.
Proof. unfold inside. intros. apply andb_true_iff. split; [apply Z.leb_le|apply Z.ltb_lt]; lia. Qed.
Lemma step_plain g v o v' r ps : int_index o -> known (refs v) ps -> rstep g v o = Ok (v', r) ->
  exists ps', plain (items v) ps o = Some (items v', ps', r) /\ known (refs v') ps'.
Proof.
  intros I K. destruct o as [a|i a|i|i a| | |l|i| | |h|h a]; cbn [rstep plain int_index] in *; intros E.
  - destruct (value_of v a) as [x| | |] eqn:V; try discriminate. cbn [bind] in E. injection E as <- <-. rewrite (value_taken v a ps x K V).
    eexists. split; [reflexivity|]. cbn [refs]. now apply reserve_known.
  - destruct (value_of v a) as [x| | |] eqn:V; try discriminate. cbn [bind] in E. pose proof (insert_spec (items v) i x I) as S.
    destruct (seq_insert (items v) i x) as [l| | |]; try discriminate. cbn [bind] in E. injection E as <- <-. rewrite (value_taken v a ps x K V).
    destruct S as (b & c & El & Li & ->). exists ps. cbn [items refs]. split; [|now apply keep_known, reserve_known]. rewrite El, app_length.
    replace ((0 <=? i) && (i <=? Z.of_nat (length b + length c))) with true by (symmetry; apply andb_true_iff; split; apply Z.leb_le; lia).
    rewrite <- Li, Nat2Z.id, middle_first, middle_skip. reflexivity.
  - pose proof (erase_spec (items v) i I) as S. destruct (seq_erase (items v) i) as [l| | |]; try discriminate. cbn [bind] in E. injection E as <- <-.
    destruct S as (b & y & c & El & Li & ->). exists ps. cbn [items refs]. split; [|now apply keep_known]. rewrite El. rewrite inside_spec by (rewrite app_length; cbn [length]; lia).
    rewrite <- Li, Nat2Z.id, middle_first, middle_skip1. reflexivity.
  - destruct (value_of v a) as [x| | |] eqn:V; try discriminate. cbn [bind] in E. pose proof (set_spec (items v) i x I) as S.
    destruct (vec_set (items v) i x) as [l| | |]; try discriminate. cbn [bind] in E. injection E as <- <-. rewrite (value_taken v a ps x K V).
    destruct S as (b & y & c & El & Li & ->). exists ps. cbn [items refs]. split; [|exact K]. rewrite El. rewrite inside_spec by (rewrite app_length; cbn [length]; lia).
    unfold replaced. rewrite <- Li, Nat2Z.id, middle_first, middle_skip1. reflexivity.
  - pose proof (pop_spec (items v)) as S. destruct (seq_pop (items v)) as [[x l]| | |]; try discriminate. cbn [bind] in E. injection E as <- <-. rewrite S, rev_app_distr. cbn [rev app].
    exists ps. cbn [items refs]. rewrite rev_involutive. split; [reflexivity|now apply keep_known].
  - injection E as <- <-. exists ps. split; [reflexivity|]. now apply keep_known.
  - injection E as <- <-. exists ps. split; [reflexivity|]. cbn [refs]. now apply keep_known, reserve_known.
  - pose proof (vec_get_spec (items v) i I) as S. destruct (vec_get (items v) i) as [x| | |]; try discriminate. cbn [bind] in E. injection E as <- <-. destruct S as [S _].
    rewrite inside_spec by exact S. eexists. split; [reflexivity|]. now apply snoc_known.
  - pose proof (first_spec (items v)) as S. destruct (seq_first (items v)) as [x| | |]; try discriminate. cbn [bind] in E. injection E as <- <-. destruct S as [t S]. cbn [items].
    rewrite S. eexists. split; [reflexivity|]. now apply snoc_known.
  - pose proof (last_spec (items v)) as S. destruct (seq_last (items v)) as [x| | |]; try discriminate. cbn [bind] in E. injection E as <- <-. destruct S as [t S]. cbn [items].
    destruct (items v) as [|y l] eqn:El; [destruct t; discriminate|]. eexists. split; [reflexivity|]. now apply snoc_known.
  - destruct (look v h) as [x| | |] eqn:V; try discriminate. cbn [bind] in E. injection E as <- <-. rewrite (value_taken v (Elem h) ps x K V). eauto.
  - destruct (value_of v a) as [x| | |] eqn:V; try discriminate. cbn [bind] in E. rewrite (value_taken v a ps x K V).
    unfold position in E. destruct (nth_error (refs v) h) as [[i|]|] eqn:N; try discriminate. cbn [bind] in E. rewrite (proj2 K h i N).
    unfold aset in E. destruct (Z.ltb_spec (Z.of_nat i) 0); [lia|]. destruct (Z.leb_spec (Z.of_nat (length (items v))) (Z.of_nat i)); [discriminate|]. cbn [orb bind] in E.
    injection E as <- <-. cbn [items refs]. destruct (Nat.ltb_spec i (length (items v))); [|lia]. rewrite Nat2Z.id, replaced_upd by assumption. eauto.
Qed.
Lemma run_plain g : forall os v v' rs ps, Forall int_index os -> known (refs v) ps -> rrun g v os = Ok (v', rs) ->
  exists ps', plainly (items v) ps os = Some (items v', ps', rs) /\ known (refs v') ps'.
Proof.
  induction os as [|o os IH]; intros v v' rs ps I K E; cbn [rrun plainly] in *.
  - injection E as <- <-. eauto.
  - destruct (rstep g v o) as [[w r]| | |] eqn:S; try discriminate. cbn [bind] in E. destruct (rrun g w os) as [[w' rs']| | |] eqn:R; try discriminate. cbn [bind] in E. injection E as <- <-.
    apply Forall_cons_iff in I as [I1 I2]. destruct (step_plain g v o w r ps) as (p1 & -> & K1); auto. destruct (IH w w' rs' p1) as (p2 & -> & K2); auto. eauto.
Qed.

(** ** the tightest capacity is the worst *)
Definition tight : nat -> nat -> nat := fun _ _ => O.
Definition less (a b : option nat) : Prop := a = None \/ a = b.
Definition below v w : Prop := items v = items w /\ (room v <= room w)%nat /\ Forall2 less (refs v) (refs w).
Lemma keep_less p q rs ss : (forall i, p i = true -> q i = true) -> Forall2 less rs ss -> Forall2 less (keep p rs) (keep q ss).
Proof.
  intros H. induction 1 as [|a b rs ss L _ IH]; [constructor|]. cbn. constructor; [|exact IH]. destruct L as [-> | ->]; [now left|]. destruct b as [i|]; [|now left].
  destruct (p i) eqn:E; [rewrite (H i E); now right|now left].
Qed.
Lemma none_less p rs ss : length rs = length ss -> Forall2 less (keep (fun _ => false) rs) (keep p ss).
Proof.
  revert ss. induction rs as [|a rs IH]; intros [|b ss] L; try discriminate; [constructor|]. cbn in *. constructor; [left; now destruct a|]. apply IH. lia.
Qed.
Lemma none_less2 rs ss : length rs = length ss -> Forall2 less (keep (fun _ => false) rs) ss.
Proof.
  revert ss. induction rs as [|a rs IH]; intros [|b ss] L; try discriminate; [constructor|]. cbn in *. constructor; [left; now destruct a|]. apply IH. lia.
Qed.
Lemma less_length rs ss : Forall2 less rs ss -> length rs = length ss.
Proof. induction 1; cbn; congruence. Qed.
Lemma reserve_below g v w n : below v w -> below (reserve tight v n) (reserve g w n).
Proof.
  intros (E & R & L). unfold reserve, tight. destruct (Nat.leb_spec n (room v)) as [B|B].
  - destruct (Nat.leb_spec n (room w)); [|lia]. split; auto.
  - destruct (Nat.leb_spec n (room w)) as [C|C]; (split; [exact E|]; split; [cbn [room]; lia|cbn [refs]]).
    + apply none_less2. now apply less_length.
    + apply none_less. now apply less_length.
Qed.
Lemma nth_less rs ss h i : Forall2 less rs ss -> nth_error rs h = Some (Some i) -> nth_error ss h = Some (Some i).
Proof.
  intros L. revert h. induction L as [|a b rs ss H _ IH]; intros [|h]; cbn; try discriminate; [|apply IH]. intros [= ->]. destruct H as [H|H]; [discriminate|now rewrite <- H].
Qed.
Lemma position_below v w h i : below v w -> position v h = Ok i -> position w h = Ok i.
Proof.
  intros (_ & _ & L). unfold position. destruct (nth_error (refs v) h) as [[j|]|] eqn:E; try discriminate. intros [= ->]. now rewrite (nth_less _ _ _ _ L E).
Qed.
Lemma look_below v w h x : below v w -> look v h = Ok x -> look w h = Ok x.
Proof.
  intros B. unfold look. destruct (position v h) as [i| | |] eqn:P; try discriminate. rewrite (position_below v w h i B P). destruct B as [<- _]. auto.
Qed.
Lemma value_below v w a x : below v w -> value_of v a = Ok x -> value_of w a = Ok x.
Proof. intros B. destruct a; [auto|]. now apply look_below. Qed.
Lemma same_keep p v w l : below v w -> below (RVec l (room v) (keep p (refs v))) (RVec l (room w) (keep p (refs w))).
Proof. intros (_ & R & L). split; [reflexivity|]. split; [exact R|]. apply keep_less; auto. Qed.
Lemma same_refs v w l : below v w -> below (RVec l (room v) (refs v)) (RVec l (room w) (refs w)).
Proof. intros (_ & R & L). split; [reflexivity|]. split; assumption. Qed.
Lemma same_new v w l i : below v w -> below (RVec l (room v) (refs v ++ [Some i])) (RVec l (room w) (refs w ++ [Some i])).
Proof. intros (_ & R & L). split; [reflexivity|]. split; [exact R|]. apply Forall2_app; [exact L|]. constructor; [now right|constructor]. Qed.
Lemma step_below g v w o v' r : below v w -> rstep tight v o = Ok (v', r) -> exists w', rstep g w o = Ok (w', r) /\ below v' w'.
Proof.
  intros B E. pose proof B as (I & _). destruct o as [a|i a|i|i a| | |l|i| | |h|h a]; cbn [rstep] in *; rewrite <- ?I.
  - destruct (value_of v a) as [x| | |] eqn:V; try discriminate. rewrite (value_below v w a x B V). cbn [bind] in *. injection E as <- <-. eexists. split; [reflexivity|].
    apply same_refs, reserve_below, B.
  - destruct (value_of v a) as [x| | |] eqn:V; try discriminate. rewrite (value_below v w a x B V). cbn [bind] in *. destruct (seq_insert (items v) i x) as [l| | |]; try discriminate.
    cbn [bind] in *. injection E as <- <-. eexists. split; [reflexivity|]. apply same_keep, reserve_below, B.
  - destruct (seq_erase (items v) i) as [l| | |]; try discriminate. cbn [bind] in *. injection E as <- <-. eexists. split; [reflexivity|]. now apply same_keep.
  - destruct (value_of v a) as [x| | |] eqn:V; try discriminate. rewrite (value_below v w a x B V). cbn [bind] in *. destruct (vec_set (items v) i x) as [l| | |]; try discriminate.
    cbn [bind] in *. injection E as <- <-. eexists. split; [reflexivity|]. now apply same_refs.
  - destruct (seq_pop (items v)) as [[x l]| | |]; try discriminate. cbn [bind] in *. injection E as <- <-. eexists. split; [reflexivity|]. now apply same_keep.
  - injection E as <- <-. eexists. split; [reflexivity|]. now apply same_keep.
  - injection E as <- <-. eexists. split; [reflexivity|]. apply same_keep, reserve_below, B.
  - destruct (vec_get (items v) i) as [x| | |]; try discriminate. cbn [bind] in *. injection E as <- <-. eexists. split; [reflexivity|]. now apply same_new.
  - destruct (seq_first (items v)) as [x| | |]; try discriminate. cbn [bind] in *. injection E as <- <-. eexists. split; [reflexivity|]. now apply same_new.
  - destruct (seq_last (items v)) as [x| | |]; try discriminate. cbn [bind] in *. injection E as <- <-. eexists. split; [reflexivity|]. now apply same_new.
  - destruct (look v h) as [x| | |] eqn:V; try discriminate. rewrite (look_below v w h x B V). cbn [bind] in *. injection E as <- <-. eauto.
  - destruct (value_of v a) as [x| | |] eqn:V; try discriminate. rewrite (value_below v w a x B V). cbn [bind] in *. destruct (position v h) as [i| | |] eqn:P; try discriminate.
    rewrite (position_below v w h i B P). cbn [bind] in *. destruct (aset (items v) (Z.of_nat i) x) as [l| | |]; try discriminate. cbn [bind] in *. injection E as <- <-.
    eexists. split; [reflexivity|]. now apply same_refs.
Qed.
Lemma run_below g : forall os v w v' rs, below v w -> rrun tight v os = Ok (v', rs) -> exists w', rrun g w os = Ok (w', rs) /\ below v' w'.
Proof.
  induction os as [|o os IH]; intros v w v' rs B E; cbn [rrun] in *; [injection E as <- <-; eauto|].
  destruct (rstep tight v o) as [[v1 r]| | |] eqn:S; try discriminate. cbn [bind] in E. destruct (rrun tight v1 os) as [[v2 rs']| | |] eqn:R; try discriminate. cbn [bind] in E. injection E as <- <-.
  destruct (step_below g v w o v1 r B S) as (w1 & -> & B1). cbn [bind]. destruct (IH v1 w1 v2 rs' B1 R) as (w2 & -> & B2). cbn [bind]. eauto.
Qed.
Lemma fresh_below l c : below (fresh l 0) (fresh l c).
Proof. split; [reflexivity|]. split; [cbn; lia|constructor]. Qed.

(** ** exactly the calm references are valid *)
Lemma run_app_ok g : forall os1 os2 v v' rs, rrun g v (os1 ++ os2) = Ok (v', rs) ->
  exists w rs1 rs2, rrun g v os1 = Ok (w, rs1) /\ rrun g w os2 = Ok (v', rs2) /\ rs = rs1 ++ rs2.
Proof.
  induction os1 as [|o os1 IH]; intros os2 v v' rs E; cbn [rrun app] in *; [eauto 7|].
  destruct (rstep g v o) as [[v1 r]| | |]; try discriminate. cbn [bind] in *. destruct (rrun g v1 (os1 ++ os2)) as [[v2 rs']| | |] eqn:R; try discriminate. cbn [bind] in E. injection E as <- <-.
  destruct (IH os2 v1 v2 rs' R) as (w & r1 & r2 & -> & R2 & ->). cbn [bind]. exists w, (r :: r1), r2. auto.
Qed.
Lemma none_stays g v o v' r h : rstep g v o = Ok (v', r) -> nth_error (refs v) h = Some None -> nth_error (refs v') h = Some None.
Proof.
  assert (K : forall p rs, nth_error rs h = Some None -> nth_error (keep p rs) h = Some None) by (intros p rs H; now rewrite keep_nth, H).
  assert (KR : forall n, nth_error (refs v) h = Some None -> nth_error (refs (reserve g v n)) h = Some None) by (intros n H; unfold reserve; destruct (Nat.leb n (room v)); [exact H|now apply K]).
  assert (KS : forall x, nth_error (refs v) h = Some None -> nth_error (refs v ++ [x]) h = Some None).
  { intros x H. rewrite nth_error_app1; [exact H|]. apply nth_error_Some. congruence. }
  intros E H. destruct o as [a|i a|i|i a| | |l|i| | |k|k a]; cbn [rstep] in E;
    repeat match type of E with
    | bind ?m _ = _ => destruct m as [?x| | |]; cbn [bind] in E; try discriminate
    | (let (_, _) := ?p in _) = _ => destruct p
    end; injection E as <- <-; cbn [refs]; auto.
Qed.
Lemma none_run g h : forall os v v' rs, rrun g v os = Ok (v', rs) -> nth_error (refs v) h = Some None -> nth_error (refs v') h = Some None.
Proof.
  induction os as [|o os IH]; intros v v' rs E H; cbn [rrun] in E; [injection E as <- <-; exact H|].
  destruct (rstep g v o) as [[v1 r]| | |] eqn:S; try discriminate. cbn [bind] in E. destruct (rrun g v1 os) as [[v2 rs']| | |] eqn:R; try discriminate. cbn [bind] in E. injection E as <- <-.
  apply (IH v1 v2 rs' R). exact (none_stays g v o v1 r h S H).
Qed.
Lemma step_safe g v o v' r h i : rstep g v o = Ok (v', r) -> nth_error (refs v) h = Some (Some i) ->
  nth_error (refs v') h = Some (if safe (room v) i (length (items v)) o then Some i else None) /\ (safe (room v) i (length (items v)) o = true -> room v' = room v).
Proof.
  intros E H.
  assert (KS : forall x, nth_error (refs v ++ [x]) h = Some (Some i)).
  { intros x. rewrite nth_error_app1; [exact H|]. apply nth_error_Some. congruence. }
  destruct o as [a|j a|j|j a| | |l|j| | |k|k a]; cbn [rstep safe] in *.
  - destruct (value_of v a) as [x| | |]; try discriminate. cbn [bind] in E. injection E as <- <-. cbn [refs room]. unfold reserve.
    destruct (Nat.leb_spec (length (items v) + 1) (room v)); destruct (Nat.ltb_spec (length (items v)) (room v)); try lia; [auto|]. cbn [refs]. rewrite keep_nth, H. split; [reflexivity|discriminate].
  - destruct (value_of v a) as [x| | |]; try discriminate. cbn [bind] in E. destruct (seq_insert (items v) j x) as [l| | |]; try discriminate. cbn [bind] in E. injection E as <- <-. cbn [refs room]. unfold reserve.
    destruct (Nat.leb_spec (length (items v) + 1) (room v)); destruct (Nat.ltb_spec (length (items v)) (room v)); try lia; cbn [refs andb].
    + rewrite keep_nth, H. split; [now destruct (Z.of_nat i <? j)|auto].
    + rewrite keep_nth, keep_nth, H. split; [reflexivity|discriminate].
  - destruct (seq_erase (items v) j) as [l| | |]; try discriminate. cbn [bind] in E. injection E as <- <-. cbn [refs room]. rewrite keep_nth, H. split; [now destruct (Z.of_nat i <? j)|auto].
  - destruct (value_of v a) as [x| | |]; try discriminate. cbn [bind] in E. destruct (vec_set (items v) j x) as [l| | |]; try discriminate. cbn [bind] in E. injection E as <- <-. auto.
  - pose proof (pop_spec (items v)) as X. destruct (seq_pop (items v)) as [[x l]| | |]; try discriminate. cbn [bind] in E. injection E as <- <-. cbn [refs room]. rewrite keep_nth, H, X, app_length. cbn [length].
    replace (Nat.ltb (S i) (length l + 1)) with (Nat.ltb i (length l)); [split; [now destruct (Nat.ltb i (length l))|auto]|].
    destruct (Nat.ltb_spec i (length l)); destruct (Nat.ltb_spec (S i) (length l + 1)); try lia; reflexivity.
  - injection E as <- <-. cbn [refs room]. rewrite keep_nth, H. split; [reflexivity|discriminate].
  - injection E as <- <-. cbn [refs room]. rewrite keep_nth. unfold reserve. split; [|discriminate]. destruct (Nat.leb (length l) (room v)); cbn [refs]; [now rewrite H|]. now rewrite keep_nth, H.
  - destruct (vec_get (items v) j) as [x| | |]; try discriminate. cbn [bind] in E. injection E as <- <-. cbn [refs room]. split; [apply KS|reflexivity].
  - destruct (seq_first (items v)) as [x| | |]; try discriminate. cbn [bind] in E. injection E as <- <-. cbn [refs room]. split; [apply KS|reflexivity].
  - destruct (seq_last (items v)) as [x| | |]; try discriminate. cbn [bind] in E. injection E as <- <-. cbn [refs room]. split; [apply KS|reflexivity].
  - destruct (look v k) as [x| | |]; try discriminate. cbn [bind] in E. injection E as <- <-. auto.
  - destruct (value_of v a) as [x| | |]; try discriminate. cbn [bind] in E. destruct (position v k) as [j| | |]; try discriminate. cbn [bind] in E.
    destruct (aset (items v) (Z.of_nat j) x) as [l| | |]; try discriminate. cbn [bind] in E. injection E as <- <-. auto.
Qed.
Lemma run_calm g h i : forall os v v' rs ps, Forall int_index os -> known (refs v) ps -> rrun g v os = Ok (v', rs) -> nth_error (refs v) h = Some (Some i) ->
  nth_error (refs v') h = Some (if calm (room v) i (items v) ps os then Some i else None).
Proof.
  induction os as [|o os IH]; intros v v' rs ps I K E H; cbn [rrun calm] in *; [injection E as <- <-; exact H|].
  destruct (rstep g v o) as [[v1 r]| | |] eqn:S; try discriminate. cbn [bind] in E. destruct (rrun g v1 os) as [[v2 rs']| | |] eqn:R; try discriminate. cbn [bind] in E. injection E as <- <-.
  apply Forall_cons_iff in I as [I1 I2]. destruct (step_plain g v o v1 r ps) as (p1 & -> & K1); auto. destruct (step_safe g v o v1 r h i S H) as [N Rm].
  destruct (safe (room v) i (length (items v)) o); cbn [andb].
  - rewrite <- (Rm eq_refl). exact (IH v1 v2 rs' p1 I2 K1 R N).
  - exact (none_run g h os v1 v2 rs' R N).
Qed.
(** with nothing to spare the capacity is the greatest size so far *)
Lemma plain_peak : forall os v v' rs ps, Forall int_index os -> known (refs v) ps -> rrun tight v os = Ok (v', rs) -> (length (items v) <= room v)%nat ->
  room v' = Nat.max (room v) (peak (items v) ps os) /\ (length (items v') <= room v')%nat.
Proof.
  induction os as [|o os IH]; intros v v' rs ps I K E L; cbn [rrun peak] in *; [injection E as <- <-; split; [lia|exact L]|].
  destruct (rstep tight v o) as [[v1 r]| | |] eqn:S; try discriminate. cbn [bind] in E. destruct (rrun tight v1 os) as [[v2 rs']| | |] eqn:R; try discriminate. cbn [bind] in E. injection E as <- <-.
  apply Forall_cons_iff in I as [I1 I2]. destruct (step_plain tight v o v1 r ps) as (p1 & -> & K1); auto.
  assert (Q : room v1 = Nat.max (room v) (length (items v1)) /\ (length (items v1) <= room v1)%nat).
  { assert (RS : forall n, room (reserve tight v n) = Nat.max (room v) n) by (intros n; unfold reserve, tight; destruct (Nat.leb_spec n (room v)); cbn [room]; lia).
    clear IH R K K1 I2. destruct o as [a|j a|j|j a| | |l|j| | |k|k a]; cbn [rstep] in S.
    - destruct (value_of v a) as [x| | |]; try discriminate. cbn [bind] in S. injection S as <- <-. cbn [room items]. rewrite RS. unfold seq_push. rewrite app_length. cbn [length]. lia.
    - destruct (value_of v a) as [x| | |]; try discriminate. cbn [bind] in S. pose proof (insert_spec (items v) j x I1) as X.
      destruct (seq_insert (items v) j x) as [l| | |]; try discriminate. cbn [bind] in S. injection S as <- <-. cbn [room items]. rewrite RS.
      destruct X as (b & c & El & _ & ->). rewrite El in L |- *. rewrite !app_length in *. cbn [length] in *. lia.
    - pose proof (erase_spec (items v) j I1) as X. destruct (seq_erase (items v) j) as [l| | |]; try discriminate. cbn [bind] in S. injection S as <- <-. cbn [room items].
      destruct X as (b & y & c & El & _ & ->). rewrite El in L. rewrite !app_length in *. cbn [length] in *. lia.
    - destruct (value_of v a) as [x| | |]; try discriminate. cbn [bind] in S. destruct (vec_set (items v) j x) as [l| | |] eqn:SE; try discriminate. cbn [bind] in S. injection S as <- <-. cbn [room items].
      unfold vec_set in SE. destruct (boundaryCheck (items v) j); try discriminate. cbn [bind] in SE. unfold aset in SE. destruct ((j <? 0) || _); [discriminate|]. injection SE as <-. rewrite upd_length. lia.
    - pose proof (pop_spec (items v)) as X. destruct (seq_pop (items v)) as [[x l]| | |]; try discriminate. cbn [bind] in S. injection S as <- <-. cbn [room items]. rewrite X, app_length in L. lia.
    - injection S as <- <-. cbn. lia.
    - injection S as <- <-. cbn [room items]. rewrite RS. lia.
    - destruct (vec_get (items v) j) as [x| | |]; try discriminate. cbn [bind] in S. injection S as <- <-. cbn [room items]. lia.
    - destruct (seq_first (items v)) as [x| | |]; try discriminate. cbn [bind] in S. injection S as <- <-. cbn [room items]. lia.
    - destruct (seq_last (items v)) as [x| | |]; try discriminate. cbn [bind] in S. injection S as <- <-. cbn [room items]. lia.
    - destruct (look v k) as [x| | |]; try discriminate. cbn [bind] in S. injection S as <- <-. lia.
    - destruct (value_of v a) as [x| | |]; try discriminate. cbn [bind] in S. destruct (position v k) as [i| | |]; try discriminate. cbn [bind] in S.
      destruct (aset (items v) (Z.of_nat i) x) as [l| | |] eqn:SE; try discriminate. cbn [bind] in S. injection S as <- <-. cbn [room items].
      unfold aset in SE. destruct ((Z.of_nat i <? 0) || _); [discriminate|]. injection SE as <-. rewrite upd_length. lia. }
  destruct Q as [Q1 Q2]. destruct (IH v1 v2 rs' p1) as [P1 P2]; auto. split; [|exact P2]. rewrite P1, Q1.
  assert (length (items v1) <= peak (items v1) p1 os)%nat by (destruct os; cbn [peak]; lia). lia.
Qed.

(** ** valid references are in range, and nothing but an invalid one is undefined *)
Definition ranged v : Prop := forall h i, nth_error (refs v) h = Some (Some i) -> (i < length (items v))%nat.
Lemma keep_ranged (p : nat -> bool) rs h i : nth_error (keep p rs) h = Some (Some i) -> nth_error rs h = Some (Some i) /\ p i = true.
Proof. rewrite keep_nth. destruct (nth_error rs h) as [[j|]|]; try discriminate. destruct (p j) eqn:E; [|discriminate]. intros [= <-]. auto. Qed.
Lemma reserve_ranged g v n h i : nth_error (refs (reserve g v n)) h = Some (Some i) -> nth_error (refs v) h = Some (Some i).
Proof. unfold reserve. destruct (Nat.leb n (room v)); [auto|]. cbn [refs]. intros H. now apply keep_ranged in H as [H _]. Qed.
Lemma snoc_ranged (rs : list (option nat)) j h i : nth_error (rs ++ [Some j]) h = Some (Some i) -> nth_error rs h = Some (Some i) \/ i = j.
Proof.
  destruct (Nat.ltb_spec h (length rs)); [rewrite nth_error_app1 by assumption; auto|]. rewrite nth_error_app2 by assumption.
  destruct (h - length rs)%nat as [|k]; cbn; [intros [= <-]; auto|]. destruct k; discriminate.
Qed.
Lemma step_ranged g v o v' r : int_index o -> ranged v -> rstep g v o = Ok (v', r) -> ranged v'.
Proof.
  intros I G E. destruct o as [a|i a|i|i a| | |l|i| | |h|h a]; cbn [rstep int_index] in *.
  - destruct (value_of v a) as [x| | |]; try discriminate. cbn [bind] in E. injection E as <- <-. intros k j H. cbn [refs items] in *. apply reserve_ranged in H.
    unfold seq_push. rewrite app_length. specialize (G k j H). lia.
  - destruct (value_of v a) as [x| | |]; try discriminate. cbn [bind] in E. pose proof (insert_spec (items v) i x I) as X. destruct (seq_insert (items v) i x) as [l| | |]; try discriminate.
    cbn [bind] in E. injection E as <- <-. intros k j H. cbn [refs items] in *. apply keep_ranged in H as [H _]. apply reserve_ranged in H. specialize (G k j H).
    destruct X as (b & c & El & _ & ->). rewrite El in G. rewrite !app_length in *. cbn [length] in *. lia.
  - pose proof (erase_spec (items v) i I) as X. destruct (seq_erase (items v) i) as [l| | |]; try discriminate.
    cbn [bind] in E. injection E as <- <-. intros k j H. cbn [refs items] in *. apply keep_ranged in H as [H B]. apply Z.ltb_lt in B. specialize (G k j H).
    destruct X as (b & y & c & El & Li & ->). rewrite !app_length in *. lia.
  - destruct (value_of v a) as [x| | |]; try discriminate. cbn [bind] in E. pose proof (set_spec (items v) i x I) as X. destruct (vec_set (items v) i x) as [l| | |]; try discriminate.
    cbn [bind] in E. injection E as <- <-. intros k j H. cbn [refs items] in *. specialize (G k j H).
    destruct X as (b & y & c & El & Li & ->). rewrite El in G. rewrite !app_length in *. cbn [length] in *. lia.
  - destruct (seq_pop (items v)) as [[x l]| | |]; try discriminate. cbn [bind] in E. injection E as <- <-. intros k j H. cbn [refs items] in *. apply keep_ranged in H as [_ B]. now apply Nat.ltb_lt in B.
  - injection E as <- <-. intros k j H. cbn [refs] in H. now apply keep_ranged in H as [_ B].
  - injection E as <- <-. intros k j H. cbn [refs] in H. now apply keep_ranged in H as [_ B].
  - pose proof (vec_get_spec (items v) i I) as X. destruct (vec_get (items v) i) as [x| | |]; try discriminate. cbn [bind] in E. injection E as <- <-. intros k j H. cbn [refs items] in *.
    apply snoc_ranged in H as [H| ->]; [exact (G k j H)|]. destruct X as [X _]. lia.
  - pose proof (first_spec (items v)) as X. destruct (seq_first (items v)) as [x| | |]; try discriminate. cbn [bind] in E. injection E as <- <-. intros k j H. cbn [refs items] in *.
    apply snoc_ranged in H as [H| ->]; [exact (G k j H)|]. destruct X as [t ->]. cbn. lia.
  - pose proof (last_spec (items v)) as X. destruct (seq_last (items v)) as [x| | |]; try discriminate. cbn [bind] in E. injection E as <- <-. intros k j H. cbn [refs items] in *.
    apply snoc_ranged in H as [H| ->]; [exact (G k j H)|]. destruct X as [t ->]. rewrite app_length. cbn. lia.
  - destruct (look v h) as [x| | |]; try discriminate. cbn [bind] in E. injection E as <- <-. exact G.
  - destruct (value_of v a) as [x| | |]; try discriminate. cbn [bind] in E. destruct (position v h) as [i| | |]; try discriminate. cbn [bind] in E.
    destruct (aset (items v) (Z.of_nat i) x) as [l| | |] eqn:SE; try discriminate. cbn [bind] in E. injection E as <- <-. intros k j H. cbn [refs items] in *. specialize (G k j H).
    unfold aset in SE. destruct ((Z.of_nat i <? 0) || _); [discriminate|]. injection SE as <-. now rewrite upd_length.
Qed.
Lemma run_ranged g : forall os v v' rs, Forall int_index os -> ranged v -> rrun g v os = Ok (v', rs) -> ranged v'.
Proof.
  induction os as [|o os IH]; intros v v' rs I G E; cbn [rrun] in E; [injection E as <- <-; exact G|].
  destruct (rstep g v o) as [[v1 r]| | |] eqn:S; try discriminate. cbn [bind] in E. destruct (rrun g v1 os) as [[v2 rs']| | |] eqn:R; try discriminate. cbn [bind] in E. injection E as <- <-.
  apply Forall_cons_iff in I as [I1 I2]. apply (IH v1 v2 rs' I2); [|exact R]. exact (step_ranged g v o v1 r I1 G S).
Qed.
Lemma fresh_ranged l c : ranged (fresh l c).
Proof. intros [|h] i; discriminate. Qed.
Lemma look_spec v h : ranged v -> look v h = match nth_error (refs v) h with Some (Some i) => match nth_error (items v) i with Some x => Ok x | None => UB end | _ => UB end.
Proof. intros G. unfold look, position. destruct (nth_error (refs v) h) as [[i|]|]; try reflexivity. cbn [bind]. apply aget_nth. Qed.
Lemma look_valid v h i : ranged v -> nth_error (refs v) h = Some (Some i) -> exists x, look v h = Ok x.
Proof.
  intros G H. rewrite look_spec, H by exact G. specialize (G h i H). destruct (nth_error (items v) i) as [x|] eqn:N; [eauto|]. apply nth_error_None in N. lia.
Qed.
Lemma run_app g : forall os1 os2 v, rrun g v (os1 ++ os2) = (' (w, r1) <- rrun g v os1 ;; ' (w, r2) <- rrun g w os2 ;; Ok (w, r1 ++ r2)).
Proof.
  induction os1 as [|o os1 IH]; intros os2 v; cbn [rrun app bind]; [destruct (rrun g v os2) as [[w r]| | |]; reflexivity|].
  destruct (rstep g v o) as [[v1 r]| | |]; cbn [bind]; try reflexivity. rewrite IH. destruct (rrun g v1 os1) as [[v2 r1]| | |]; cbn [bind]; try reflexivity.
  destruct (rrun g v2 os2) as [[v3 r2]| | |]; reflexivity.
Qed.
(** a call that uses no reference *)
Lemma own_value v a : valued a = true -> exists x, value_of v a = Ok x.
Proof. destruct a; [cbn; eauto|discriminate]. Qed.
Lemma step_defined g v o : int_index o -> unused o = true -> match rstep g v o with Ok _ | Err => True | _ => False end.
Proof.
  intros I U. destruct o as [a|i a|i|i a| | |l|i| | |h|h a]; cbn [rstep int_index unused] in *; try discriminate.
  - destruct (own_value v a U) as [x ->]. exact Logic.I.
  - destruct (own_value v a U) as [x ->]. cbn [bind]. pose proof (insert_spec (items v) i x I) as X. destruct (seq_insert (items v) i x); cbn [bind]; auto.
  - pose proof (erase_spec (items v) i I) as X. destruct (seq_erase (items v) i); cbn [bind]; auto.
  - destruct (own_value v a U) as [x ->]. cbn [bind]. pose proof (set_spec (items v) i x I) as X. destruct (vec_set (items v) i x); cbn [bind]; auto.
  - pose proof (pop_spec (items v)) as X. destruct (seq_pop (items v)) as [[x l]| | |]; cbn [bind]; auto.
  - exact Logic.I.
  - exact Logic.I.
  - pose proof (vec_get_spec (items v) i I) as X. destruct (vec_get (items v) i); cbn [bind]; auto.
  - pose proof (first_spec (items v)) as X. destruct (seq_first (items v)); cbn [bind]; auto.
  - pose proof (last_spec (items v)) as X. destruct (seq_last (items v)); cbn [bind]; auto.
Qed.
Lemma run_defined g : forall os v, Forall int_index os -> forallb unused os = true -> match rrun g v os with Ok _ | Err => True | _ => False end.
Proof.
  induction os as [|o os IH]; intros v I U; [exact Logic.I|]. apply Forall_cons_iff in I as [I1 I2]. cbn [forallb rrun] in *. apply andb_true_iff in U as [U1 U2].
  pose proof (step_defined g v o I1 U1). destruct (rstep g v o) as [[w r]| | |]; cbn [bind]; auto. specialize (IH w I2 U2). destruct (rrun g w os) as [[w' rs]| | |]; cbn [bind]; auto.
Qed.

(** ** the reference taken after [before] *)
Lemma refers_step g v o v' r i : rstep g v o = Ok (v', r) -> refers (items v) o = Some i -> items v' = items v /\ room v' = room v /\ refs v' = refs v ++ [Some i].
Proof.
  intros E R. destruct o as [a|j a|j|j a| | |l|j| | |h|h a]; cbn [rstep refers] in *; try discriminate; injection R as <-.
  - destruct (vec_get (items v) j); try discriminate. cbn [bind] in E. now injection E as <- <-.
  - destruct (seq_first (items v)); try discriminate. cbn [bind] in E. now injection E as <- <-.
  - destruct (seq_last (items v)); try discriminate. cbn [bind] in E. now injection E as <- <-.
Qed.
Lemma fresh_known l c : known (refs (@fresh A l c)) [].
Proof. split; [reflexivity|]. intros [|h] i; discriminate. Qed.
Lemma fate l before o after v rs l1 ps1 rs1 i : Forall int_index (before ++ o :: after) -> plainly l [] before = Some (l1, ps1, rs1) -> refers l1 o = Some i ->
  rrun tight (fresh l 0) (before ++ o :: after) = Ok (v, rs) ->
  nth_error (refs v) (length ps1) = Some (if calm (peak l [] before) i l1 (ps1 ++ [i]) after then Some i else None) /\ ranged v.
Proof.
  intros I P R E. split; [|exact (run_ranged _ _ _ _ _ I (fresh_ranged l 0) E)]. apply Forall_app in I as [I1 I2]. apply Forall_cons_iff in I2 as [I2 I3].
  apply run_app_ok in E as (v1 & r1 & r2 & E1 & E2 & _). destruct (run_plain _ _ _ _ _ [] I1 (fresh_known l 0) E1) as (p & P' & K). cbn [items fresh] in P'. rewrite P in P'. injection P' as -> -> ->.
  destruct (plain_peak _ _ _ _ [] I1 (fresh_known l 0) E1) as [Rm _]; [cbn; lia|]. cbn [items fresh room] in Rm. cbn [rrun] in E2. destruct (rstep tight v1 o) as [[v2 r]| | |] eqn:S; try discriminate.
  cbn [bind] in E2. destruct (rrun tight v2 after) as [[v3 rs3]| | |] eqn:R3; try discriminate. cbn [bind] in E2. injection E2 as -> _.
  destruct (refers_step _ _ _ _ _ _ S R) as (Ei & Er & Ef). assert (N : nth_error (refs v2) (length p) = Some (Some i)).
  { rewrite Ef, <- (proj1 K), nth_error_app2, Nat.sub_diag by lia. reflexivity. }
  assert (K2 : known (refs v2) (p ++ [i])) by (rewrite Ef; now apply snoc_known). rewrite (run_calm _ _ _ _ _ _ _ _ I3 K2 R3 N), Ei, Er, Rm.
  replace (Nat.max (length l + 0) (peak l [] before)) with (peak l [] before); [reflexivity|]. destruct before; cbn [peak]; lia.
Qed.
End Proofs.
