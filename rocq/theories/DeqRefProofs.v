(** Proofs about references into Stacks and Queues. *)
From Coq Require Import Permutation.
From Verif Require Import Base ContModel ContSpec ContProofs ListRefModel ListRefSpec ListRefProofs DeqRefModel DeqRefSpec.
Local Open Scope Z_scope.

Section Proofs.
Context {A : Type}.
Implicit Types (st : store A) (p : plain A).

(** ** one container changes *)
Definition setside (s : bool) (l : list (node A)) (nx : nat) st : store A :=
  if s then Store (one st) l nx (held st) else Store l (two st) nx (held st).
Lemma with_setside s l st : with_side s l st = setside s l (S (next st)) st. Proof. now destruct s. Qed.
Lemma setside_same s l nx st : side_of s (setside s l nx st) = l. Proof. now destruct s. Qed.
Lemma setside_other s l nx st : side_of (negb s) (setside s l nx st) = side_of (negb s) st. Proof. now destruct s. Qed.
Lemma moved_same s (ps : list (option (bool * nat))) : onward (moved s Some) ps = ps.
Proof.
  unfold onward. rewrite <- map_id. apply map_ext. intros [[t i]|]; [|reflexivity]. unfold moved. destruct (Bool.eqb_spec s t) as [->|]; reflexivity.
Qed.
Lemma change_ok st p s l' nx f : rep st p -> (next st <= nx)%nat -> NoDup (map fst l') ->
  (forall id, In id (map fst l') -> In id (map fst (side_of s st)) \/ (next st <= id < nx)%nat) ->
  (forall i n, nth_error (side_of s st) i = Some n ->
    match f i with Some j => exists x, nth_error l' j = Some (fst n, x) | None => ~ In (fst n) (map fst l') end) ->
  rep (setside s l' nx st) (put_side s (map snd l') (onward (moved s f) (places p)) p).
Proof.
  intros R L N I T. pose proof R as (E1 & E2 & D & B & H). set (st' := setside s l' nx st).
  assert (Sl : side_of s st' = l') by apply setside_same. assert (So : side_of (negb s) st' = side_of (negb s) st) by apply setside_other.
  assert (Nx : next st' = nx) by (unfold st'; now destruct s).
  assert (Bd : forall id, In id (map fst (all st)) -> (id < next st)%nat) by (intros id; apply (proj1 (Forall_forall _ _) B)).
  pose proof (nodup_sides s st D) as D'.
  assert (X : forall id, In id (map fst l') -> ~ In id (map fst (side_of (negb s) st))).
  { intros id J K. destruct (I id J) as [J'|J'].
    - exact (nodup_fst_app _ _ id D' J' K).
    - assert (id < next st)%nat by (apply Bd, (in_all s); now right). lia. }
  split; [unfold st'; destruct s; [exact E1|reflexivity]|]. split; [unfold st'; destruct s; [reflexivity|exact E2]|]. split; [|split].
  - apply (Permutation_NoDup (l := map fst (side_of s st' ++ side_of (negb s) st'))); [apply Permutation_map, Permutation_sym, sides|].
    rewrite Sl, So, map_app. rewrite map_app in D'. assert (D2 : NoDup (map fst (side_of (negb s) st))).
    { apply (Permutation_NoDup (Permutation_app_comm _ _)) in D'. now apply NoDup_front in D'. }
    clear - N X D2. revert N X. generalize (map fst l') as u. induction u as [|y u IH]; intros N X; [exact D2|]. cbn [app]. apply NoDup_cons_iff in N as [N1 N2]. constructor.
    + intros J. apply in_app_or in J as [J|J]; [contradiction|]. exact (X y (or_introl eq_refl) J).
    + apply IH; [exact N2|]. intros id J. apply X. now right.
  - rewrite Nx. apply Forall_forall. intros id J. apply (in_all s) in J. rewrite Sl, So in J. destruct J as [J|J].
    + destruct (I id J) as [J'|J']; [|lia]. assert (id < next st)%nat by (apply Bd, (in_all s); now left). lia.
    + assert (id < next st)%nat by (apply Bd, (in_all s); now right). lia.
  - replace (held st') with (held st) by (unfold st'; now destruct s). replace (places (put_side s (map snd l') (onward (moved s f) (places p)) p)) with (onward (moved s f) (places p)) by now destruct s.
    refine (onward_found _ _ _ _ _ _ H). intros id q (Lt & Q). split; [rewrite Nx; lia|]. destruct q as [[t i]|].
    + unfold moved. destruct (Bool.eqb_spec s t) as [<-|NE].
      * destruct Q as [x Q]. specialize (T i _ Q). cbn [fst] in T. destruct (f i) as [j|]; [now rewrite Sl|]. intros J. apply (in_all s) in J. rewrite Sl, So in J. destruct J as [J|J]; [contradiction|].
        apply (nodup_fst_app _ _ id D'); [|exact J]. apply nth_error_In in Q. now apply fst_in in Q.
      * assert (t = negb s) as -> by (destruct s, t; (reflexivity || congruence)). destruct Q as [x Q]. exists x. now rewrite So.
    + intros J. apply (in_all s) in J. rewrite Sl, So in J. destruct J as [J|J].
      * destruct (I id J) as [J'|J']; [|lia]. apply Q, (in_all s). now left.
      * apply Q, (in_all s). now right.
Qed.
Lemma pick_nil s st p : rep st p -> side_of s st = [] -> pick s p = [].
Proof. intros R E. now rewrite <- (rep_pick s st p R), E. Qed.
Lemma nodup_side s st p : rep st p -> NoDup (map fst (side_of s st)).
Proof. intros (_ & _ & D & _). pose proof (nodup_sides s st D) as D'. rewrite map_app in D'. now apply NoDup_front in D'. Qed.
Lemma side_bound s st p id : rep st p -> In id (map fst (side_of s st)) -> (id < next st)%nat.
Proof. intros (_ & _ & _ & B & _) J. apply (proj1 (Forall_forall _ _) B), (in_all s). now left. Qed.

(** ** the calls *)
Lemma push_ok (queue : bool) st p s x : rep st p -> rep (pushed queue st s x) (put_side s (pick s p ++ [x]) (places p) p).
Proof.
  intros R. unfold pushed. replace ((if queue then queue_enqueue else stack_push) (side_of s st) (next st, x)) with (side_of s st ++ [(next st, x)]) by now destruct queue.
  rewrite with_setside. rewrite <- (moved_same s (places p)). rewrite <- (rep_pick s st p R).
  replace (map snd (side_of s st) ++ [x]) with (map snd (side_of s st ++ [(next st, x)])) by now rewrite map_app.
  apply change_ok; [exact R|lia| | |].
  - rewrite map_app. apply (Permutation_NoDup (l := next st :: map fst (side_of s st))); [apply Permutation_cons_append|]. constructor; [|exact (nodup_side s st p R)].
    intros J. apply (side_bound s st p _ R) in J. lia.
  - intros id J. rewrite map_app in J. apply in_app_or in J as [J|[<-|[]]]; [now left|]. right. cbn [fst]. lia.
  - intros i [k y] Q. exists y. rewrite nth_error_app1; [exact Q|]. apply nth_error_Some. congruence.
Qed.
Lemma lose_ok st p s l' nx : rep st p -> (next st <= nx)%nat -> NoDup (map fst l') -> (forall id, In id (map fst l') -> (next st <= id < nx)%nat) ->
  rep (setside s l' nx st) (put_side s (map snd l') (lose s p) p).
Proof.
  intros R L N I. apply change_ok; auto. intros i n Q J. apply I in J. apply nth_error_In, fst_in in Q. apply (side_bound s st p _ R) in Q. lia.
Qed.
Lemma target_spec st p h : rep st p ->
  match target p h with
  | Some (s, i, x) => exists id, seen st h = Ok (id, x) /\ nth_error (side_of s st) i = Some (id, x)
  | None => seen st h = UB
  end.
Proof.
  intros R. pose proof (seen_spec st p h R) as S. unfold target. destruct (nth_error (places p) h) as [[[s i]|]|]; [|exact S|exact S].
  destruct S as (id & x & S & N). rewrite <- (rep_pick s st p R), nth_error_map, N. cbn [option_map snd]. eauto.
Qed.
Lemma put_ref_ok st p s i id x y : rep st p -> nth_error (side_of s st) i = Some (id, y) ->
  rep (Store (overwrite id x (one st)) (overwrite id x (two st)) (next st) (held st)) (put_side s (firstn i (pick s p) ++ x :: skipn (S i) (pick s p)) (places p) p).
Proof.
  intros R Q. pose proof R as (_ & _ & D & _ & _). pose proof (nodup_sides s st D) as D'.
  assert (O : overwrite id x (side_of (negb s) st) = side_of (negb s) st).
  { apply overwrite_out. apply (nodup_fst_app _ _ id D'). apply nth_error_In in Q. now apply fst_in in Q. }
  replace (Store (overwrite id x (one st)) (overwrite id x (two st)) (next st) (held st)) with (setside s (overwrite id x (side_of s st)) (next st) st) by (destruct s; cbn [side_of negb] in O; cbn [setside side_of]; now rewrite O).
  rewrite <- (moved_same s (places p)). destruct (nth_error_split _ _ Q) as (a & b & Es & La).
  assert (N : NoDup (map fst (a ++ (id, y) :: b))) by (rewrite <- Es; exact (nodup_side s st p R)).
  replace (firstn i (pick s p) ++ x :: skipn (S i) (pick s p)) with (map snd (overwrite id x (side_of s st))).
  - apply change_ok; [exact R|lia| | |].
    + rewrite overwrite_fst. exact (nodup_side s st p R).
    + intros k J. rewrite overwrite_fst in J. now left.
    + intros j [k z] K. rewrite (overwrite_at _ _ _ _ _ _ K). cbn [fst]. destruct (Nat.eqb_spec k id) as [->|]; eauto.
  - rewrite <- (rep_pick s st p R), Es, overwrite_mid by exact N. rewrite !map_app. cbn [map snd]. rewrite <- La, <- (map_length snd a), firstn_app, firstn_all, Nat.sub_diag. cbn [firstn]. rewrite app_nil_r.
    f_equal. f_equal. rewrite skipn_app, skipn_all2 by lia. replace (S (length (map snd a)) - length (map snd a))%nat with 1%nat by lia. reflexivity.
Qed.
Lemma clear_nodes (queue : bool) (l : list (node A)) : Z.of_nat (length l) <= int32_max -> (if queue then queue_clear else stack_clear) l = Ok [].
Proof.
  intros F. assert (Z : size_int l = Z.of_nat (length l)) by (unfold size_int, len; apply wrap32_id; unfold in_int32; apply andb_true_iff; unfold int32_max, int32_min in *; split; apply Z.leb_le; lia).
  destruct queue; [unfold queue_clear; rewrite (clear_ok _ _ _ pop_times_front)|unfold stack_clear; rewrite (clear_ok _ _ _ pop_times_back)]; rewrite Z; (destruct (Z.ltb_spec (Z.of_nat (length l)) 0); [lia|]); rewrite Nat2Z.id.
  - now rewrite skipn_all.
  - now rewrite Nat.sub_diag.
Qed.
Definition agrees {X Y} (R : X -> Y -> Prop) (a : outcome X) (b : outcome Y) : Prop :=
  match b with
  | Ok y => exists x, a = Ok x /\ R x y
  | Err => a = Err
  | UB => a = UB
  | Fuel => True
  end.
Definition both {B} (u : store A * B) (v : plain A * B) : Prop := rep (fst u) (fst v) /\ snd u = snd v.
Lemma back_last (l : list (node A)) x : nth_error (l ++ [x]) (length (l ++ [x]) - 1) = Some x.
Proof. rewrite app_length. cbn [length]. replace (length l + 1 - 1)%nat with (length l) by lia. rewrite nth_error_app2, Nat.sub_diag by lia. reflexivity. Qed.
Lemma dstep_ok queue st p o : rep st p -> agrees both (dstep queue st o) (pstep queue p o).
Proof.
  intros R. assert (Ln : forall s, length (pick s p) = length (side_of s st)) by (intros s; rewrite <- (rep_pick s st p R); apply map_length).
  destruct o as [s x|s h|s|s|s|s back|s|h|h x]; cbn [dstep pstep].
  - eexists. split; [reflexivity|]. split; [now apply push_ok|reflexivity].
  - pose proof (target_spec st p h R) as T. destruct (target p h) as [[[t i] x]|]; [|rewrite T; reflexivity]. destruct T as (id & -> & _). cbn [bind snd]. eexists. split; [reflexivity|]. split; [now apply push_ok|reflexivity].
  - destruct queue.
    + rewrite <- (rep_pick s st p R). destruct (side_of s st) as [|[k x] l] eqn:E; [reflexivity|]. cbn [map snd queue_dequeue emptyCheck stl_front stl_pop_front bind].
      eexists. split; [reflexivity|]. split; [|reflexivity]. cbn [fst]. rewrite with_setside. pose proof (nodup_side s st p R) as N. rewrite E in N. cbn [map fst] in N. apply NoDup_cons_iff in N as [N1 N2].
      apply change_ok; [exact R|lia|exact N2| |].
      * intros id J. left. rewrite E. now right.
      * rewrite E. intros [|i] [k' y] Q; cbn [nth_error] in Q; [injection Q as <- <-; exact N1|]. eauto.
    + rewrite <- (rep_pick s st p R). destruct (back_split (side_of s st)) as [E|(l & [k x] & E)]; rewrite E; [reflexivity|]. rewrite map_app, rev_app_distr. cbn [map snd rev app].
      unfold stack_pop. replace (emptyCheck (l ++ [(k, x)])) with (Ok tt) by now destruct l. cbn [bind]. rewrite stl_back_spec. cbn [bind]. rewrite stl_pop_back_spec. cbn [bind].
      eexists. split; [reflexivity|]. split; [|reflexivity]. cbn [fst]. rewrite with_setside, rev_involutive, rev_length, map_length. pose proof (nodup_side s st p R) as N. rewrite E, map_app in N. cbn [map fst] in N.
      pose proof (NoDup_remove_2 _ _ _ N) as N1. rewrite app_nil_r in N1. apply NoDup_front in N. apply change_ok; [exact R|lia|exact N| |].
      * intros id J. left. rewrite E, map_app. apply in_or_app. now left.
      * rewrite E. intros i [k' y] Q. destruct (Nat.eqb_spec i (length l)) as [->|NE].
        -- rewrite nth_error_app2, Nat.sub_diag in Q by lia. injection Q as <- <-. exact N1.
        -- exists y. assert (i < length (l ++ [(k, x)]))%nat by (apply nth_error_Some; congruence). rewrite app_length in *. cbn [length] in *. rewrite nth_error_app1 in Q by lia. exact Q.
  - unfold fits. destruct (Z.leb_spec (Z.of_nat (length (pick s p))) int32_max) as [F|]; [|exact I]. rewrite Ln in F. rewrite (clear_nodes queue _ F). cbn [bind]. eexists. split; [reflexivity|]. split; [|reflexivity].
    cbn [fst]. rewrite with_setside. apply (lose_ok st p s [] _ R); [lia|constructor|intros id []].
  - unfold fits. destruct (Z.leb_spec (Z.of_nat (length (pick s p))) int32_max) as [F|]; [|exact I]. eexists. split; [reflexivity|]. split; [exact R|]. cbn [snd]. rewrite Ln in *. unfold size_int, len. f_equal.
    apply wrap32_id. unfold in_int32. apply andb_true_iff. unfold int32_max, int32_min in *. split; apply Z.leb_le; lia.
  - rewrite Ln, <- (rep_pick s st p R). destruct (back_split (side_of s st)) as [E|(l & n & E)]; rewrite E; [destruct queue, back; reflexivity|].
    replace (match map snd (l ++ [n]) with [] => if queue then UB else Err | _ :: _ => Ok (Plain (fst_list p) (snd_list p) (places p ++ [Some (s, if queue && negb back then 0%nat else (length (l ++ [n]) - 1)%nat)]), RNone) end)
      with (Ok (Plain (fst_list p) (snd_list p) (places p ++ [Some (s, if queue && negb back then 0%nat else (length (l ++ [n]) - 1)%nat)]), @RNone A)) by now destruct l.
    assert (X : exists m, (if queue then if back then queue_last else queue_first else stack_top) (l ++ [n]) = Ok m /\ nth_error (l ++ [n]) (if queue && negb back then 0%nat else (length (l ++ [n]) - 1)%nat) = Some m).
    { destruct queue, back; cbn [andb negb].
      - exists n. split; [apply stl_back_spec|apply back_last].
      - destruct l as [|m l]; eexists; split; reflexivity.
      - exists n. split; [|apply back_last]. unfold stack_top. rewrite stl_back_spec. now destruct l.
      - exists n. split; [|apply back_last]. unfold stack_top. rewrite stl_back_spec. now destruct l. }
    destruct X as (m & -> & X). cbn [bind]. eexists. split; [reflexivity|]. split; [|reflexivity]. cbn [fst]. apply take_ok; [exact R|]. now rewrite E.
  - eexists. split; [reflexivity|]. split; [|reflexivity]. cbn [fst]. unfold assigned. set (l := map snd (side_of (negb s) st)).
    replace (pick (negb s) p) with (map snd (number (next st) l)) by (rewrite number_snd; apply rep_pick; exact R).
    apply (lose_ok st p s (number (next st) l) (next st + length l) R); [lia| |]; rewrite number_fst; [apply seq_NoDup|]. intros id J. apply in_seq in J. lia.
  - pose proof (target_spec st p h R) as T. destruct (target p h) as [[[t i] x]|]; [|rewrite T; reflexivity]. destruct T as (id & -> & _). cbn [bind snd]. eexists. split; [reflexivity|]. split; [exact R|reflexivity].
  - pose proof (target_spec st p h R) as T. destruct (target p h) as [[[t i] y]|]; [|rewrite T; reflexivity]. destruct T as (id & -> & Q). cbn [bind fst]. eexists. split; [reflexivity|]. split; [|reflexivity].
    cbn [fst]. now apply (put_ref_ok st p t i id x y).
Qed.
Lemma drun_ok queue os : forall st p, rep st p -> agrees both (drun queue st os) (prun queue p os).
Proof.
  induction os as [|o os IH]; intros st p R; cbn [drun prun]; [eexists; split; [reflexivity|]; now split|].
  pose proof (dstep_ok queue st p o R) as S. destruct (pstep queue p o) as [[p1 r]| | |]; cbn [agrees bind] in *; try (rewrite S; reflexivity); try exact I.
  destruct S as ([st1 r1] & -> & R1 & E). cbn [fst snd] in R1, E. subst r1. cbn [bind]. pose proof (IH st1 p1 R1) as S. destruct (prun queue p1 os) as [[p2 rs]| | |]; cbn [agrees bind] in *; try (rewrite S; reflexivity); try exact I.
  destruct S as ([st2 rs2] & -> & R2 & E). cbn [fst snd] in R2, E. subst rs2. cbn [bind]. eexists. split; [reflexivity|]. now split.
Qed.
Lemma prun_app queue os1 : forall p os2, prun queue p (os1 ++ os2) = (' (p1, r1) <- prun queue p os1 ;; ' (p2, r2) <- prun queue p1 os2 ;; Ok (p2, r1 ++ r2)).
Proof.
  induction os1 as [|o os1 IH]; intros p os2; cbn [app prun bind]; [destruct (prun queue p os2) as [[? ?]| | |]; reflexivity|]. destruct (pstep queue p o) as [[p1 r]| | |]; cbn [bind]; try reflexivity.
  rewrite IH. destruct (prun queue p1 os1) as [[p2 r2]| | |]; cbn [bind]; try reflexivity. destruct (prun queue p2 os2) as [[? ?]| | |]; reflexivity.
Qed.

(** ** where a reference goes *)
Lemma onward_nth f ps h : nth_error (onward f ps) h = option_map (fun o => match o with Some (s, i) => f s i | None => None end) (nth_error ps h).
Proof. apply nth_error_map. Qed.
Lemma put_places s (l : list A) ps p : places (put_side s l ps p) = ps. Proof. now destruct s. Qed.
Lemma put_pick s (l : list A) ps p : pick s (put_side s l ps p) = l. Proof. now destruct s. Qed.
Lemma put_pick_other s t (l : list A) ps p : s <> t -> pick t (put_side s l ps p) = pick t p. Proof. destruct s, t; (reflexivity || congruence). Qed.
(** what one call does to the position of a reference *)
Definition fate (queue : bool) (p : plain A) (o : dop A) (q : option (bool * nat)) : option (bool * nat) :=
  match q with
  | None => None
  | Some (t, i) =>
      match o with
      | Pop s => if Bool.eqb s t then if queue then match i with O => None | S i => Some (t, i) end else if Nat.eqb i (length (pick s p) - 1) then None else Some (t, i) else Some (t, i)
      | Clear s | Assign s => if Bool.eqb s t then None else Some (t, i)
      | _ => Some (t, i)
      end
  end.
Lemma step_fate queue p o p' r h q : pstep queue p o = Ok (p', r) -> nth_error (places p) h = Some q -> nth_error (places p') h = Some (fate queue p o q).
Proof.
  intros E H. assert (Lo : forall s, nth_error (lose s p) h = Some (match q with Some (t, i) => if Bool.eqb s t then None else Some (t, i) | None => None end)).
  { intros s. unfold lose. rewrite onward_nth, H. cbn [option_map]. destruct q as [[t i]|]; [|reflexivity]. unfold moved. now destruct (Bool.eqb s t). }
  destruct o as [s x|s k|s|s|s|s back|s|k|k x]; cbn [pstep] in E.
  - injection E as <- <-. rewrite put_places, H. now destruct q as [[t i]|].
  - destruct (target p k) as [[[t j] y]|]; [|discriminate]. injection E as <- <-. rewrite put_places, H. now destruct q as [[t' i]|].
  - destruct queue.
    + destruct (pick s p) as [|x l]; [discriminate|]. injection E as <- <-. rewrite put_places, onward_nth, H. cbn [option_map]. destruct q as [[t i]|]; [|reflexivity]. cbn [fate]. unfold moved.
      destruct (Bool.eqb_spec s t) as [->|]; [|reflexivity]. now destruct i.
    + destruct (rev (pick s p)) as [|x l] eqn:Er; [discriminate|]. assert (L : length l = (length (pick s p) - 1)%nat) by (rewrite <- (rev_length (pick s p)), Er; cbn [length]; lia). injection E as <- <-. rewrite put_places, onward_nth, H. cbn [option_map]. destruct q as [[t i]|]; [|reflexivity]. cbn [fate]. unfold moved.
      destruct (Bool.eqb_spec s t) as [->|]; [|reflexivity]. rewrite L. now destruct (Nat.eqb i (length (pick t p) - 1)).
  - destruct (fits (pick s p)); [|discriminate]. injection E as <- <-. rewrite put_places, Lo. now destruct q as [[t i]|].
  - destruct (fits (pick s p)); [|discriminate]. injection E as <- <-. rewrite H. now destruct q as [[t i]|].
  - destruct (pick s p); [destruct queue; discriminate|]. injection E as <- <-. cbn [places]. rewrite nth_error_app1; [rewrite H; now destruct q as [[t i]|]|]. apply nth_error_Some. congruence.
  - injection E as <- <-. rewrite put_places, Lo. now destruct q as [[t i]|].
  - destruct (target p k) as [[[t j] y]|]; [|discriminate]. injection E as <- <-. rewrite H. now destruct q as [[t' i]|].
  - destruct (target p k) as [[[t j] y]|]; [|discriminate]. injection E as <- <-. rewrite put_places, H. now destruct q as [[t' i]|].
Qed.
Lemma gone_stays queue os : forall p p' rs h, prun queue p os = Ok (p', rs) -> nth_error (places p) h = Some None -> nth_error (places p') h = Some None.
Proof.
  induction os as [|o os IH]; intros p p' rs h E H; cbn [prun] in E; [injection E as <- <-; exact H|]. destruct (pstep queue p o) as [[p1 r]| | |] eqn:S; try discriminate. cbn [bind] in E.
  destruct (prun queue p1 os) as [[p2 rs2]| | |] eqn:Q; try discriminate. injection E as <- <-. apply (IH p1 _ rs2 h Q). exact (step_fate _ _ _ _ _ _ _ S H).
Qed.
(** ** Stacks *)
Lemma put_len x i (l : list A) y : nth_error l i = Some y -> length (firstn i l ++ x :: skipn (S i) l) = length l.
Proof. intros H. assert (i < length l)%nat by (apply nth_error_Some; congruence). rewrite app_length, firstn_length. cbn [length]. rewrite skipn_length. lia. Qed.
Lemma target_at p h s i x : target p h = Some (s, i, x) -> nth_error (pick s p) i = Some x.
Proof.
  unfold target. destruct (nth_error (places p) h) as [[[t j]|]|]; try discriminate. destruct (nth_error (pick t p) j) eqn:E; try discriminate. intros [= <- <- <-]. exact E.
Qed.
Lemma stack_fate_step p o p' r s n : pstep false p o = Ok (p', r) -> (n < length (pick s p))%nat ->
  fate false p o (Some (s, n)) = if Nat.ltb n (length (pick s p')) && negb (match o with Assign t => Bool.eqb s t | _ => false end) then Some (s, n) else None.
Proof.
  intros E L. assert (G : (n < length (pick s p'))%nat -> Some (s, n) = if Nat.ltb n (length (pick s p')) && negb false then Some (s, n) else None).
  { intros G. destruct (Nat.ltb_spec n (length (pick s p'))); [reflexivity|lia]. }
  assert (P : forall t l ps, (t = s -> n < length l)%nat -> (n < length (pick s (put_side t l ps p)))%nat).
  { intros t l ps H. destruct (Bool.bool_dec t s) as [->|NE]; [rewrite put_pick; auto|]. now rewrite put_pick_other. }
  destruct o as [t x|t k|t|t|t|t back|t|k|k x]; cbn [pstep fate] in *.
  - apply G. injection E as <- <-. apply P. intros ->. rewrite app_length. lia.
  - apply G. destruct (target p k) as [[[t' j] y]|]; [|discriminate]. injection E as <- <-. apply P. intros ->. rewrite app_length. lia.
  - destruct (rev (pick t p)) as [|x l] eqn:Er; [discriminate|]. assert (Ll : length (pick t p) = S (length l)) by (rewrite <- (rev_length (pick t p)), Er; reflexivity). injection E as <- <-.
    destruct (Bool.eqb_spec t s) as [->|NE].
    + rewrite put_pick, rev_length. rewrite Ll in *. replace (S (length l) - 1)%nat with (length l) by lia. rewrite andb_true_r. destruct (Nat.eqb_spec n (length l)), (Nat.ltb_spec n (length l)); (reflexivity || lia).
    + apply G. now rewrite put_pick_other.
  - destruct (fits (pick t p)); [|discriminate]. injection E as <- <-. destruct (Bool.eqb_spec t s) as [->|NE].
    + rewrite put_pick. cbn [length]. destruct (Nat.ltb_spec n 0); [lia|reflexivity].
    + apply G. now rewrite put_pick_other.
  - apply G. destruct (fits (pick t p)); [|discriminate]. injection E as <- <-. exact L.
  - apply G. destruct (pick t p); [discriminate|]. injection E as <- <-. destruct s; exact L.
  - injection E as <- <-. destruct (Bool.eqb_spec t s) as [->|NE].
    + rewrite Bool.eqb_reflx, andb_false_r. reflexivity.
    + replace (Bool.eqb s t) with false by (destruct s, t; (reflexivity || congruence)). apply G. now rewrite put_pick_other.
  - apply G. destruct (target p k) as [[[t' j] y]|]; [|discriminate]. injection E as <- <-. exact L.
  - apply G. destruct (target p k) as [[[t' j] y]|] eqn:T; [|discriminate]. injection E as <- <-. apply P. intros ->. apply target_at in T. rewrite <- (put_len x j _ y T) in L. exact L.
Qed.
Lemma stack_fate os : forall p p' rs h s n, prun false p os = Ok (p', rs) -> nth_error (places p) h = Some (Some (s, n)) -> (n < length (pick s p))%nat ->
  nth_error (places p') h = Some (if above false s n p os then Some (s, n) else None).
Proof.
  induction os as [|o os IH]; intros p p' rs h s n E H L; cbn [prun above] in *; [injection E as <- <-; exact H|]. destruct (pstep false p o) as [[p1 r]| | |] eqn:S; try discriminate. cbn [bind] in E.
  destruct (prun false p1 os) as [[p2 rs2]| | |] eqn:Q; try discriminate. injection E as <- <-. pose proof (step_fate _ _ _ _ _ _ _ S H) as F. rewrite (stack_fate_step p o p1 r s n S L) in F.
  destruct (Nat.ltb_spec n (length (pick s p1))) as [L1|L1]; cbn [andb] in *; [|exact (gone_stays _ _ _ _ _ _ Q F)].
  destruct (match o with Assign t => Bool.eqb s t | _ => false end); cbn [negb] in *; [exact (gone_stays _ _ _ _ _ _ Q F)|]. exact (IH p1 p2 rs2 h s n Q F L1).
Qed.
(** ** Queues *)
Lemma queue_fate os : forall p p' rs h s i, prun true p os = Ok (p', rs) -> nth_error (places p) h = Some (Some (s, i)) ->
  nth_error (places p') h = Some (if negb (existsb (replaces s) os) && Nat.leb (pops s os) i then Some (s, (i - pops s os)%nat) else None).
Proof.
  induction os as [|o os IH]; intros p p' rs h s i E H; cbn [prun] in *; [injection E as <- <-; cbn; now rewrite Nat.sub_0_r|]. destruct (pstep true p o) as [[p1 r]| | |] eqn:S; try discriminate. cbn [bind] in E.
  destruct (prun true p1 os) as [[p2 rs2]| | |] eqn:Q; try discriminate. injection E as <- <-. pose proof (step_fate _ _ _ _ _ _ _ S H) as F.
  assert (C : forall t, Bool.eqb s t = Bool.eqb t s) by (intros t; now destruct s, t).
  unfold pops. cbn [existsb filter]. destruct o as [t x|t k|t|t|t|t back|t|k|k x]; cbn [fate replaces] in *; try exact (IH p1 p2 rs2 h s i Q F).
  - rewrite C. destruct (Bool.eqb t s); [|exact (IH p1 p2 rs2 h s i Q F)]. cbn [length orb]. destruct i as [|i].
    + rewrite (gone_stays _ _ _ _ _ _ Q F). now rewrite andb_false_r.
    + exact (IH p1 p2 rs2 h s i Q F).
  - rewrite C. destruct (Bool.eqb t s); [|exact (IH p1 p2 rs2 h s i Q F)]. exact (gone_stays _ _ _ _ _ _ Q F).
  - rewrite C. destruct (Bool.eqb t s); [|exact (IH p1 p2 rs2 h s i Q F)]. exact (gone_stays _ _ _ _ _ _ Q F).
Qed.
(** ** both *)
Lemma grow_fate queue os : forall p p' rs h s i, prun queue p os = Ok (p', rs) -> nth_error (places p) h = Some (Some (s, i)) -> existsb (shrinks s) os = false ->
  nth_error (places p') h = Some (Some (s, i)).
Proof.
  induction os as [|o os IH]; intros p p' rs h s i E H G; cbn [prun existsb] in *; [injection E as <- <-; exact H|]. apply orb_false_iff in G as [G1 G2]. destruct (pstep queue p o) as [[p1 r]| | |] eqn:S; try discriminate. cbn [bind] in E.
  destruct (prun queue p1 os) as [[p2 rs2]| | |] eqn:Q; try discriminate. injection E as <- <-. apply (IH p1 p2 rs2 h s i Q); [|exact G2]. rewrite (step_fate _ _ _ _ _ _ _ S H). f_equal.
  destruct o as [t x|t k|t|t|t|t back|t|k|k x]; cbn [fate shrinks replaces] in *; try reflexivity; (replace (Bool.eqb t s) with false by (destruct s, t; (reflexivity || discriminate))); reflexivity.
Qed.
(** reading a reference at the end of a program *)
Lemma read_end queue a b os p rs h q : prun queue (Plain a b []) os = Ok (p, rs) -> nth_error (places p) h = Some q ->
  match q with
  | Some (s, i) => exists x, nth_error (pick s p) i = Some x /\ exists st, drun queue (lists a b) (os ++ [See h]) = Ok (st, rs ++ [RVal x]) /\ holds st p
  | None => drun queue (lists a b) (os ++ [See h]) = UB
  end.
Proof.
  intros E H. pose proof (drun_ok queue os _ _ (lists_rep a b)) as D. rewrite E in D. destruct D as ([st0 rs0] & _ & R & _). cbn [fst] in R.
  pose proof (drun_ok queue (os ++ [See h]) _ _ (lists_rep a b)) as D. rewrite prun_app, E in D. cbn [bind prun pstep] in D. pose proof (target_spec st0 p h R) as T. unfold target in T, D. rewrite H in T, D. destruct q as [[s i]|].
  - destruct (nth_places st0 p h _ R H) as (id & _ & _ & x & N). assert (X : nth_error (pick s p) i = Some x) by now rewrite <- (rep_pick s st0 p R), nth_error_map, N. rewrite X in D. exists x. split; [exact X|].
    cbn [bind] in D. destruct D as ([st rs1] & -> & R1 & E1). cbn [fst snd] in *. subst rs1. exists st. split; [reflexivity|]. now apply rep_holds.
  - exact D.
Qed.
(** ** copies *)
Definition elsewhere (s : bool) p : Prop := Forall (fun q => match q with Some (t, _) => t = negb s | None => True end) (places p).
Lemma assign_elsewhere queue p s p' r : pstep queue p (Assign s) = Ok (p', r) -> elsewhere s p'.
Proof.
  cbn [pstep]. intros [= <- <-]. unfold elsewhere. rewrite put_places. unfold lose, onward. apply Forall_map, Forall_forall. intros [[t i]|] _; [|exact I]. unfold moved. destruct (Bool.eqb_spec s t); [exact I|]. destruct s, t; (reflexivity || congruence).
Qed.
Lemma copy_stays queue os : forall p p' rs s, prun queue p os = Ok (p', rs) -> forallb only_refs os = true -> elsewhere s p -> pick s p' = pick s p.
Proof.
  induction os as [|o os IH]; intros p p' rs s E O W; cbn [prun forallb] in *; [now injection E as <- <-|]. apply andb_true_iff in O as [O1 O2]. destruct (pstep queue p o) as [[p1 r]| | |] eqn:S; try discriminate. cbn [bind] in E.
  destruct (prun queue p1 os) as [[p2 rs2]| | |] eqn:Q; try discriminate. injection E as <- <-. destruct o as [t x|t k|t|t|t|t back|t|k|k x]; try discriminate O1; cbn [pstep] in S.
  - destruct (target p k) as [[[t j] y]|]; [|discriminate]. injection S as <- <-. exact (IH _ _ _ s Q O2 W).
  - destruct (target p k) as [[[t j] y]|] eqn:T; [|discriminate]. injection S as <- <-.
    assert (t = negb s). { unfold target in T. destruct (nth_error (places p) k) as [[[t' j']|]|] eqn:K; try discriminate. destruct (nth_error (pick t' p) j'); try discriminate. injection T as <- <- <-. apply nth_error_In in K. exact (proj1 (Forall_forall _ _) W _ K). }
    subst t. rewrite (IH _ _ _ s Q O2); [apply put_pick_other; now destruct s|]. unfold elsewhere. now rewrite put_places.
Qed.
End Proofs.
