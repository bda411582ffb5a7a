(** Proofs about loops over Lists. *)
From Coq Require Import Permutation Sorted.
From Verif Require Import Base ContModel ContSpec ContProofs ListRefModel ListRefSpec ListRefProofs WalkModel WalkProofs ListWalkModel ListWalkSpec.
Local Open Scope Z_scope.

Section Proofs.
Context {A : Type} (lt : A -> A -> bool) (WO : weak_order lt).

(** ** a call on nodes is the call on values *)
Definition bare (p : list (node A) * result (node A)) : list A * result A := (map snd (fst p), untag (snd p)).
Lemma len_map (l : list (node A)) : len (map snd l) = len l.
Proof. unfold len. now rewrite map_length. Qed.
Lemma bc_map (l : list (node A)) i : boundaryCheck (map snd l) i = boundaryCheck l i.
Proof. unfold boundaryCheck. now rewrite len_map. Qed.
Lemma ec_map (l : list (node A)) : emptyCheck (map snd l) = emptyCheck l.
Proof. now destruct l. Qed.
Lemma front_map (l : list (node A)) : stl_front (map snd l) = omap snd (stl_front l).
Proof. now destruct l. Qed.
Lemma back_map (l : list (node A)) : stl_back (map snd l) = omap snd (stl_back l).
Proof. induction l as [|x [|y l] IH]; try reflexivity. exact IH. Qed.
Lemma popb_map (l : list (node A)) : stl_pop_back (map snd l) = omap (map snd) (stl_pop_back l).
Proof. induction l as [|x [|y l] IH]; try reflexivity. cbn [map stl_pop_back] in *. rewrite IH. now destruct (match l with [] => Ok [] | _ => _ end). Qed.
Lemma popf_map (l : list (node A)) : stl_pop_front (map snd l) = omap (map snd) (stl_pop_front l).
Proof. now destruct l. Qed.
Lemma walk_map n : forall l : list (node A), walk (map snd l) n = omap snd (walk l n).
Proof. induction n as [|n IH]; intros [|x l]; try reflexivity. exact (IH l). Qed.
Lemma ins_map y : forall l, map snd (ins_sorted (lt_node lt) y l) = ins_sorted lt (snd y) (map snd l).
Proof. induction l as [|x l IH]; [reflexivity|]. cbn [ins_sorted map]. change (lt_node lt x y) with (lt (snd x) (snd y)). destruct (lt (snd x) (snd y)); cbn [map]; congruence. Qed.
Lemma sort_map : forall l, map snd (list_sort (lt_node lt) l) = list_sort lt (map snd l).
Proof. induction l as [|x l IH]; [reflexivity|]. change (list_sort (lt_node lt) (x :: l)) with (ins_sorted (lt_node lt) x (list_sort (lt_node lt) l)). cbn [map]. change (list_sort lt (snd x :: map snd l)) with (ins_sorted lt (snd x) (list_sort lt (map snd l))). now rewrite ins_map, IH. Qed.
Lemma splice_map (f : list (node A) -> outcome (list (node A))) (g : list A -> outcome (list A)) : (forall r, g (map snd r) = omap (map snd) (f r)) -> forall n l, splice g (map snd l) n = omap (map snd) (splice f l n).
Proof.
  intros H. induction n as [|n IH]; intros [|x l]; cbn [splice map]; try (apply (H [])); try (apply (H (x :: l))); try reflexivity. rewrite IH. now destruct (splice f l n).
Qed.
Lemma step_bare n l o : omap bare (list_step (lt_node lt) l (tag n o)) = list_step lt (map snd l) o.
Proof.
  destruct o as [i| | | | | |i v|i|v|v| | | |]; cbn [tag list_step].
  - unfold list_at. rewrite bc_map. destruct (boundaryCheck l i); try reflexivity. cbn [bind]. rewrite walk_map. now destruct (walk l (Z.to_nat i)).
  - unfold seq_first. rewrite ec_map. destruct (emptyCheck l); try reflexivity. cbn [bind]. rewrite front_map. now destruct (stl_front l).
  - unfold seq_last. rewrite ec_map. destruct (emptyCheck l); try reflexivity. cbn [bind]. rewrite back_map. now destruct (stl_back l).
  - now destruct l.
  - unfold size_int, bare. cbn [omap bind fst snd untag]. now rewrite len_map.
  - reflexivity.
  - unfold seq_insert. rewrite len_map. destruct ((i <? 0) || (len l <? wrapu64 i)); [reflexivity|]. unfold stl_insert. destruct (i <? 0); [reflexivity|]. rewrite (splice_map (fun r => Ok ((n, v) :: r)) (fun r => Ok (v :: r))) by reflexivity. now destruct (splice _ l _).
  - unfold seq_erase. rewrite bc_map. destruct (boundaryCheck l i); try reflexivity. cbn [bind]. unfold stl_erase. destruct (i <? 0); [reflexivity|]. rewrite (splice_map stl_pop_front stl_pop_front) by apply popf_map. now destruct (splice _ l _).
  - unfold seq_push, bare. cbn [omap bind fst snd untag]. now rewrite map_app.
  - reflexivity.
  - unfold seq_pop. rewrite ec_map. destruct (emptyCheck l); try reflexivity. cbn [bind]. rewrite back_map, popb_map. destruct (stl_back l); try reflexivity. cbn [omap bind]. now destruct (stl_pop_back l).
  - unfold list_pop_front. rewrite ec_map. destruct (emptyCheck l); try reflexivity. cbn [bind]. rewrite front_map, popf_map. destruct (stl_front l); try reflexivity. cbn [omap bind]. now destruct (stl_pop_front l).
  - unfold list_reverse, bare. cbn [omap bind fst snd untag]. now rewrite map_rev.
  - unfold bare. cbn [omap bind fst snd untag]. now rewrite sort_map.
Qed.

(** ** the node the loop stands at *)
Definition sound (st : chain A) : Prop := NoDup (map fst (links st)) /\ Forall (fun id => id < unused st)%nat (map fst (links st)).
Definition tracked (q : option nat) (id : nat) (l : list (node A)) : Prop :=
  match q with Some i => exists x, nth_error l i = Some (id, x) | None => ~ In id (map fst l) end.
Lemma step_track st o id q : sound st -> (id < unused st)%nat -> lint o -> tracked q id (links st) ->
  match list_step (lt_node lt) (links st) (tag (unused st) o) with
  | Ok (l', _) => sound (Chain l' (S (unused st))) /\ tracked (match q with Some i => goes lt (map snd (links st)) o i | None => None end) id l'
  | _ => True
  end.
Proof.
  intros (D & F) L W T. pose proof (call_track lt WO (unused st) (links st) o W) as H. destruct (list_step (lt_node lt) (links st) (tag (unused st) o)) as [[l' r]| | |]; auto.
  destruct H as (gone & new & N & P & H). assert (DN : NoDup (map fst (links st ++ new))).
  { destruct N as [->|(v & ->)]; [now rewrite app_nil_r|]. rewrite map_app. cbn [map fst]. apply (Permutation_NoDup (Permutation_cons_append _ _)). constructor; [|exact D]. intros J. rewrite Forall_forall in F. apply F in J. lia. }
  assert (P' : Permutation (map fst l' ++ map fst gone) (map fst (links st ++ new))) by (rewrite <- map_app; now apply Permutation_map).
  assert (D' : NoDup (map fst l' ++ map fst gone)) by (apply (Permutation_NoDup (Permutation_sym P')); exact DN).
  assert (FN : forall i, In i (map fst (links st ++ new)) -> (i < S (unused st))%nat).
  { intros i J. rewrite map_app in J. rewrite Forall_forall in F. apply in_app_or in J as [J|J]; [apply F in J; lia|]. destruct N as [->|(v & ->)]; [destruct J|]. destruct J as [<-|[]]. cbn. lia. }
  split; [split|].
  - cbn [links]. now apply NoDup_front in D'.
  - cbn [links unused]. apply Forall_forall. intros i J. apply FN. apply (Permutation_in _ P'). apply in_or_app. now left.
  - destruct q as [i|].
    + destruct T as (x & X). specialize (H i _ X). destruct (goes lt (map snd (links st)) o i) as [j|]; [exists x; exact H|]. cbn [tracked]. intros J. apply (in_map fst) in H. cbn [fst] in H.
      clear - D' J H. induction (map fst l') as [|y m IH]; [destruct J|]. cbn [app] in D'. apply NoDup_cons_iff in D' as [D1 D2]. destruct J as [->|J]; [apply D1, in_or_app; now right|auto].
    + cbn [tracked] in *. intros J. assert (K : In id (map fst (links st ++ new))) by (apply (Permutation_in _ P'), in_or_app; now left). rewrite map_app in K. apply in_app_or in K as [K|K]; [contradiction|].
      destruct N as [->|(v & ->)]; [destruct K|]. destruct K as [K|[]]. cbn in K. lia.
Qed.
Lemma deref_nth (l : list (node A)) i id x : NoDup (map fst l) -> nth_error l i = Some (id, x) -> deref id l = Ok x.
Proof. intros D N. apply nth_error_split in N as (P & Q & -> & _). exact (deref_at P (id, x) Q D). Qed.
Definition iter_at (l : list (node A)) (i : nat) : option nat := option_map fst (nth_error l i).
Lemma after_nth (l : list (node A)) i id x : NoDup (map fst l) -> nth_error l i = Some (id, x) -> after id l = Ok (iter_at l (S i)).
Proof.
  intros D N. apply nth_error_split in N as (P & Q & -> & <-). pose proof (after_at P (id, x) Q D) as R. cbn [fst] in R. rewrite R. unfold iter_at. rewrite nth_error_app2 by lia. replace (S (length P) - length P)%nat with 1%nat by lia. now destruct Q.
Qed.
Lemma deref_out id (l : list (node A)) : ~ In id (map fst l) -> deref id l = UB.
Proof. induction l as [|y l IH]; intros N; [reflexivity|]. cbn [deref map] in *. destruct (Nat.eqb_spec (fst y) id) as [Q|Q]; [exfalso; apply N; now left|]. apply IH. intros J. apply N. now right. Qed.
Lemma put_nth (l : list (node A)) i id x y : NoDup (map fst l) -> nth_error l i = Some (id, x) ->
  map snd (overwrite id y l) = firstn i (map snd l) ++ y :: skipn (S i) (map snd l) /\ nth_error (overwrite id y l) i = Some (id, y).
Proof.
  intros D N. pose proof (overwrite_at id y i l id x N) as Q. rewrite Nat.eqb_refl in Q. split; [|exact Q]. apply nth_error_split in N as (P & R & -> & <-). rewrite (overwrite_mid id y x P R D), !map_app. cbn [map snd].
  rewrite <- (map_length snd P). rewrite firstn_app, Nat.sub_diag, firstn_all. cbn [firstn]. rewrite app_nil_r. f_equal. f_equal. rewrite skipn_app, skipn_all2 by lia. replace (S (length (map snd P)) - length (map snd P))%nat with 1%nat by lia. reflexivity.
Qed.
Lemma acts_track os : forall st id q, sound st -> (id < unused st)%nat -> (forall o, In (LDo o) os -> lint o) -> tracked q id (links st) ->
  match acts lt id st os with
  | Ok st' => sound st' /\ (id < unused st')%nat /\ exists q', tracked q' id (links st') /\ edits lt (map snd (links st)) q os = Ok (map snd (links st'), q')
  | Err => edits lt (map snd (links st)) q os = Err
  | UB => edits lt (map snd (links st)) q os = UB
  | Fuel => edits lt (map snd (links st)) q os = Fuel
  end.
Proof.
  induction os as [|[o|x] os IH]; intros st id q S L W T; cbn [acts edits].
  - split; [exact S|]. split; [exact L|]. now exists q.
  - cbn [act]. pose proof (step_track st o id q S L (W o (or_introl eq_refl)) T) as H. rewrite <- (step_bare (unused st)).
    destruct (list_step (lt_node lt) (links st) (tag (unused st) o)) as [[l' r]| | |]; cbn [omap bind bare fst snd]; try reflexivity. destruct H as (S' & T').
    refine (IH (Chain l' (Datatypes.S (unused st))) id _ S' _ _ T'); [cbn [unused]; lia|intros o' J; apply W; now right].
  - cbn [act]. destruct q as [i|]; cbn [tracked] in T.
    + destruct T as (y & T). pose proof S as (D & F). rewrite (deref_nth _ _ _ _ D T). cbn [bind]. destruct (put_nth _ _ _ _ x D T) as [Q1 Q2].
      assert (S' : sound (Chain (overwrite id x (links st)) (unused st))) by (unfold sound; cbn [links unused]; rewrite overwrite_fst; exact S).
      assert (T' : tracked (Some i) id (links (Chain (overwrite id x (links st)) (unused st)))) by (exists x; exact Q2).
      pose proof (IH _ id (Some i) S' L (fun o J => W o (or_intror J)) T') as R. cbn [links] in R. rewrite Q1 in R. exact R.
    + rewrite (deref_out _ _ T). reflexivity.
Qed.
Definition seen_list (p : chain A * list A) : list A * list A := (map snd (links (fst p)), snd p).
Lemma loop_tour body : int_indices body -> forall f st i vs, sound st ->
  omap seen_list (list_loop lt body f st (iter_at (links st) i) vs) = tour lt body f (map snd (links st)) i vs.
Proof.
  intros W. induction f as [|f IH]; intros st i vs S; unfold iter_at; cbn [tour]; rewrite nth_error_map; destruct (nth_error (links st) i) as [[id x]|] eqn:N; cbn [option_map fst snd list_loop]; try reflexivity.
  pose proof S as (D & F). rewrite (deref_nth _ _ _ _ D N). cbn [bind].
  assert (L : (id < unused st)%nat). { rewrite Forall_forall in F. apply F. apply nth_error_In in N. apply (in_map fst) in N. exact N. }
  pose proof (acts_track (fst (body (vs ++ [x]))) st id (Some i) S L (W (vs ++ [x])) (ex_intro _ x N)) as H.
  destruct (acts lt id st (fst (body (vs ++ [x])))) as [st'| | |]; cbn [bind]; try (rewrite H; reflexivity). destruct H as (S' & L' & q & T & ->). cbn [bind].
  destruct (snd (body (vs ++ [x]))); [|reflexivity]. destruct q as [j|]; cbn [tracked] in T.
  - destruct T as (y & T). pose proof S' as (D' & _). rewrite (after_nth _ _ _ _ D' T). cbn [bind]. now apply IH.
  - rewrite (after_gone id _ T). reflexivity.
Qed.
Lemma number_sound (l : list A) : sound (Chain (number O l) (length l)).
Proof.
  unfold sound. cbn [links unused]. rewrite number_fst. split; [apply seq_NoDup|]. apply Forall_forall. intros i J. apply in_seq in J. lia.
Qed.
Lemma for_list_tour body f l : int_indices body -> omap seen_list (for_list lt body f l) = tour lt body f l 0 [].
Proof.
  intros W. pose proof (loop_tour body W f (Chain (number O l) (length l)) 0 [] (number_sound l)) as H. cbn [links] in H. rewrite number_snd in H. rewrite <- H. unfold for_list, iter_at. f_equal. f_equal. now destruct (number O l).
Qed.

(** ** bodies that push *)
Lemma edits_push xs : forall l i, edits lt l (Some i) (map (fun x => LDo (LPush x)) xs) = Ok (l ++ xs, Some i).
Proof. induction xs as [|x xs IH]; intros l i; [cbn; now rewrite app_nil_r|]. cbn [map edits list_step bind goes]. rewrite IH. unfold seq_push. now rewrite <- app_assoc. Qed.
Lemma push_tour (g : list A -> list A) : forall f vs B l' vs', tour lt (fun vs => (map (fun x => LDo (LPush x)) (g vs), true)) f (vs ++ B) (length vs) vs = Ok (l', vs') ->
  l' = vs' /\ exists ws, vs' = vs ++ ws /\ ws = B ++ flat_map (fun k => g (vs ++ firstn k ws)) (seq 1 (length ws)).
Proof.
  induction f as [|f IH]; intros vs [|e B] l' vs' H; cbn [tour] in H;
  try (rewrite app_nil_r in H; assert (Q : nth_error vs (length vs) = None) by (apply nth_error_None; lia); rewrite Q in H; injection H as <- <-; split; [reflexivity|]; exists []; rewrite app_nil_r; now split);
  rewrite nth_error_app2, Nat.sub_diag in H by lia; cbn [nth_error] in H; [discriminate|]. cbn [fst snd] in H. rewrite edits_push in H. cbn [bind] in H.
  replace ((vs ++ e :: B) ++ g (vs ++ [e])) with ((vs ++ [e]) ++ B ++ g (vs ++ [e])) in H by (rewrite <- !app_assoc; reflexivity).
  replace (S (length vs)) with (length (vs ++ [e])) in H by (rewrite app_length; cbn [length]; lia).
  destruct (IH _ _ _ _ H) as (-> & ws & -> & Q). split; [reflexivity|]. exists (e :: ws). split; [now rewrite <- app_assoc|]. cbn [length seq flat_map firstn app]. f_equal.
  rewrite Q at 1. rewrite <- app_assoc. f_equal. f_equal. rewrite <- (seq_shift (length ws) 1), flat_map_concat_map, (flat_map_concat_map _ (map S _)), map_map. f_equal. apply map_ext. intros k. cbn [firstn]. now rewrite <- app_assoc.
Qed.
Lemma push_for_ever (g : list A -> list A) : (forall vs, vs <> [] -> g vs <> []) -> forall f l i vs, (i < length l)%nat ->
  tour lt (fun vs => (map (fun x => LDo (LPush x)) (g vs), true)) f l i vs = Fuel.
Proof.
  intros G. induction f as [|f IH]; intros l i vs L; cbn [tour]; (destruct (nth_error l i) as [e|] eqn:N; [|apply nth_error_None in N; lia]); [reflexivity|].
  cbn [fst snd]. rewrite edits_push. cbn [bind]. apply IH. rewrite app_length. specialize (G (vs ++ [e])). destruct (g (vs ++ [e])); [exfalso; apply G; [destruct vs; discriminate|reflexivity]|cbn [length]; lia].
Qed.
Lemma edits_front xs : forall l i, edits lt l (Some i) (map (fun x => LDo (LPushFront x)) xs) = Ok (rev xs ++ l, Some (length xs + i)%nat).
Proof.
  induction xs as [|x xs IH]; intros l i; [reflexivity|]. cbn [map edits list_step bind goes]. rewrite IH. unfold list_push_front. cbn [rev length]. rewrite <- app_assoc. cbn [app]. do 3 f_equal. lia.
Qed.
Lemma front_tour (g : list A -> list A) : forall B f P vs, (length B <= f)%nat ->
  exists p, tour lt (fun vs => (map (fun x => LDo (LPushFront x)) (g vs), true)) f (P ++ B) (length P) vs = Ok (p ++ P ++ B, vs ++ B).
Proof.
  induction B as [|e B IH]; intros f P vs L.
  - exists []. assert (Q : nth_error (P ++ []) (length P) = None) by (apply nth_error_None; rewrite app_nil_r; lia). destruct f; cbn [tour]; now rewrite Q, !app_nil_r.
  - destruct f as [|f]; [cbn in L; lia|]. cbn [tour]. rewrite nth_error_app2, Nat.sub_diag by lia. cbn [nth_error fst snd]. rewrite edits_front. cbn [bind].
    destruct (IH f (rev (g (vs ++ [e])) ++ P ++ [e]) (vs ++ [e])) as (p & Q); [cbn in L; lia|]. exists (p ++ rev (g (vs ++ [e]))).
    replace (rev (g (vs ++ [e])) ++ P ++ e :: B) with ((rev (g (vs ++ [e])) ++ P ++ [e]) ++ B) by (rewrite <- !app_assoc; reflexivity).
    replace (S (length (g (vs ++ [e])) + length P)) with (length (rev (g (vs ++ [e])) ++ P ++ [e])) by (rewrite !app_length, rev_length; cbn [length]; lia). rewrite Q. rewrite <- !app_assoc. reflexivity.
Qed.

(** ** bodies that neither remove nor reorder *)
Lemma within_refl (l : list A) : within l l.
Proof. induction l; constructor; assumption. Qed.
Lemma within_app (a b c : list A) : within a b -> within a (c ++ b).
Proof. intros H. induction c as [|x c IH]; [exact H|]. now constructor. Qed.
Lemma within_trans (a b c : list A) : within a b -> within b c -> within a c.
Proof.
  intros H G. revert a H. induction G as [l|x b c G IH|x b c G IH]; intros a H.
  - inversion H. constructor.
  - inversion H as [|? ? ? H'|? ? ? H']; subst; [constructor|constructor; now apply IH|constructor; now apply IH].
  - constructor. now apply IH.
Qed.
Lemma within_add (a b : list A) x : within (a ++ b) (a ++ x :: b).
Proof. induction a as [|y a IH]; cbn [app]; [constructor; apply within_refl|now constructor]. Qed.
Lemma keep_step l o l' r P e B : lint o -> keeps (LDo o) = true -> list_step lt l o = Ok (l', r) -> l = P ++ e :: B ->
  exists P' B', l' = P' ++ e :: B' /\ goes lt l o (length P) = Some (length P') /\ within B B'.
Proof.
  intros W K H ->. destruct o as [i| | | | | |i v|i|v|v| | | |]; try discriminate K; cbn [list_step goes lint] in *.
  - destruct (list_at _ i); try discriminate. injection H as <- _. exists P, B. split; [reflexivity|]. split; [reflexivity|apply within_refl].
  - destruct (seq_first _); try discriminate. injection H as <- _. exists P, B. split; [reflexivity|]. split; [reflexivity|apply within_refl].
  - destruct (seq_last _); try discriminate. injection H as <- _. exists P, B. split; [reflexivity|]. split; [reflexivity|apply within_refl].
  - injection H as <- _. exists P, B. split; [reflexivity|]. split; [reflexivity|apply within_refl].
  - injection H as <- _. exists P, B. split; [reflexivity|]. split; [reflexivity|apply within_refl].
  - pose proof (insert_spec (P ++ e :: B) i v W) as S. destruct (seq_insert _ i v) as [l1| | |]; try discriminate. injection H as <- _. destruct S as (a & b & E & <- & ->).
    destruct (Z.ltb_spec (Z.of_nat (length P)) (Z.of_nat (length a))) as [C|C].
    + assert (E2 : exists a', a = P ++ e :: a' /\ B = a' ++ b).
      { assert (Q : firstn (length P + 1) (P ++ e :: B) = P ++ [e]) by (rewrite firstn_app, firstn_all2 by lia; f_equal; replace (length P + 1 - length P)%nat with 1%nat by lia; reflexivity).
        rewrite E in Q. rewrite firstn_app in Q. replace (length P + 1 - length a)%nat with O in Q by lia. cbn [firstn] in Q. rewrite app_nil_r in Q. exists (skipn (length P + 1) a).
        assert (Qa : a = P ++ e :: skipn (length P + 1) a) by (rewrite <- (firstn_skipn (length P + 1) a) at 1; rewrite Q, <- app_assoc; reflexivity). split; [exact Qa|].
        rewrite Qa, <- app_assoc in E. apply app_inv_head in E. cbn [app] in E. now injection E. }
      destruct E2 as (a' & -> & ->). exists P, (a' ++ v :: b). split; [rewrite <- app_assoc; reflexivity|]. split; [reflexivity|apply within_add].
    + assert (E2 : exists a', P = a ++ a' /\ b = a' ++ e :: B).
      { assert (Q : firstn (length a) (P ++ e :: B) = a) by (rewrite E, firstn_app, firstn_all, Nat.sub_diag; cbn [firstn]; apply app_nil_r).
        rewrite firstn_app in Q. replace (length a - length P)%nat with O in Q by lia. cbn [firstn] in Q. rewrite app_nil_r in Q. exists (skipn (length a) P).
        assert (QP : P = a ++ skipn (length a) P) by (rewrite <- (firstn_skipn (length a) P) at 1; now rewrite Q). split; [exact QP|].
        rewrite QP, <- app_assoc in E. now apply app_inv_head in E. }
      destruct E2 as (a' & -> & ->). exists (a ++ v :: a'), B. split; [rewrite <- app_assoc; reflexivity|]. split; [f_equal; rewrite !app_length; cbn [length]; lia|apply within_refl].
  - injection H as <- _. exists P, (B ++ [v]). split; [unfold seq_push; rewrite <- app_assoc; reflexivity|]. split; [reflexivity|]. pose proof (within_add B [] v) as Q. now rewrite app_nil_r in Q.
  - injection H as <- _. exists (v :: P), B. split; [reflexivity|]. split; [reflexivity|apply within_refl].
Qed.
Lemma keep_edits os : forall P e B l' q, (forall o, In (LDo o) os -> lint o) -> forallb keeps os = true -> edits lt (P ++ e :: B) (Some (length P)) os = Ok (l', q) ->
  exists P' e' B', l' = P' ++ e' :: B' /\ q = Some (length P') /\ within B B'.
Proof.
  induction os as [|[o|x] os IH]; intros P e B l' q W K H; cbn [edits forallb] in *.
  - injection H as <- <-. exists P, e, B. split; [reflexivity|]. split; [reflexivity|apply within_refl].
  - apply andb_true_iff in K as [K1 K2]. destruct (list_step lt (P ++ e :: B) o) as [[l1 r]| | |] eqn:Q; try discriminate. cbn [bind] in H.
    destruct (keep_step _ o l1 r P e B (W o (or_introl eq_refl)) K1 Q eq_refl) as (P1 & B1 & -> & G & S1). rewrite G in H.
    destruct (IH P1 e B1 l' q (fun o J => W o (or_intror J)) K2 H) as (P2 & e2 & B2 & -> & -> & S2). exists P2, e2, B2. split; [reflexivity|]. split; [reflexivity|exact (within_trans _ _ _ S1 S2)].
  - cbn [keeps andb] in K. rewrite firstn_app, firstn_all, Nat.sub_diag in H. cbn [firstn] in H. rewrite app_nil_r in H. rewrite skipn_app, skipn_all2 in H by lia. replace (S (length P) - length P)%nat with 1%nat in H by lia. cbn [skipn app] in H.
    exact (IH P x B l' q (fun o J => W o (or_intror J)) K H).
Qed.
Lemma step_defined l o : lint o -> list_step lt l o <> UB.
Proof.
  intros W. destruct o as [i| | | | | |i v|i|v|v| | | |]; cbn [list_step lint] in *; try discriminate.
  - pose proof (list_at_spec l i W) as H. destruct (list_at l i); [discriminate|discriminate|destruct H|discriminate].
  - pose proof (first_spec l) as H. destruct (seq_first l); [discriminate|discriminate|destruct H|discriminate].
  - pose proof (last_spec l) as H. destruct (seq_last l); [discriminate|discriminate|destruct H|discriminate].
  - pose proof (insert_spec l i v W) as H. destruct (seq_insert l i v); [discriminate|discriminate|destruct H|discriminate].
  - pose proof (erase_spec l i W) as H. destruct (seq_erase l i); [discriminate|discriminate|destruct H|discriminate].
  - pose proof (pop_spec l) as H. destruct (seq_pop l) as [[? ?]| | |]; [discriminate|discriminate|destruct H|discriminate].
  - pose proof (popf_spec l) as H. destruct (list_pop_front l) as [[? ?]| | |]; [discriminate|discriminate|destruct H|discriminate].
Qed.
Lemma keep_defined os : forall P e B, (forall o, In (LDo o) os -> lint o) -> forallb keeps os = true -> edits lt (P ++ e :: B) (Some (length P)) os <> UB.
Proof.
  induction os as [|[o|x] os IH]; intros P e B W K H; cbn [edits forallb] in *; [discriminate| |].
  - apply andb_true_iff in K as [K1 K2]. pose proof (step_defined (P ++ e :: B) o (W o (or_introl eq_refl))) as Z. destruct (list_step lt (P ++ e :: B) o) as [[l1 r]| | |] eqn:Q; try discriminate; [|congruence]. cbn [bind] in H.
    destruct (keep_step _ o l1 r P e B (W o (or_introl eq_refl)) K1 Q eq_refl) as (P1 & B1 & -> & G & S1). rewrite G in H. exact (IH P1 e B1 (fun o J => W o (or_intror J)) K2 H).
  - cbn [keeps andb] in K. rewrite firstn_app, firstn_all, Nat.sub_diag in H. cbn [firstn] in H. rewrite app_nil_r in H. rewrite skipn_app, skipn_all2 in H by lia. replace (S (length P) - length P)%nat with 1%nat in H by lia. cbn [skipn app] in H.
    exact (IH P x B (fun o J => W o (or_intror J)) K H).
Qed.
Lemma keep_tour body : int_indices body -> (forall vs, forallb keeps (fst (body vs)) = true) -> forall f P B vs l' vs', tour lt body f (P ++ B) (length P) vs = Ok (l', vs') -> snd (body vs') = true ->
  exists ws, vs' = vs ++ ws /\ within B ws.
Proof.
  intros W K. induction f as [|f IH]; intros P [|e B] vs l' vs' H G; cbn [tour] in H;
  try (rewrite app_nil_r in H; assert (Q : nth_error P (length P) = None) by (apply nth_error_None; lia); rewrite Q in H; injection H as <- <-; exists []; rewrite app_nil_r; split; [reflexivity|constructor]);
  rewrite nth_error_app2, Nat.sub_diag in H by lia; cbn [nth_error] in H; [discriminate|].
  destruct (edits lt (P ++ e :: B) (Some (length P)) (fst (body (vs ++ [e])))) as [[l1 q]| | |] eqn:Q; try discriminate. cbn [bind] in H.
  destruct (keep_edits _ P e B l1 q (W (vs ++ [e])) (K (vs ++ [e])) Q) as (P1 & e1 & B1 & -> & -> & S1).
  destruct (snd (body (vs ++ [e]))) eqn:Go.
  - replace (P1 ++ e1 :: B1) with ((P1 ++ [e1]) ++ B1) in H by (rewrite <- app_assoc; reflexivity). replace (S (length P1)) with (length (P1 ++ [e1])) in H by (rewrite app_length; cbn [length]; lia).
    destruct (IH _ _ _ _ _ H G) as (ws & -> & S2). exists (e :: ws). split; [now rewrite <- app_assoc|]. constructor. exact (within_trans _ _ _ S1 S2).
  - injection H as <- <-. congruence.
Qed.
Lemma keep_safe body : int_indices body -> (forall vs, forallb keeps (fst (body vs)) = true) -> forall f P B vs, tour lt body f (P ++ B) (length P) vs <> UB.
Proof.
  intros W K. induction f as [|f IH]; intros P [|e B] vs H; cbn [tour] in H;
  try (rewrite app_nil_r in H; assert (Q : nth_error P (length P) = None) by (apply nth_error_None; lia); rewrite Q in H; discriminate);
  rewrite nth_error_app2, Nat.sub_diag in H by lia; cbn [nth_error] in H; [discriminate|].
  destruct (edits lt (P ++ e :: B) (Some (length P)) (fst (body (vs ++ [e])))) as [[l1 q]| | |] eqn:Q; try discriminate; cbn [bind] in H.
  - destruct (keep_edits _ P e B l1 q (W (vs ++ [e])) (K (vs ++ [e])) Q) as (P1 & e1 & B1 & -> & -> & S1). destruct (snd (body (vs ++ [e]))); [|discriminate].
    replace (P1 ++ e1 :: B1) with ((P1 ++ [e1]) ++ B1) in H by (rewrite <- app_assoc; reflexivity). replace (S (length P1)) with (length (P1 ++ [e1])) in H by (rewrite app_length; cbn [length]; lia). exact (IH _ _ _ H).
  - exact (keep_defined _ P e B (W (vs ++ [e])) (K (vs ++ [e])) Q).
Qed.
End Proofs.
