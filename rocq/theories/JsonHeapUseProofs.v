(** Consequences of the value semantics for programs. *)
From Verif Require Import Base JsonModel JsonSpec JsonRoundProofs JsonHeapModel JsonHeapSpec JsonHeapProofs JsonHeapOpsProofs JsonHeapNavProofs JsonHeapWalkProofs JsonHeapEnvProofs JsonHeapStepProofs JsonHeapRunProofs.
From Coq Require Import Lia.
Local Open Scope nat_scope.

Section Use.
Context {F : Type} (fzero : F) (D : doubles F).
Notation json := (json F). Notation env := (list json).

Lemma means_app os : forall (r : env) os', means fzero D r (os ++ os') =
  (' (r, xs, b) <- means fzero D r os ;; ' (r, ys, b') <- means fzero D r os' ;; Ok (r, xs ++ ys, b || b')).
Proof.
  induction os as [|o os IH]; intros r os'.
  - simpl. destruct (means fzero D r os') as [[[r' ys] b]| | |]; reflexivity.
  - simpl. destruct (meaning fzero D r o) as [[[r1 x] b]| | |]; try reflexivity. cbn [bind]. rewrite IH.
    destruct (means fzero D r1 os) as [[[r2 xs] b2]| | |]; try reflexivity. cbn [bind].
    destruct (means fzero D r2 os') as [[[r3 ys] b3]| | |]; try reflexivity. cbn [bind]. now rewrite orb_assoc.
Qed.
Lemma run_means os : match means fzero D [] os with
  | Ok (_, xs, lost) => exists s h, run fzero D ([], []) os = Ok (s, xs) /\ finish s = Ok h /\ (lost = false <-> forall a, look h a = None)
  | Err => run fzero D ([], []) os = Err | UB => run fzero D ([], []) os = UB | Fuel => run fzero D ([], []) os = Fuel end.
Proof.
  pose proof (sim_run fzero D os [] [] [] [] E_empty) as X. destruct (means fzero D [] os) as [[[r xs] b]| | |]; auto.
  destruct X as (h & vars & L & E1 & He & B1 & B2 & _). destruct (finish_ok h vars r L He) as (h' & Ef & O).
  exists (h, vars), h'. split; [exact E1|]. split; [exact Ef|]. destruct O as [_ O]. destruct b.
  - split; [discriminate|]. intros N. destruct L as [|a L]; [exfalso; now apply B2|]. exfalso. apply (proj2 (O a) (or_introl eq_refl)), N.
  - split; auto. intros _ a. rewrite (B1 eq_refl) in O. destruct (look h' a) eqn:Ea; [|reflexivity]. exfalso. apply (proj1 (O a)). congruence.
Qed.
(** from a run to its meaning and back *)
Lemma ran os s xs : run fzero D ([], []) os = Ok (s, xs) -> exists r b, means fzero D [] os = Ok (r, xs, b).
Proof.
  intros H. pose proof (run_means os) as X. destruct (means fzero D [] os) as [[[r ys] b]| | |]; try congruence.
  destruct X as (s' & h & E1 & _). exists r, b. congruence.
Qed.
Lemma after os r xs b os' : means fzero D [] os = Ok (r, xs, b) ->
  match means fzero D r os' with
  | Ok (_, ys, lost) => exists s h, run fzero D ([], []) (os ++ os') = Ok (s, xs ++ ys) /\ finish s = Ok h /\ (b || lost = false <-> forall a, look h a = None)
  | Err => run fzero D ([], []) (os ++ os') = Err | UB => run fzero D ([], []) (os ++ os') = UB
  | Fuel => run fzero D ([], []) (os ++ os') = Fuel end.
Proof.
  intros H. pose proof (run_means (os ++ os')) as X. rewrite means_app, H in X. cbn [bind] in X.
  destruct (means fzero D r os') as [[[r' ys] b']| | |]; exact X.
Qed.
Lemma ran_app os os' s xs : run fzero D ([], []) (os ++ os') = Ok (s, xs) ->
  exists r b ys r' b' zs, means fzero D [] os = Ok (r, ys, b) /\ means fzero D r os' = Ok (r', zs, b') /\ xs = ys ++ zs.
Proof.
  intros H. destruct (ran _ _ _ H) as (r & b & E1). rewrite means_app in E1.
  destruct (means fzero D [] os) as [[[r1 ys] b1]| | |]; try discriminate. cbn [bind] in E1.
  destruct (means fzero D r1 os') as [[[r2 zs] b2]| | |] eqn:E2; try discriminate. cbn [bind] in E1.
  exists r1, b1, ys, r2, b2, zs. repeat split; auto. congruence.
Qed.

(** the number of variables *)
Lemma etouch_length (r : env) l : length (etouch r l) = length r. Proof. apply eput_length. Qed.
Lemma arg_length l : forall (r r' : env) vs, arg_values r l = Ok (r', vs) -> length r' = length r.
Proof.
  induction l as [|x l IH]; simpl; intros r r' vs H; [congruence|]. destruct x as [s|x].
  - destruct (arg_values r l) as [[r1 vs1]| | |] eqn:E1; try discriminate. cbn [bind] in H. inversion H; subst. eauto.
  - destruct (valid r x); [|discriminate]. cbv zeta in H. destruct (arg_values (etouch r x) l) as [[r1 vs1]| | |] eqn:E1; try discriminate.
    cbn [bind] in H. inversion H; subst. rewrite (IH _ _ _ E1). apply etouch_length.
Qed.
Lemma touch2_len left (r : env) l l' : length (touch2 left r l l') = length r.
Proof. unfold touch2. destruct left; now rewrite !etouch_length. Qed.

(** a variable that is not named keeps its value *)
Definition keeps (i : nat) (r r' : env) := nth i r' JNull = nth i r JNull.
Lemma eput_other (r : env) l w i : fst l <> i -> nth i (eput r l w) JNull = nth i r JNull.
Proof. intros N. unfold eput. now apply nth_upd_neq. Qed.
Lemma etouch_other (r : env) l i : fst l <> i -> nth i (etouch r l) JNull = nth i r JNull.
Proof. apply eput_other. Qed.
Lemma touch2_other left (r : env) l l' i : fst l <> i -> fst l' <> i -> nth i (touch2 left r l l') JNull = nth i r JNull.
Proof. intros A B. unfold touch2. destruct left; rewrite !etouch_other; auto. Qed.
Lemma arg_other i l : forall (r r' : env) vs, arg_values r l = Ok (r', vs) ->
  existsb (fun l => fst l =? i) (flat_map (fun x => match x with ALoc r => [r] | AScal _ => [] end) l) = false -> nth i r' JNull = nth i r JNull.
Proof.
  induction l as [|x l IH]; simpl; intros r r' vs H N; [congruence|]. destruct x as [s|x].
  - destruct (arg_values r l) as [[r1 vs1]| | |] eqn:E1; try discriminate. cbn [bind] in H. inversion H; subst. eauto.
  - destruct (valid r x); [|discriminate]. cbv zeta in H. destruct (arg_values (etouch r x) l) as [[r1 vs1]| | |] eqn:E1; try discriminate.
    cbn [bind] in H. inversion H; subst. simpl in N. apply orb_false_iff in N. destruct N as [N1 N2]. rewrite (IH _ _ _ E1 N2).
    apply etouch_other. now apply Nat.eqb_neq.
Qed.
Ltac kill H := repeat match type of H with
  | context [match ?x with _ => _ end] => destruct x eqn:?; try discriminate H; cbn [bind] in H
  end.
Lemma meaning_frame (r r' : env) o x b : meaning fzero D r o = Ok (r', x, b) ->
  length r' = counted (length r) o /\
  forall i, i < length r -> i < length r' -> existsb (fun l => fst l =? i) (named o) = false -> nth i r' JNull = nth i r JNull.
Proof.
  intros H.
  destruct o; cbn [meaning] in H; cbv zeta in H; cbn [counted named].
  - inversion H; subst. rewrite app_length. split; [simpl; lia|]. intros i0 I _ _. now rewrite app_nth1.
  - kill H. inversion H; subst. rewrite app_length, etouch_length. split; [simpl; lia|]. intros i0 I _ N. rewrite app_nth1 by (now rewrite etouch_length).
    apply etouch_other. simpl in N. rewrite orb_false_r in N. now apply Nat.eqb_neq.
  - kill H. inversion H; subst. rewrite app_length, eput_length. split; [simpl; lia|]. intros i0 I _ N. rewrite app_nth1 by (now rewrite eput_length).
    apply eput_other. simpl in N. rewrite orb_false_r in N. now apply Nat.eqb_neq.
  - destruct l as [|y l]; [inversion H; subst; rewrite app_length; split; [simpl; lia|]; intros i0 I _ _; now rewrite app_nth1|].
    destruct (arg_values r (y :: l)) as [[r1 vs]| | |] eqn:E1; try discriminate. cbn [bind] in H.
    destruct (pairs [] vs); try discriminate. cbn [bind] in H. inversion H; subst. rewrite app_length, (arg_length _ _ _ _ E1). split; [simpl; lia|].
    intros i0 I _ N. rewrite app_nth1 by (now rewrite (arg_length _ _ _ _ E1)). eapply arg_other; eauto.
  - kill H. inversion H; subst. rewrite eput_length. split; [reflexivity|]. intros i0 I _ N. apply eput_other. simpl in N. rewrite orb_false_r in N. now apply Nat.eqb_neq.
  - discriminate.
  - split.
    + kill H; inversion H; subst; now rewrite ?eput_length, touch2_len.
    + intros i0 I _ N. simpl in N. rewrite orb_false_r in N. apply orb_false_iff in N. destruct N as [N1 N2]. apply Nat.eqb_neq in N1, N2.
      kill H; inversion H; subst; rewrite ?eput_other, touch2_other; auto.
  - split.
    + kill H; inversion H; subst; now rewrite ?eput_length, touch2_len.
    + intros i0 I _ N. simpl in N. rewrite orb_false_r in N. apply orb_false_iff in N. destruct N as [N1 N2]. apply Nat.eqb_neq in N1, N2.
      kill H; inversion H; subst; rewrite ?eput_other, touch2_other; auto.
  - destruct (valid r l); [|discriminate]. destruct (appended _ _); try discriminate. cbn [bind] in H. inversion H; subst. rewrite eput_length. split; [reflexivity|].
    intros i0 I _ N. apply eput_other. simpl in N. rewrite orb_false_r in N. now apply Nat.eqb_neq.
  - split.
    + destruct o; kill H; try (destruct (appended _ _); try discriminate H; cbn [bind] in H); inversion H; subst; now rewrite ?eput_length, ?touch2_len, ?etouch_length.
    + intros i0 I _ N. simpl in N. rewrite orb_false_r in N. apply orb_false_iff in N. destruct N as [N1 N2]. apply Nat.eqb_neq in N1, N2.
      destruct o; kill H; try (destruct (appended _ _); try discriminate H; cbn [bind] in H); inversion H; subst; rewrite ?eput_other, ?touch2_other, ?etouch_other; auto.
  - kill H. inversion H; subst. rewrite etouch_length. split; [reflexivity|]. intros i0 I _ N. apply etouch_other. simpl in N. rewrite orb_false_r in N. now apply Nat.eqb_neq.
  - kill H. inversion H; subst. rewrite eput_length. split; [reflexivity|]. intros i0 I _ N. apply eput_other. simpl in N. rewrite orb_false_r in N. now apply Nat.eqb_neq.
  - kill H. inversion H; subst. rewrite etouch_length. split; [reflexivity|]. intros i0 I _ N. apply etouch_other. simpl in N. rewrite orb_false_r in N. now apply Nat.eqb_neq.
  - destruct (rev r) as [|v q] eqn:Er; [discriminate|]. inversion H; subst.
    assert (Hr : r = rev q ++ [v]) by (rewrite <- (rev_involutive r), Er; reflexivity). subst r. rewrite app_length. simpl. split; [lia|].
    intros i0 I J _. now rewrite app_nth1.
Qed.
Lemma means_length os : forall (r r' : env) xs b, means fzero D r os = Ok (r', xs, b) -> length r' = fold_left counted os (length r).
Proof.
  induction os as [|o os IH]; simpl; intros r r' xs b H; [congruence|].
  destruct (meaning fzero D r o) as [[[r1 x] b1]| | |] eqn:E1; try discriminate. cbn [bind] in H.
  destruct (means fzero D r1 os) as [[[r2 ys] b2]| | |] eqn:E2; try discriminate. cbn [bind] in H. inversion H; subst.
  rewrite (IH _ _ _ _ E2). now rewrite (proj1 (meaning_frame _ _ _ _ _ E1)).
Qed.
Lemma means_frame i os : forall (r r' : env) xs b, means fzero D r os = Ok (r', xs, b) -> untouched i (length r) os = true -> i < length r ->
  nth i r' JNull = nth i r JNull /\ i < length r'.
Proof.
  induction os as [|o os IH]; simpl; intros r r' xs b H U I; [inversion H; subst; auto|].
  destruct (meaning fzero D r o) as [[[r1 x] b1]| | |] eqn:E1; try discriminate. cbn [bind] in H.
  destruct (means fzero D r1 os) as [[[r2 ys] b2]| | |] eqn:E2; try discriminate. cbn [bind] in H. inversion H; subst.
  destruct (meaning_frame _ _ _ _ _ E1) as [Ln Fr]. apply andb_true_iff in U. destruct U as [U U3]. apply andb_true_iff in U. destruct U as [U1 U2].
  apply negb_true_iff in U1. apply Nat.ltb_lt in U2. rewrite <- Ln in U2, U3. destruct (IH _ _ _ _ E2 U3 U2) as [A B]. split; auto.
  rewrite A. apply Fr; auto.
Qed.

(** elements *)
Lemma find_filter {A} (p f : A -> bool) l : (forall x, p x = true -> f x = true) -> find p (filter f l) = find p l.
Proof.
  intros H. induction l as [|x l IH]; simpl; [reflexivity|]. destruct (f x) eqn:E1; simpl; [now rewrite IH|].
  destruct (p x) eqn:E2; [|exact IH]. apply H in E2. congruence.
Qed.
Lemma find_filter_none {A} (p f : A -> bool) l : (forall x, p x = true -> f x = false) -> find p (filter f l) = None.
Proof.
  intros H. induction l as [|x l IH]; simpl; [reflexivity|]. destruct (f x) eqn:E1; simpl; [|exact IH].
  destruct (p x) eqn:E2; [apply H in E2; congruence|exact IH].
Qed.
Lemma find_app {A} (p : A -> bool) l l' : find p (l ++ l') = match find p l with Some x => Some x | None => find p l' end.
Proof. induction l as [|x l IH]; simpl; [reflexivity|]. destruct (p x); auto. Qed.
Lemma find_store (m : list (bytes * json)) k k' w : k <> k' ->
  find (fun e => same_key (fst e) k') (store m k w) = find (fun e => same_key (fst e) k') m.
Proof.
  intros N. unfold store. rewrite find_app. cbn [find fst]. rewrite (proj2 (same_key_false k k') N).
  destruct (lex_total k k') as [H|[H|H]]; [|contradiction|].
  - rewrite find_filter_none.
    + apply find_filter. intros x Hx. apply same_key_true in Hx. rewrite Hx. now apply bless_lex.
    + intros x Hx. apply same_key_true in Hx. rewrite Hx. apply bless_false. now apply lex_asym.
  - rewrite find_filter.
    + destruct (find _ m); [reflexivity|]. apply find_filter_none. intros x Hx. apply same_key_true in Hx. rewrite Hx. apply bless_false. now apply lex_asym.
    + intros x Hx. apply same_key_true in Hx. rewrite Hx. now apply bless_lex.
Qed.
Lemma has_find (m : list (bytes * json)) k : has m k = match find (fun e => same_key (fst e) k) m with Some _ => true | None => false end.
Proof. unfold has. induction m as [|e m IH]; simpl; [reflexivity|]. destruct (same_key (fst e) k); auto. Qed.
Lemma lookup_store (m : list (bytes * json)) k k' w : lookup (store m k w) k' = if same_key k k' then w else lookup m k'.
Proof.
  destruct (same_key k k') eqn:E1.
  - apply same_key_true in E1. subst k'. apply (get1_set1 (JObj m) (Key k) w).
  - apply same_key_false in E1. unfold lookup. now rewrite find_store.
Qed.
Lemma has_store (m : list (bytes * json)) k k' w : has (store m k w) k' = same_key k k' || has m k'.
Proof.
  destruct (same_key k k') eqn:E1.
  - apply same_key_true in E1. subst k'. unfold has, store. rewrite existsb_app. simpl. rewrite (proj2 (same_key_true k k) eq_refl). now rewrite orb_true_r.
  - rewrite !has_find, find_store; [reflexivity|]. now apply same_key_false.
Qed.
Lemma nth_set (l : list json) n j w : j <> n -> nth j (firstn n l ++ repeat JNull (n - length l) ++ w :: skipn (S n) l) JNull = nth j l JNull.
Proof.
  intros N. assert (Ln : length (firstn n l ++ repeat JNull (n - length l)) = n) by (rewrite app_length, firstn_length, repeat_length; lia).
  rewrite app_assoc. destruct (Nat.lt_ge_cases j n) as [H|H].
  - rewrite app_nth1 by lia. destruct (Nat.lt_ge_cases j (length l)) as [G|G].
    + rewrite app_nth1 by (rewrite firstn_length; lia). clear - H. revert n l H. induction j; intros [|n] [|x l] H; simpl; auto; try lia. apply IHj. lia.
    + rewrite (nth_overflow l) by lia. rewrite app_nth2 by (rewrite firstn_length; lia). apply nth_repeat.
  - rewrite app_nth2 by lia. rewrite Ln. replace (j - n) with (S (j - S n)) by lia. cbn [nth].
    clear Ln. destruct (Nat.lt_ge_cases j (length l)) as [G|G].
    + rewrite <- (firstn_skipn (S n) l) at 2. rewrite (app_nth2 (firstn (S n) l)) by (rewrite firstn_length; lia). f_equal. rewrite firstn_length. lia.
    + rewrite (nth_overflow (skipn _ _)) by (rewrite skipn_length; lia). now rewrite nth_overflow by lia.
Qed.
Lemma get1_set1_other s t : sel_eqb s t = false -> same_kind s t = true -> legal1 s = true -> legal1 t = true ->
  forall v w : json, get1 (set1 v s w) t = get1 v t.
Proof.
  intros N K Ls Lt v w. destruct s as [k|i], t as [k'|j]; try discriminate.
  - simpl in N. unfold get1, set1, entries at 1. rewrite lookup_store, N. reflexivity.
  - simpl in N. apply Z.eqb_neq in N. unfold legal1 in Ls, Lt. simpl in Ls, Lt. unfold get1, set1, items at 1. cbv zeta. apply nth_set.
    rewrite ?andb_true_iff, ?Z.leb_le, ?Z.ltb_lt in *. lia.
Qed.
Lemma legal_cons s p : legal (s :: p) = legal1 s && legal p.
Proof. unfold legal1, legal. simpl. now rewrite ?andb_true_r. Qed.
Lemma legal_app p q : legal (p ++ q) = legal p && legal q.
Proof. unfold legal. apply forallb_app. Qed.
Lemma get_put_apart p : forall q (v w : json), relate p q = Apart -> legal p = true -> legal q = true -> get (put v p w) q = get v q.
Proof.
  induction p as [|s p IH]; intros [|t q] v w R Lp Lq; try discriminate. rewrite legal_cons in Lp, Lq. apply andb_true_iff in Lp, Lq.
  destruct Lp as [Ls Lp], Lq as [Lt Lq]. cbn [relate] in R. cbn [get put]. destruct (sel_eqb s t) eqn:Es.
  - apply sel_eqb_true in Es. subst t. rewrite get1_set1. now apply IH.
  - destruct (same_kind s t) eqn:Ek; [|discriminate]. now rewrite get1_set1_other.
Qed.
Lemma valid_legal (r : env) l : valid r l = true -> legal (snd l) = true.
Proof. unfold valid. intros H. apply andb_true_iff in H. tauto. Qed.
Lemma eget_eput_apart (r : env) l l' w : erelate l l' = Apart -> valid r l = true -> valid r l' = true -> eget (eput r l w) l' = eget r l'.
Proof.
  intros R V V'. unfold erelate in R. destruct (fst l =? fst l') eqn:Ei.
  - apply Nat.eqb_eq in Ei. unfold eget, eput. rewrite <- Ei. rewrite nth_upd_eq by (now apply valid_lt). apply get_put_apart; eauto using valid_legal.
  - apply Nat.eqb_neq in Ei. unfold eget. now rewrite eput_other.
Qed.
Lemma eget_inside (r : env) l p : eget r (inside l p) = get (eget r l) p.
Proof. unfold eget, inside. simpl. apply get_app. Qed.
Lemma valid_inside (r : env) l p : valid r (inside l p) = valid r l && legal p.
Proof. unfold valid, inside. simpl. now rewrite legal_app, andb_assoc. Qed.
Lemma relate_prefix p q : q <> [] -> relate p (p ++ q) = Above.
Proof.
  intros N. induction p as [|s p IH]; simpl; [destruct q; [contradiction|reflexivity]|].
  destruct s as [k|i]; simpl; [rewrite (proj2 (same_key_true k k) eq_refl)|rewrite Z.eqb_refl]; exact IH.
Qed.
Lemma relate_refl p : relate p p = Same.
Proof.
  induction p as [|s p IH]; simpl; [reflexivity|].
  destruct s as [k|i]; simpl; [rewrite (proj2 (same_key_true k k) eq_refl)|rewrite Z.eqb_refl]; exact IH.
Qed.
Lemma erelate_inside l p : p <> [] -> erelate l (inside l p) = Above.
Proof. intros N. unfold erelate, inside. simpl. rewrite Nat.eqb_refl. now apply relate_prefix. Qed.
Lemma erelate_outside l p : p <> [] -> erelate (inside l p) l = Below.
Proof. intros N. rewrite erelate_sym, erelate_inside; auto. Qed.
Lemma erelate_refl l : erelate l l = Same.
Proof. unfold erelate. rewrite Nat.eqb_refl. apply relate_refl. Qed.

(** questions at the end of a program *)
Notation exec := (run fzero D ([], [])).
Lemma asked os l q s xs x : exec (os ++ [OAsk l q]) = Ok (s, xs ++ [x]) ->
  exists r b, means fzero D [] os = Ok (r, xs, b) /\ length r = variables os /\ valid r l = true /\ x = answer fzero D (eget r l) q.
Proof.
  intros H. destruct (ran_app _ _ _ _ H) as (r & b & ys & r' & b' & zs & E1 & E2 & E3). cbn [means meaning] in E2.
  destruct (valid r l) eqn:V; [|discriminate]. cbn [bind] in E2. inversion E2; subst. apply app_inj_tail in E3. destruct E3 as [-> ->].
  exists r, b. repeat split; auto. now apply means_length in E1.
Qed.
Lemma ask_after os l q r xs b : means fzero D [] os = Ok (r, xs, b) -> valid r l = true ->
  exists s, exec (os ++ [OAsk l q]) = Ok (s, xs ++ [answer fzero D (eget r l) q]).
Proof.
  intros E1 V. pose proof (after os r xs b [OAsk l q] E1) as X. cbn [means meaning] in X. rewrite V in X. cbn [bind] in X.
  destruct X as (s & h & X & _). eauto.
Qed.
Lemma variables_app (os os' : list (op F)) : variables (os ++ os') = fold_left counted os' (variables os).
Proof. apply fold_left_app. Qed.
Lemma untouched_lt i n (os : list (op F)) : untouched i n os = true -> os <> [] -> i < fold_left counted os n.
Proof.
  revert n. induction os as [|o os IH]; intros n U N; [contradiction|]. simpl in U |- *. apply andb_true_iff in U. destruct U as [U U3].
  apply andb_true_iff in U. destruct U as [_ U2]. apply Nat.ltb_lt in U2. destruct os as [|o' os]; [exact U2|]. apply IH; auto. discriminate.
Qed.
Lemma use_other os os' i p q s xs x s' ys :
  exec (os ++ [OAsk (i, p) q]) = Ok (s, xs ++ [x]) ->
  untouched i (variables os) os' = true -> exec (os ++ os') = Ok (s', ys) ->
  exists s'', exec (os ++ os' ++ [OAsk (i, p) q]) = Ok (s'', ys ++ [x]).
Proof.
  intros H1 U H2. destruct (asked _ _ _ _ _ _ H1) as (r & b & E1 & Ln & V & ->).
  destruct (ran _ _ _ H2) as (r' & b' & E2). pose proof E2 as E2'. rewrite means_app, E1 in E2. cbn [bind] in E2.
  destruct (means fzero D r os') as [[[r2 zs] b2]| | |] eqn:E3; try discriminate. cbn [bind] in E2. inversion E2; subst r2 ys b'. clear E2.
  rewrite <- Ln in U. destruct (means_frame i os' _ _ _ _ E3 U (valid_lt _ _ V)) as [Fr I].
  rewrite app_assoc. replace (answer fzero D (eget r (i, p)) q) with (answer fzero D (eget r' (i, p)) q) by (unfold eget; simpl; now rewrite Fr).
  eapply ask_after; eauto. unfold valid in *. simpl in *. apply andb_true_iff in V. destruct V as [_ V]. rewrite V, andb_true_r. now apply Nat.ltb_lt.
Qed.
Lemma copied os l r xs b : means fzero D [] os = Ok (r, xs, b) -> valid r l = true ->
  means fzero D [] (os ++ [OCopyNew l]) = Ok (etouch r l ++ [eget r l], xs ++ [RNone], b).
Proof. intros E1 V. rewrite means_app, E1. cbn [bind means meaning]. rewrite V. cbn [bind]. now rewrite orb_false_r. Qed.
Lemma use_copy os os' l p q s xs x s' ys :
  let n := variables os in
  exec (os ++ [OAsk (inside l p) q]) = Ok (s, xs ++ [x]) ->
  untouched n (S n) os' = true -> exec (os ++ OCopyNew l :: os') = Ok (s', ys) ->
  exists s'', exec (os ++ OCopyNew l :: os' ++ [OAsk (n, p) q]) = Ok (s'', ys ++ [x]).
Proof.
  intros n H1 U H2. destruct (asked _ _ _ _ _ _ H1) as (r & b & E1 & Ln & V & ->). rewrite valid_inside in V. apply andb_true_iff in V. destruct V as [V Lp].
  pose proof (copied _ _ _ _ _ E1 V) as E2.
  assert (Nt : nth n (etouch r l ++ [eget r l]) JNull = eget r l).
  { unfold n. rewrite <- Ln, <- (etouch_length r l), app_nth2, Nat.sub_diag by lia. reflexivity. }
  assert (Vn : valid (etouch r l ++ [eget r l]) (n, p) = true).
  { unfold valid. simpl. rewrite Lp, app_length, etouch_length. simpl. unfold n. rewrite andb_true_r. apply Nat.ltb_lt. lia. }
  destruct (ask_after _ (n, p) q _ _ _ E2 Vn) as (s1 & E3).
  change (OCopyNew l :: os') with ([OCopyNew l] ++ os') in *. change (OCopyNew l :: os' ++ [OAsk (n, p) q]) with ([OCopyNew l] ++ os' ++ [OAsk (n, p) q]).
  rewrite app_assoc in *. replace (answer fzero D (eget r (inside l p)) q) with (answer fzero D (eget (etouch r l ++ [eget r l]) (n, p)) q)
    by (rewrite eget_inside; unfold eget at 1; cbn [fst snd]; now rewrite Nt).
  eapply use_other; eauto. now rewrite variables_app.
Qed.
Lemma eget_etouch_inside (r : env) l p : fst l < length r -> eget (etouch r l) (inside l p) = eget r (inside l p).
Proof. intros H. rewrite !eget_inside. now rewrite eget_touch. Qed.
Lemma use_original os os' l p q s xs x s' ys :
  exec (os ++ [OAsk (inside l p) q]) = Ok (s, xs ++ [x]) ->
  untouched (fst l) (S (variables os)) os' = true -> exec (os ++ OCopyNew l :: os') = Ok (s', ys) ->
  exists s'', exec (os ++ OCopyNew l :: os' ++ [OAsk (inside l p) q]) = Ok (s'', ys ++ [x]).
Proof.
  intros H1 U H2. destruct (asked _ _ _ _ _ _ H1) as (r & b & E1 & Ln & V & ->). pose proof V as V0.
  rewrite valid_inside in V. apply andb_true_iff in V. destruct V as [V Lp].
  pose proof (copied _ _ _ _ _ E1 V) as E2. pose proof (valid_lt _ _ V) as I.
  assert (Eg : eget (etouch r l ++ [eget r l]) (inside l p) = eget r (inside l p)).
  { rewrite <- (eget_etouch_inside r l p I). unfold eget at 1 3. simpl. rewrite app_nth1 by (rewrite etouch_length; exact I). reflexivity. }
  assert (Vn : valid (etouch r l ++ [eget r l]) (inside l p) = true).
  { unfold valid in V0 |- *. apply andb_true_iff in V0. destruct V0 as [_ V0]. rewrite V0, andb_true_r. apply Nat.ltb_lt. rewrite app_length, etouch_length. simpl. lia. }
  destruct (ask_after _ _ q _ _ _ E2 Vn) as (s1 & E3). rewrite <- Eg.
  change (OCopyNew l :: os') with ([OCopyNew l] ++ os') in *. change (OCopyNew l :: os' ++ [OAsk (inside l p) q]) with ([OCopyNew l] ++ os' ++ [OAsk (inside l p) q]).
  rewrite app_assoc in *. eapply use_other; eauto. now rewrite variables_app.
Qed.
Lemma use_move os os' l p q s xs x s' ys :
  let n := variables os in
  exec (os ++ [OAsk (inside l p) q]) = Ok (s, xs ++ [x]) ->
  untouched n (S n) os' = true -> exec (os ++ OMoveNew l :: os') = Ok (s', ys) ->
  exists s'', exec (os ++ OMoveNew l :: os' ++ [OAsk (n, p) q]) = Ok (s'', ys ++ [x]).
Proof.
  intros n H1 U H2. destruct (asked _ _ _ _ _ _ H1) as (r & b & E1 & Ln & V & ->). rewrite valid_inside in V. apply andb_true_iff in V. destruct V as [V Lp].
  assert (E2 : means fzero D [] (os ++ [OMoveNew l]) = Ok (eput r l JNull ++ [eget r l], xs ++ [RNone], b)).
  { rewrite means_app, E1. cbn [bind means meaning]. rewrite V. cbn [bind]. now rewrite orb_false_r. }
  assert (Nt : nth n (eput r l JNull ++ [eget r l]) JNull = eget r l).
  { unfold n. rewrite <- Ln, <- (eput_length r l JNull), app_nth2, Nat.sub_diag by lia. reflexivity. }
  assert (Vn : valid (eput r l JNull ++ [eget r l]) (n, p) = true).
  { unfold valid. simpl. rewrite Lp, app_length, eput_length. simpl. unfold n. rewrite andb_true_r. apply Nat.ltb_lt. lia. }
  destruct (ask_after _ (n, p) q _ _ _ E2 Vn) as (s1 & E3).
  change (OMoveNew l :: os') with ([OMoveNew l] ++ os') in *. change (OMoveNew l :: os' ++ [OAsk (n, p) q]) with ([OMoveNew l] ++ os' ++ [OAsk (n, p) q]).
  rewrite app_assoc in *. replace (answer fzero D (eget r (inside l p)) q) with (answer fzero D (eget (eput r l JNull ++ [eget r l]) (n, p)) q)
    by (rewrite eget_inside; unfold eget at 1; cbn [fst snd]; now rewrite Nt).
  eapply use_other; eauto. now rewrite variables_app.
Qed.

Lemma start os s xs : exec os = Ok (s, xs) -> exists r b, means fzero D [] os = Ok (r, xs, b) /\ length r = variables os /\ forall l, valid r l = defined os l.
Proof.
  intros H. destruct (ran _ _ _ H) as (r & b & E1). exists r, b. split; [exact E1|]. apply means_length in E1. simpl in E1. split; [exact E1|].
  intros l. unfold valid, defined, variables. now rewrite E1.
Qed.
Lemma step_after os r xs b o r' x b' : means fzero D [] os = Ok (r, xs, b) -> meaning fzero D r o = Ok (r', x, b') ->
  means fzero D [] (os ++ [o]) = Ok (r', xs ++ [x], b || b').
Proof. intros E1 E2. rewrite means_app, E1. cbn [bind means]. rewrite E2. cbn [bind]. now rewrite orb_false_r. Qed.
Lemma ask_later os o l q r r' xs x b b' : means fzero D [] os = Ok (r, xs, b) -> meaning fzero D r o = Ok (r', x, b') -> valid r' l = true ->
  exists s, exec (os ++ [o; OAsk l q]) = Ok (s, xs ++ [x; answer fzero D (eget r' l) q]).
Proof.
  intros E1 E2 V. destruct (ask_after _ l q _ _ _ (step_after _ _ _ _ _ _ _ _ E1 E2) V) as (s & E3). exists s.
  change ([o; OAsk l q]) with ([o] ++ [OAsk l q]). rewrite app_assoc, E3. now rewrite <- app_assoc.
Qed.
Lemma stuck os o r xs b : means fzero D [] os = Ok (r, xs, b) -> meaning fzero D r o = UB -> exec (os ++ [o]) = UB.
Proof. intros E1 E2. pose proof (after os r xs b [o] E1) as X. cbn [means] in X. rewrite E2 in X. exact X. Qed.
Lemma thrown os o r xs b : means fzero D [] os = Ok (r, xs, b) -> meaning fzero D r o = Err -> exec (os ++ [o]) = Err.
Proof. intros E1 E2. pose proof (after os r xs b [o] E1) as X. cbn [means] in X. rewrite E2 in X. exact X. Qed.
Lemma went os o r xs b r' x b' : means fzero D [] os = Ok (r, xs, b) -> meaning fzero D r o = Ok (r', x, b') ->
  exists s h, exec (os ++ [o]) = Ok (s, xs ++ [x]) /\ finish s = Ok h /\ (b || b' = false <-> forall a, look h a = None).
Proof. intros E1 E2. pose proof (after os r xs b [o] E1) as X. cbn [means] in X. rewrite E2 in X. cbn [bind] in X. now rewrite orb_false_r in X. Qed.
Lemma erelate_sym_apart l l' : erelate l l' = Apart -> erelate l' l = Apart.
Proof. intros H. now rewrite erelate_sym, H. Qed.
Lemma eget_touch_apart (r : env) l l' : erelate l l' = Apart -> valid r l = true -> valid r l' = true -> eget (etouch r l) l' = eget r l'.
Proof. apply eget_eput_apart. Qed.
Lemma touch2_apart left (r : env) l l' : erelate l l' = Apart -> valid r l = true -> valid r l' = true ->
  eget (touch2 left r l l') l = eget r l /\ eget (touch2 left r l l') l' = eget r l'.
Proof.
  intros R V V'. pose proof (erelate_sym_apart _ _ R) as R'. pose proof (valid_lt _ _ V). pose proof (valid_lt _ _ V').
  unfold touch2. destruct left; split.
  - rewrite eget_touch_apart; rewrite ?valid_touch; auto. now apply eget_touch.
  - rewrite eget_touch by (now rewrite etouch_length). now apply eget_touch_apart.
  - rewrite eget_touch by (now rewrite etouch_length). now apply eget_touch_apart.
  - rewrite eget_touch_apart; rewrite ?valid_touch; auto. now apply eget_touch.
Qed.
Lemma valid_touch2 left (r : env) l l' l0 : valid (touch2 left r l l') l0 = valid r l0.
Proof. unfold touch2. destruct left; now rewrite !valid_touch. Qed.
(** touching [l] does not change the value of a location above it, up to created elements,
    nor of one below *)
Lemma touch2_inside left (r : env) l p : valid r l = true -> eget (touch2 left r l (inside l p)) (inside l p) = eget r (inside l p).
Proof.
  intros V. pose proof (valid_lt _ _ V) as I. unfold touch2. destruct left.
  - rewrite eget_touch by (rewrite etouch_length; exact I). now apply eget_etouch_inside.
  - rewrite eget_etouch_inside by (rewrite etouch_length; exact I). now apply eget_touch.
Qed.
Lemma put_app p : forall q (v w : json), put v (p ++ q) w = put v p (put (get v p) q w).
Proof. induction p as [|s p IH]; intros q v w; [reflexivity|]. simpl. now rewrite IH. Qed.
Lemma put_container (v : json) s p w : owning (put v (s :: p) w) = true.
Proof. simpl. now destruct s. Qed.
Lemma kind_container (v : json) s p w : kind_of_value (put v (s :: p) w) = sel_kind s.
Proof. simpl. now destruct s. Qed.
Lemma eget_put_inside (r : env) l p w : fst l < length r -> eget (eput r (inside l p) w) l = put (eget r l) p w.
Proof.
  intros I. unfold eget, eput, inside. simpl. rewrite nth_upd_eq by exact I. rewrite put_app, get_put. reflexivity.
Qed.
Lemma owner_kind (v : json) : owner (kind_of_value v) = owning v.
Proof. now destruct v. Qed.
Lemma eput_same (r : env) l : eput r l (eget r l) = etouch r l. Proof. reflexivity. Qed.
Lemma touch2_same left (r : env) l : fst l < length r -> touch2 left r l l = etouch r l.
Proof. intros I. unfold touch2. destruct left; unfold etouch at 1; rewrite eput_touch, eget_touch; auto. Qed.

Lemma array_bound os r xs b l vs : means fzero D [] os = Ok (r, xs, b) -> valid r l = true -> eget r l = JArr vs -> (Z.of_nat (length vs) <= int32_max)%Z.
Proof.
  intros E1 V Ev. pose proof (sim_run fzero D os [] [] [] [] E_empty) as X. rewrite E1 in X. destruct X as (h & vars & L & _ & He & _).
  destruct (locate_ok fzero h vars r L l He V) as (h' & d & _ & He' & _ & T). destruct (env_focus h' vars _ L l d He' T) as (g & x & Hd & _).
  rewrite eget_touch, Ev in Hd by (now apply valid_lt). destruct (holds_arr _ _ _ _ Hd) as (c & l0 & f0 & _ & _ & _ & Bd & Rl).
  now rewrite <- (reps_length _ _ _ _ Rl).
Qed.
Lemma set_length (v w : json) i : (0 <= i)%Z -> length (items (set1 v (Idx i) w)) = Nat.max (length (items v)) (Z.to_nat i + 1).
Proof.
  intros I. unfold set1, items at 1. cbv zeta. rewrite !app_length, firstn_length, repeat_length. cbn [length]. rewrite skipn_length. lia.
Qed.
Lemma wrap_id z : (int32_min <= z <= int32_max)%Z -> wrap32 z = z.
Proof. intros H. apply wrap32_id. unfold in_int32. apply andb_true_iff. rewrite !Z.leb_le. lia. Qed.
Lemma eget_touch_inside (r : env) l p : fst l < length r -> eget (etouch r (inside l p)) l = touch (eget r l) p.
Proof. intros I. unfold etouch. rewrite eget_put_inside by exact I. now rewrite eget_inside. Qed.
Lemma length_store (m : list (bytes * json)) k w : m = [] -> length (store m k w) = 1.
Proof. now intros ->. Qed.

(** pairs of an initializer list *)
Lemma pairs_lookup l : forall (m m' : list (bytes * json)) k, pairs m (flat_map (fun e => [fst e; snd e]) l) = Ok m' ->
  lookup m' k = match find (fun e => same_key (toString (fst e)) k) (rev l) with Some e => snd e | None => lookup m k end /\
  has m' k = (match find (fun e => same_key (toString (fst e)) k) (rev l) with Some e => true | None => has m k end).
Proof.
  induction l as [|[a v] l IH]; intros m m' k H; [inversion H; subst; auto|]. simpl in H. destruct (IH _ _ k H) as [A B]. simpl. rewrite find_app.
  rewrite A, B. destruct (find _ (rev l)); auto. cbn [find fst]. rewrite lookup_store, has_store. destruct (same_key (toString a) k); auto.
Qed.
Lemma pairs_even l : forall (m : list (bytes * json)), exists m', pairs m (flat_map (fun e => [fst e; snd e]) l) = Ok m'.
Proof. induction l as [|[a v] l IH]; intros m; [now exists m|]. simpl. apply IH. Qed.
Lemma pairs_odd N : forall l (m : list (bytes * json)), length l <= N -> Nat.odd (length l) = true -> pairs m l = UB.
Proof.
  induction N as [|N IH]; intros l m Ln Od; [destruct l; [discriminate|simpl in Ln; lia]|].
  destruct l as [|a [|v l]]; [discriminate|reflexivity|]. simpl. apply IH; [simpl in Ln; lia|exact Od].
Qed.
Lemma args_scal l : forall (r : env), arg_values r (map AScal l) = Ok (r, map scalar l).
Proof. induction l as [|x l IH]; intros r; [reflexivity|]. simpl. now rewrite IH. Qed.
Lemma args_length l : forall (r r' : env) vs, arg_values r l = Ok (r', vs) -> length vs = length l.
Proof.
  induction l as [|x l IH]; simpl; intros r r' vs H; [now inversion H|]. destruct x as [y|x].
  - destruct (arg_values r l) as [[r1 vs1]| | |] eqn:E1; try discriminate. cbn [bind] in H. inversion H; subst. simpl. eauto.
  - destruct (valid r x); [|discriminate]. cbv zeta in H. destruct (arg_values (etouch r x) l) as [[r1 vs1]| | |] eqn:E1; try discriminate.
    cbn [bind] in H. inversion H; subst. simpl. eauto.
Qed.
Lemma args_ub l : forall (r : env), arg_values r l = UB \/ exists r' vs, arg_values r l = Ok (r', vs).
Proof.
  induction l as [|x l IH]; simpl; intros r; [right; eauto|]. destruct x as [y|x].
  - destruct (IH r) as [H|(r' & vs & H)]; rewrite H; cbn [bind]; eauto.
  - destruct (valid r x); [|auto]. cbv zeta. destruct (IH (etouch r x)) as [H|(r' & vs & H)]; rewrite H; cbn [bind]; eauto.
Qed.
Lemma live (h : heap F) : (exists a, look h a <> None) \/ forall a, look h a = None.
Proof.
  induction h as [|c h IH]; [right; intros [|a]; reflexivity|]. destruct c as [c|]; [left; now exists 0|].
  destruct IH as [(a & A)|A]; [left; now exists (S a)|]. right. intros [|a]; [reflexivity|apply A].
Qed.
End Use.
