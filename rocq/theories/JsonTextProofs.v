(** Reading JSON documents with free layout. *)
From Verif Require Import Base DecModel DecProofs JsonModel JsonSpec JsonProofs JsonRoundProofs JsonProperties JsonMemberProperties JsonHeapSpec JsonHeapNavProofs JsonHeapUseProofs JsonTextSpec.
Local Open Scope nat_scope.

Lemma blank_ws w : blank w -> ws w.
Proof.
  unfold blank, ws. intros H. apply forallb_forall. intros c C. specialize (H c C). simpl in H.
  repeat (destruct H as [<-|H]; [reflexivity|]). destruct H.
Qed.
Lemma hex_chars h : (forall c, In c h -> In c (str "0123456789abcdefABCDEF")) -> forallb ishex h = true.
Proof.
  intros H. apply forallb_forall. intros c C. specialize (H c C). simpl in H. repeat (destruct H as [<-|H]; [reflexivity|]). destruct H.
Qed.
Lemma hex_loop_spec h : forall s i val r, forallb ishex h = true -> pos s i (h ++ r) -> hex_loop (length h) s i val = Ok (val ++ h).
Proof.
  induction h as [|c h IH]; intros s i val r H P; cbn [hex_loop length]; [now rewrite app_nil_r|].
  cbn [forallb] in H. apply andb_true_iff in H. destruct H as [H1 H2]. cbn [app] in P. rewrite (pos_at _ _ _ _ P). cbn [bind]. rewrite H1.
  rewrite (IH s (S i) (val ++ [c]) r H2 (pos_S _ _ _ _ P)), <- app_assoc. reflexivity.
Qed.
Lemma chars_body b t : chars b t -> forall f s off val r, pos s off (b ++ DQ :: r) -> length b < f ->
  str_loop f s off val = Ok (val ++ t, S (off + length b)).
Proof.
  induction 1 as [|c b t N1 N2 H IH|e c b t I H IH|h b t L X H IH]; intros f s off val r P Lf; (destruct f as [|f]; [lia|]); cbn [str_loop].
  - cbn [app] in P. rewrite (pos_at _ _ _ _ P). cbn [bind length]. ifs. now rewrite app_nil_r, Nat.add_0_r.
  - cbn [app] in P. rewrite (pos_at _ _ _ _ P). cbn [bind]. destruct (Ascii.eqb_spec c DQ); [contradiction|]. destruct (Ascii.eqb_spec c BSL); [contradiction|].
    cbn [length] in Lf |- *. rewrite (IH f s (S off) (val ++ [c]) r (pos_S _ _ _ _ P)) by lia. rewrite <- app_assoc. do 2 f_equal. lia.
  - cbn [app] in P. pose proof (pos_S _ _ _ _ P) as P1. rewrite (pos_at _ _ _ _ P). cbn [bind].
    change (Ascii.eqb "092" DQ) with false. change (Ascii.eqb "092" BSL) with true. cbv iota. rewrite (pos_at _ _ _ _ P1). cbn [bind].
    assert (U : Ascii.eqb e "u" = false /\ unescape e = c).
    { simpl in I. repeat (destruct I as [I|I]; [injection I as <- <-; split; reflexivity|]). destruct I. }
    destruct U as [-> ->]. cbn [length] in Lf |- *. rewrite (IH f s (S (S off)) (val ++ [c]) r (pos_S _ _ _ _ P1)) by lia. rewrite <- app_assoc. do 2 f_equal. lia.
  - cbn [app] in P. rewrite <- app_assoc in P. pose proof (pos_S _ _ _ _ P) as P1. pose proof (pos_S _ _ _ _ P1) as P2. pose proof (pos_app _ _ _ _ P2) as P3.
    rewrite (pos_at _ _ _ _ P). cbn [bind].
    change (Ascii.eqb "092" DQ) with false. change (Ascii.eqb "092" BSL) with true. cbv iota. rewrite (pos_at _ _ _ _ P1). cbn [bind].
    change (Ascii.eqb "u" "u") with true. cbv iota. pose proof (hex_loop_spec h s (S (S off)) (val ++ [BSL; "u"%char]) _ (hex_chars h X) P2) as EH.
    rewrite L in EH. rewrite EH. cbn [bind]. cbn [length] in Lf |- *. rewrite app_length in *. replace (off + 6) with (S (S off) + length h) by lia.
    rewrite (IH f s _ _ r P3) by lia. rewrite <- !app_assoc. do 2 f_equal. lia.
Qed.
Lemma chars_key b t : chars b t -> key_reads b t.
Proof.
  intros H s off r P. pose proof (pos_len _ _ _ P) as L. rewrite app_length in L. rewrite (chars_body b t H _ s off [] r P) by lia. reflexivity.
Qed.

(** the last value of each key *)
Lemma increasing_unique {V} (m m' : list (bytes * V)) : increasing (map fst m) -> increasing (map fst m') ->
  (forall e, In e m <-> In e m') -> m = m'.
Proof.
  revert m'. induction m as [|[k v] m IH]; intros [|[k' v'] m'] A B H.
  - reflexivity.
  - destruct (proj2 (H (k', v')) (or_introl eq_refl)).
  - destruct (proj1 (H (k, v)) (or_introl eq_refl)).
  - cbn [map fst] in A, B. apply increasing_cons in A, B. destruct A as [A1 A2], B as [B1 B2].
    assert (E : (k, v) = (k', v')).
    { destruct (proj1 (H (k, v)) (or_introl eq_refl)) as [E|I]; [congruence|]. destruct (proj2 (H (k', v')) (or_introl eq_refl)) as [E|I']; [congruence|].
      exfalso. apply (in_map fst) in I, I'. exact (lex_asym _ _ (A2 _ I') (B2 _ I)). }
    injection E as <- <-. f_equal. apply IH; try assumption. intros e. specialize (H e). split; intros I.
    + destruct (proj1 H (or_intror I)) as [<-|]; [|assumption]. exfalso. apply (in_map fst) in I. exact (lex_irr _ (A2 _ I)).
    + destruct (proj2 H (or_intror I)) as [<-|]; [|assumption]. exfalso. apply (in_map fst) in I. exact (lex_irr _ (B2 _ I)).
Qed.
Lemma find_in_increasing {V} (m : list (bytes * V)) k v : increasing (map fst m) ->
  (In (k, v) m <-> find (fun e => same_key (fst e) k) m = Some (k, v)).
Proof.
  induction m as [|[a w] m IH]; intros I; cbn [find fst]; [split; [intros []|discriminate]|].
  cbn [map fst] in I. apply increasing_cons in I. destruct I as [I1 I2]. destruct (same_key a k) eqn:E.
  - apply same_key_true in E. subst a. split; [intros [H|H]; [congruence|]|intros H; left; congruence].
    exfalso. apply (in_map fst) in H. exact (lex_irr _ (I2 _ H)).
  - rewrite <- (IH I1). split; [intros [H|H]; [|assumption]|intros H; now right]. injection H as <- <-.
    rewrite (proj2 (same_key_true a a) eq_refl) in E. discriminate.
Qed.
Lemma find_last {V} (ms : list (bytes * V)) k v :
  (exists e, find (fun e => same_key (jsonEscape (fst e)) k) (rev ms) = Some e /\ snd e = v) <->
  (exists a t b, ms = a ++ (t, v) :: b /\ k = jsonEscape t /\ ~ In t (map fst b)).
Proof.
  induction ms as [|[t0 v0] ms IH] using rev_ind.
  - split; [intros (e & E & _); discriminate|]. intros ([|] & t & b & E & _); discriminate.
  - rewrite rev_app_distr. cbn [rev app find fst]. destruct (same_key (jsonEscape t0) k) eqn:E.
    + apply same_key_true in E. split.
      * intros (e & [= <-] & <-). exists ms, t0, []. cbn [snd]. repeat split; [congruence|intros []].
      * intros (a & t & b & Ems & Ek & N). destruct b as [|x b _] using rev_ind.
        { apply app_inj_tail in Ems. destruct Ems as [_ Ems]. injection Ems as <- <-. eexists. split; reflexivity. }
        exfalso. rewrite app_comm_cons, app_assoc in Ems. apply app_inj_tail in Ems. destruct Ems as [_ <-]. apply N. rewrite map_app, in_app_iff. right. left.
        cbn [fst]. apply escape_inj. congruence.
    + rewrite IH. split; intros (a & t & b & Ems & Ek & N).
      * exists a, t, (b ++ [(t0, v0)]). subst ms. rewrite <- app_assoc. repeat split; [assumption|]. rewrite map_app, in_app_iff. intros [I|[I|[]]]; [contradiction|].
        cbn [fst] in I. subst t0 k. rewrite (proj2 (same_key_true _ _) eq_refl) in E. discriminate.
      * destruct b as [|x b _] using rev_ind.
        { apply app_inj_tail in Ems. destruct Ems as [_ Ems]. injection Ems as <- <-. subst k. rewrite (proj2 (same_key_true _ _) eq_refl) in E. discriminate. }
        rewrite app_comm_cons, app_assoc in Ems. apply app_inj_tail in Ems. destruct Ems as [-> _]. exists a, t, b. repeat split; [assumption|].
        intros I. apply N. rewrite map_app, in_app_iff. now left.
Qed.
Lemma insert_all_last {F} (ms : list (bytes * json F)) : last_wins ms (insert_all [] ms).
Proof.
  assert (I : increasing (map fst (insert_all [] ms))) by (apply increasing_insert_all; exact Logic.I). split; [assumption|].
  intros k v. rewrite (find_in_increasing _ k v I), find_insert_all. cbn [find]. rewrite <- find_last. destruct (find _ (rev ms)) as [e|].
  - split; [intros [= <-]; exists e; split; reflexivity|]. intros (e' & [= <-] & <-). reflexivity.
  - split; [discriminate|]. intros (e & E & _). discriminate.
Qed.
Lemma last_wins_unique {F} (ms m : list (bytes * json F)) : last_wins ms m -> m = insert_all [] ms.
Proof.
  intros [I H]. destruct (insert_all_last ms) as [I' H']. apply increasing_unique; try assumption. intros [k v]. now rewrite H, H'.
Qed.

Section Text.
Context {F : Type} (D : doubles F).
Scheme text_mind := Minimality for text Sort Prop
  with elements_mind := Minimality for elements Sort Prop
  with members_mind := Minimality for members Sort Prop.
Combined Scheme text_mutind from text_mind, elements_mind, members_mind.

Lemma digits_number ds : forallb is_digit ds = true -> forallb number_char ds = true.
Proof. intros H. apply forallb_forall. intros c C. unfold number_char. now rewrite (proj1 (forallb_forall _ _) H c C). Qed.
Lemma digits_dot ds : forallb is_digit ds = true -> has_dot ds = false.
Proof.
  intros H. unfold has_dot. destruct (existsb (Ascii.eqb ".") ds) eqn:E; [|reflexivity]. apply existsb_exists in E. destruct E as (c & C & E). apply Ascii.eqb_eq in E. subst c.
  apply (proj1 (forallb_forall _ _) H) in C. discriminate.
Qed.
Lemma sign_split neg ds u : ds <> [] -> forallb is_digit ds = true -> forallb number_char u = true ->
  exists c t, sign neg ++ ds ++ u = c :: t /\ is_digit c || Ascii.eqb c "-" = true /\ forallb number_char t = true.
Proof.
  intros N H U. destruct neg; cbn [sign app].
  - exists "-"%char, (ds ++ u). repeat split. rewrite forallb_app, (digits_number ds H), U. reflexivity.
  - destruct ds as [|c ds]; [congruence|]. cbn [forallb] in H. apply andb_true_iff in H. destruct H as [H1 H2]. exists c, (ds ++ u). split; [reflexivity|]. split; [now rewrite H1|].
    rewrite forallb_app, (digits_number ds H2), U. reflexivity.
Qed.
Lemma text_starts t v : text D t v -> starts t.
Proof.
  intros H. destruct H as [| | |neg ds N H|neg ds fs N H H'| | | | |]; try (eexists; eexists; split; [reflexivity|]; now repeat split).
  - destruct (sign_split neg ds [] N H eq_refl) as (c & t & E & C & _). rewrite app_nil_r in E. rewrite E.
    destruct (digit_notspace c C) as (H1 & _ & _ & _ & _ & _ & H2 & H3). exists c, t. auto.
  - destruct (sign_split neg ds ("."%char :: fs) N H) as (c & t & E & C & _); [cbn [forallb]; now rewrite (digits_number fs H')|]. rewrite E.
    destruct (digit_notspace c C) as (H1 & _ & _ & _ & _ & _ & H2 & H3). exists c, t. auto.
Qed.
Lemma reads_int_text neg ds : ds <> [] -> forallb is_digit ds = true ->
  reads D (sign neg ++ ds) (JInt (Z.max (- 2 ^ 31) (Z.min (2 ^ 31 - 1) (if neg then - dec_value ds else dec_value ds)))).
Proof.
  intros N H. destruct (sign_split neg ds [] N H eq_refl) as (c & t & E & C & T). rewrite app_nil_r in E.
  pose proof (reads_num D c t C T) as R. rewrite <- E in R.
  assert (Dt : has_dot (sign neg ++ ds) = false) by (destruct neg; exact (digits_dot ds H)). rewrite Dt in R. unfold scan_int in R.
  assert (Z : scan_Z (sign neg ++ ds) = (if neg then - dec_value ds else dec_value ds)%Z) by (destruct neg; [apply scan_Z_neg|apply scan_Z_digits]; assumption).
  rewrite Z in R. exact R.
Qed.
Lemma reads_float_text neg ds fs : ds <> [] -> forallb is_digit ds = true -> forallb is_digit fs = true ->
  reads D (sign neg ++ ds ++ "."%char :: fs) (JFlt (f_scale D (f_read D (sign neg ++ ds ++ "."%char :: fs)) 0)).
Proof.
  intros N H H'. destruct (sign_split neg ds ("."%char :: fs) N H) as (c & t & E & C & T); [cbn [forallb]; now rewrite (digits_number fs H')|].
  pose proof (reads_num D c t C T) as R. rewrite <- E in R. rewrite in_has_dot in R; [exact R|]. rewrite !in_app_iff. right. right. now left.
Qed.
Lemma delim_ws w c r : ws w -> delimiter c = true -> c <> NUL -> delim (w ++ c :: r).
Proof.
  intros W C N _. destruct w as [|x w]; [auto|]. cbn [app hd]. unfold ws in W. cbn [forallb] in W. apply andb_true_iff in W. destruct W as [W _].
  unfold delimiter. rewrite W. split; [reflexivity|]. intros ->. discriminate.
Qed.
(** a loop started behind the blanks behaves as started before them *)
Lemma next_skip f s o o' : skip_whitespaces s o = Ok o' -> skip_whitespaces s o' = Ok o' -> parse_next D f s o' = parse_next D f s o.
Proof. intros A B. destruct f; [reflexivity|]. cbn [parse_next]. now rewrite A, B. Qed.

Definition arr_reads (b : bytes) (l : list (json F)) : Prop :=
  (exists w c t, b = w ++ c :: t /\ ws w /\ isspace c = false /\ c <> "]"%char) /\
  forall acc s off r, pos s off (b ++ "]"%char :: r) -> exists f, arr_loop D f s off acc = Ok (JArr (acc ++ l), off + length b + 1).
Definition obj_reads (b : bytes) (ms : list (bytes * json F)) : Prop :=
  (exists w t, b = w ++ DQ :: t /\ ws w) /\
  forall acc s off r, pos s off (b ++ "}"%char :: r) -> exists f, obj_loop D f s off acc = Ok (JObj (insert_all acc ms), off + length b + 1).

Lemma arr_item w t w' v c r s off acc : ws w -> ws w' -> starts t -> reads D t v -> delimiter c = true -> c <> NUL -> isspace c = false ->
  pos s off (w ++ t ++ w' ++ c :: r) ->
  exists f, forall g, f <= g -> arr_loop D (S g) s off acc =
    (if Ascii.eqb c "," then arr_loop D g s (S (off + length w + length t + length w')) (acc ++ [v])
     else if Ascii.eqb c "]" then Ok (JArr (acc ++ [v]), S (off + length w + length t + length w')) else Err).
Proof.
  intros W W' ST R C N NS P. destruct (R w s off (w' ++ c :: r) W P (delim_ws w' c r W' C N)) as (f & e & E & L). specialize (L (not_nil_app _ _ _)). subst e.
  pose proof (pos_app _ _ _ _ (pos_app _ _ _ _ P)) as P1. exists f. intros g G. rewrite arr_loop_S, (next_mono D f g s off _ E G). cbn [bind].
  rewrite (skip_spec w' s _ (c :: r) P1 W' NS). cbn [bind]. rewrite (pos_at _ _ _ _ (pos_app _ _ _ _ P1)). reflexivity.
Qed.
Lemma obj_item w k w1 w2 t w3 n v c r s off acc : ws w -> chars k n -> ws w1 -> ws w2 -> ws w3 -> starts t -> reads D t v ->
  delimiter c = true -> c <> NUL -> isspace c = false ->
  pos s off (w ++ DQ :: k ++ DQ :: w1 ++ ":"%char :: w2 ++ t ++ w3 ++ c :: r) ->
  let e := off + length (w ++ DQ :: k ++ DQ :: w1 ++ ":"%char :: w2 ++ t ++ w3) in
  exists f, forall g, f <= g -> obj_loop D (S g) s off acc =
    (if Ascii.eqb c "," then obj_loop D g s (S e) (map_set acc (jsonEscape n) v)
     else if Ascii.eqb c "}" then Ok (JObj (map_set acc (jsonEscape n) v), S e) else Err).
Proof.
  intros W K W1 W2 W3 ST R C N NS P e. pose proof (next_key D w s off k n _ W P (chars_key k n K)) as EK.
  pose proof (pos_S _ _ _ _ (pos_app _ _ _ _ (pos_S _ _ _ _ (pos_app _ _ _ _ P)))) as P1.
  replace (S (S (off + length w) + length k)) with (off + length w + length k + 2) in P1 by lia.
  set (o1 := off + length w + length k + 2) in *. pose proof (pos_app _ _ _ _ P1) as P2. pose proof (pos_S _ _ _ _ P2) as P3.
  pose proof (pos_app _ _ _ _ P3) as P4. set (o2 := S (o1 + length w1) + length w2) in *.
  destruct (R [] s o2 (w3 ++ c :: r) eq_refl P4 (delim_ws w3 c r W3 C N)) as (f & e' & E & L). specialize (L (not_nil_app _ _ _)). subst e'.
  pose proof (pos_app _ _ _ _ P4) as P5. cbn [length] in E. rewrite Nat.add_0_r in E.
  exists (S f). intros g G. rewrite obj_loop_S, (next_mono D 1 g s off _ EK) by lia. cbn [bind].
  rewrite (skip_spec w1 s o1 _ P1 W1 eq_refl). cbn [bind]. rewrite (pos_at _ _ _ _ P2). cbn [bind]. change (Ascii.eqb ":" ":") with true. cbv iota.
  destruct ST as (x & u & Et & NX & _).
  rewrite (skip_spec w2 s _ _ P3 W2) by (rewrite Et; exact NX). cbn [bind]. fold o2. rewrite (next_mono D f g s _ _ E) by lia. cbn [bind toString]. cbv zeta.
  rewrite (skip_spec w3 s _ (c :: r) P5 W3 NS). cbn [bind]. rewrite (pos_at _ _ _ _ (pos_app _ _ _ _ P5)). cbn [bind].
  assert (Ee : o2 + length t + length w3 = e).
  { unfold e, o2, o1. repeat (rewrite app_length || cbn [length]). lia. }
  rewrite Ee. reflexivity.
Qed.

Lemma text_reads : (forall t v, text D t v -> reads D t v) /\ (forall b l, elements D b l -> arr_reads b l) /\ (forall b ms, members D b ms -> obj_reads b ms).
Proof.
  assert (H : (forall t v, text D t v -> starts t /\ reads D t v) /\ (forall b l, elements D b l -> arr_reads b l) /\ (forall b ms, members D b ms -> obj_reads b ms)).
  2: { split; [|apply H]. intros t v X. now apply H. }
  apply (text_mutind F D (fun t v => starts t /\ reads D t v) arr_reads obj_reads).
  - split; [apply (text_starts _ JNull); constructor|apply reads_null].
  - split; [apply (text_starts _ (JBool true)); constructor|apply (reads_bool D true)].
  - split; [apply (text_starts _ (JBool false)); constructor|apply (reads_bool D false)].
  - intros neg ds N H. split; [eapply text_starts; constructor; eassumption|now apply reads_int_text].
  - intros neg ds fs N H H'. split; [eapply text_starts; apply t_float; eassumption|now apply reads_float_text].
  - intros b s H. split; [eapply text_starts; apply t_string; eassumption|]. intros w st off r W P _.
    exists 1. eexists. assert (P' : pos st off (w ++ DQ :: b ++ DQ :: r)) by (cbn [app] in P; rewrite <- app_assoc in P; exact P).
    rewrite (next_key D w st off b s r W P' (chars_key b s H)). split; [reflexivity|]. intros _. cbn [length]. rewrite app_length. cbn [length]. lia.
  - intros w0 B. split; [eapply text_starts; apply (t_array0 D w0); assumption|]. intros w s off r W P _. cbn [app] in P. rewrite <- app_assoc in P. cbn [app] in P.
    exists 1. eexists. rewrite (next_at D w s off _ _ 0 W P eq_refl). cbv zeta. change (Ascii.eqb "[" "[") with true. cbv iota.
    pose proof (pos_S _ _ _ _ (pos_app _ _ _ _ P)) as P1. rewrite (skip_spec w0 s _ _ P1 (blank_ws _ B) eq_refl). cbn [bind].
    rewrite (pos_at _ _ _ _ (pos_app _ _ _ _ P1)). cbn [bind]. change (Ascii.eqb "]" "]") with true. cbv iota. split; [reflexivity|]. intros _. cbn [length]. rewrite app_length. cbn [length]. lia.
  - intros b l H [(w0 & c & t & Eb & W0 & NS & NC) IH]. split; [eexists; eexists; split; [reflexivity|]; now repeat split|]. intros w s off r W P _. cbn [app] in P. rewrite <- app_assoc in P. cbn [app] in P.
    pose proof (pos_S _ _ _ _ (pos_app _ _ _ _ P)) as P1. destruct (IH [] s _ r P1) as (f & E).
    exists (S (S f)). eexists. rewrite (next_at D w s off _ _ (S f) W P eq_refl). cbv zeta. change (Ascii.eqb "[" "[") with true. cbv iota.
    pose proof P1 as P2. rewrite Eb, <- app_assoc in P2. cbn [app] in P2. pose proof (skip_spec w0 s _ (c :: _) P2 W0 NS) as SK.
    rewrite SK. cbn [bind]. pose proof (pos_app _ _ _ _ P2) as P3. rewrite (pos_at _ _ _ _ P3). cbn [bind]. destruct (Ascii.eqb_spec c "]"); [contradiction|].
    apply (arr_mono D f (S f)) in E; [|lia]. rewrite arr_loop_S in E |- *. rewrite (next_skip f s _ _ SK (skip_none s _ _ P3 NS)), E.
    split; [reflexivity|]. intros _. cbn [length]. rewrite !app_length. cbn [length]. lia.
  - intros w0 B. split; [eapply text_starts; apply (t_object0 D w0); assumption|]. intros w s off r W P _. cbn [app] in P. rewrite <- app_assoc in P. cbn [app] in P.
    exists 1. eexists. rewrite (next_at D w s off _ _ 0 W P eq_refl). cbv zeta. change (Ascii.eqb "{" "[") with false. change (Ascii.eqb "{" "{") with true. cbv iota.
    pose proof (pos_S _ _ _ _ (pos_app _ _ _ _ P)) as P1. rewrite (skip_spec w0 s _ _ P1 (blank_ws _ B) eq_refl). cbn [bind].
    rewrite (pos_at _ _ _ _ (pos_app _ _ _ _ P1)). cbn [bind]. change (Ascii.eqb "}" "}") with true. cbv iota. split; [reflexivity|]. intros _. cbn [length]. rewrite app_length. cbn [length]. lia.
  - intros b ms m H [(w0 & t & Eb & W0) IH] LW. split; [eexists; eexists; split; [reflexivity|]; now repeat split|]. apply last_wins_unique in LW. subst m.
    intros w s off r W P _. cbn [app] in P. rewrite <- app_assoc in P. cbn [app] in P.
    pose proof (pos_S _ _ _ _ (pos_app _ _ _ _ P)) as P1. destruct (IH [] s _ r P1) as (f & E).
    exists (S (S f)). eexists. rewrite (next_at D w s off _ _ (S f) W P eq_refl). cbv zeta. change (Ascii.eqb "{" "[") with false. change (Ascii.eqb "{" "{") with true. cbv iota.
    pose proof P1 as P2. rewrite Eb, <- app_assoc in P2. cbn [app] in P2. pose proof (skip_spec w0 s _ (DQ :: _) P2 W0 eq_refl) as SK.
    rewrite SK. cbn [bind]. pose proof (pos_app _ _ _ _ P2) as P3. rewrite (pos_at _ _ _ _ P3). cbn [bind]. change (Ascii.eqb DQ "}") with false. cbv iota.
    apply (obj_mono D f (S f)) in E; [|lia]. rewrite obj_loop_S in E |- *. rewrite (next_skip f s _ _ SK (skip_none s _ _ P3 eq_refl)), E.
    split; [reflexivity|]. intros _. cbn [length]. rewrite !app_length. cbn [length]. lia.
  - intros w t w' v B H [ST R] B'. apply blank_ws in B, B'. split.
    { destruct ST as (c & u & -> & NS & NC & _). exists w, c, (u ++ w'). auto. }
    intros acc s off r P. rewrite <- !app_assoc in P.
    destruct (arr_item w t w' v "]"%char r s off acc B B' ST R eq_refl ltac:(discriminate) eq_refl P) as (f & E). exists (S f). rewrite (E f) by lia.
    change (Ascii.eqb "]" ",") with false. change (Ascii.eqb "]" "]") with true. cbv iota. rewrite !app_length. do 2 f_equal. lia.
  - intros w t w' v b l B H [ST R] B' HE [_ IH]. apply blank_ws in B, B'. split.
    { destruct ST as (c & u & -> & NS & NC & _). exists w, c, (u ++ w' ++ ","%char :: b). auto. }
    intros acc s off r P. rewrite <- !app_assoc in P. cbn [app] in P.
    destruct (arr_item w t w' v ","%char (b ++ "]"%char :: r) s off acc B B' ST R eq_refl ltac:(discriminate) eq_refl P) as (f & E).
    pose proof (pos_S _ _ _ _ (pos_app _ _ _ _ (pos_app _ _ _ _ (pos_app _ _ _ _ P)))) as P1.
    destruct (IH (acc ++ [v]) s _ r P1) as (f2 & E2). exists (S (Nat.max f f2)). rewrite (E (Nat.max f f2)) by lia.
    change (Ascii.eqb "," ",") with true. cbv iota. rewrite (arr_mono D f2 _ s _ _ _ E2) by lia. rewrite <- app_assoc. cbn [app]. do 2 f_equal.
    rewrite !app_length. cbn [length]. lia.
  - intros w k w1 w2 t w3 n v B K B1 B2 H [ST R] B3. apply blank_ws in B, B1, B2, B3. split.
    { exists w. eexists. split; [reflexivity|assumption]. }
    intros acc s off r P.
    assert (P' : pos s off (w ++ DQ :: k ++ DQ :: w1 ++ ":"%char :: w2 ++ t ++ w3 ++ "}"%char :: r)) by (repeat (rewrite <- app_assoc in P || cbn [app] in P); exact P).
    destruct (obj_item w k w1 w2 t w3 n v "}"%char r s off acc B K B1 B2 B3 ST R eq_refl ltac:(discriminate) eq_refl P') as (f & E). exists (S f). rewrite (E f) by lia.
    change (Ascii.eqb "}" ",") with false. change (Ascii.eqb "}" "}") with true. cbv iota. cbn [insert_all fold_left fst snd]. do 2 f_equal. unfold DQ. lia.
  - intros w k w1 w2 t w3 n v b ms B K B1 B2 H [ST R] B3 HE [_ IH]. apply blank_ws in B, B1, B2, B3. split.
    { exists w. eexists. split; [reflexivity|assumption]. }
    intros acc s off r P.
    assert (P' : pos s off (w ++ DQ :: k ++ DQ :: w1 ++ ":"%char :: w2 ++ t ++ w3 ++ ","%char :: b ++ "}"%char :: r)) by (repeat (rewrite <- app_assoc in P || cbn [app] in P); exact P).
    destruct (obj_item w k w1 w2 t w3 n v ","%char (b ++ "}"%char :: r) s off acc B K B1 B2 B3 ST R eq_refl ltac:(discriminate) eq_refl P') as (f & E).
    assert (P1 : pos s (S (off + length (w ++ DQ :: k ++ DQ :: w1 ++ ":"%char :: w2 ++ t ++ w3))) (b ++ "}"%char :: r)).
    { assert (Q : pos s off ((w ++ DQ :: k ++ DQ :: w1 ++ ":"%char :: w2 ++ t ++ w3) ++ ","%char :: b ++ "}"%char :: r)) by (repeat (rewrite <- app_assoc || cbn [app]); exact P').
      exact (pos_S _ _ _ _ (pos_app _ _ _ _ Q)). }
    destruct (IH (map_set acc (jsonEscape n) v) s _ r P1) as (f2 & E2). exists (S (Nat.max f f2)). rewrite (E (Nat.max f f2)) by lia.
    change (Ascii.eqb "," ",") with true. cbv iota. rewrite (obj_mono D f2 _ s _ _ _ E2) by lia. cbn [insert_all fold_left fst snd]. do 2 f_equal.
    repeat (rewrite !app_length || cbn [length]). lia.
Qed.
Lemma load_text t v w r : text D t v -> ws w -> delim r -> loadJSON D (w ++ t ++ r) = Ok v.
Proof.
  intros T W R. destruct (proj1 text_reads t v T w (w ++ t ++ r) 0 r W (pos_0 _) R) as (f & e & E & _). exact (load_next D f _ v e E).
Qed.
End Text.
