(** Printing and reading back JSON values. *)
From Verif Require Import Base DecModel DecProofs JsonModel JsonSpec JsonProofs.
Local Open Scope nat_scope.

(** * Keys of a map *)
Lemma bless_lex a : forall b, bless a b = true <-> lex a b.
Proof.
  induction a as [|x a IH]; intros [|y b]; simpl.
  - split; [discriminate|inversion 1].
  - split; [constructor|reflexivity].
  - split; [discriminate|inversion 1].
  - destruct (Z.ltb_spec (byteZ x) (byteZ y)) as [L|L].
    + split; [intros _; now apply lex_lt|reflexivity].
    + destruct (Z.ltb_spec (byteZ y) (byteZ x)) as [L2|L2].
      * split; [discriminate|]. inversion 1; subst; lia.
      * assert (x = y) by (apply byteZ_inj; lia). subst y. rewrite IH. split; [now apply lex_eq|].
        inversion 1; subst; [lia|assumption].
Qed.
Lemma lex_trans a b c : lex a b -> lex b c -> lex a c.
Proof.
  intros H. revert c. induction H as [y b|x y a b L|x a b H IH]; intros c HC; inversion HC; subst.
  - constructor.
  - constructor.
  - apply lex_lt. lia.
  - now apply lex_lt.
  - now apply lex_lt.
  - apply lex_eq. now apply IH.
Qed.
Lemma lex_irr a : ~ lex a a.
Proof. induction a as [|x a IH]; inversion 1; subst; [lia|contradiction]. Qed.
Lemma lex_asym a b : lex a b -> ~ lex b a.
Proof. intros H1 H2. exact (lex_irr _ (lex_trans _ _ _ H1 H2)). Qed.
Lemma lex_total a : forall b, lex a b \/ a = b \/ lex b a.
Proof.
  induction a as [|x a IH]; intros [|y b]; [auto|left; constructor|right; right; constructor|].
  destruct (Z.lt_trichotomy (byteZ x) (byteZ y)) as [L|[L|L]].
  - left. now apply lex_lt.
  - apply byteZ_inj in L. subst y. destruct (IH b) as [H|[-> |H]]; [left; now apply lex_eq|auto|right; right; now apply lex_eq].
  - right. right. now apply lex_lt.
Qed.
Lemma bless_false a b : bless a b = false <-> ~ lex a b.
Proof. rewrite <- bless_lex. destruct (bless a b); split; congruence. Qed.
Lemma increasing_cons a t : increasing (a :: t) <-> increasing t /\ (forall b, In b t -> lex a b).
Proof.
  revert a. induction t as [|b t IH]; intros a; [simpl; split; [split; [auto|intros ? []]|auto]|].
  split.
  - intros [H1 H2]. split; [assumption|]. intros c [<-|C]; [assumption|].
    apply IH in H2. destruct H2 as [_ H2]. exact (lex_trans _ _ _ H1 (H2 c C)).
  - intros [H1 H2]. split; [apply H2; now left|assumption].
Qed.
Lemma increasing_snoc l k : increasing (l ++ [k]) -> increasing l /\ (forall b, In b l -> lex b k).
Proof.
  induction l as [|a l IH]; intros H; [split; [exact I|intros ? []]|].
  change ((a :: l) ++ [k]) with (a :: (l ++ [k])) in H. apply increasing_cons in H. destruct H as [H1 H2].
  destruct (IH H1) as [H3 H4]. split.
  - apply increasing_cons. split; [assumption|]. intros b B. apply H2. apply in_or_app. now left.
  - intros b [<-|B]; [apply H2; apply in_or_app; right; now left|auto].
Qed.
Lemma map_set_snoc {V} (m : list (bytes * V)) k v : (forall b, In b (map fst m) -> lex b k) ->
  map_set m k v = m ++ [(k, v)].
Proof.
  induction m as [|[k' v'] m IH]; intros H; [reflexivity|]. simpl.
  assert (L : lex k' k) by (apply H; now left).
  rewrite (proj2 (bless_false k k') (lex_asym _ _ L)), (proj2 (bless_lex k' k) L).
  rewrite IH; [reflexivity|]. intros b B. apply H. now right.
Qed.
Lemma map_set_keys {V} (m : list (bytes * V)) k v b : In b (map fst (map_set m k v)) <-> b = k \/ In b (map fst m).
Proof.
  induction m as [|[k' v'] m IH]; simpl; [intuition|].
  destruct (bless k k') eqn:E1; [simpl; intuition|]. destruct (bless k' k) eqn:E2; simpl.
  - rewrite IH. intuition.
  - apply bless_false in E1. apply bless_false in E2. destruct (lex_total k k') as [H|[-> |H]]; try contradiction. intuition.
Qed.
Lemma map_set_increasing {V} (m : list (bytes * V)) k v : increasing (map fst m) -> increasing (map fst (map_set m k v)).
Proof.
  induction m as [|[k' v'] m IH]; intros H; [exact I|]. cbn [map_set].
  cbn [map fst] in H. pose proof H as H0. apply increasing_cons in H. destruct H as [H1 H2].
  destruct (bless k k') eqn:E1.
  - cbn [map fst]. apply increasing_cons. split; [assumption|]. apply bless_lex in E1.
    intros b [<-|B]; [assumption|]. exact (lex_trans _ _ _ E1 (H2 b B)).
  - destruct (bless k' k) eqn:E2; cbn [map fst]; [|assumption].
    apply increasing_cons. split; [auto|]. apply bless_lex in E2. intros b B. apply map_set_keys in B.
    destruct B as [->|B]; auto.
Qed.
Lemma map_set_all {V} (P : bytes * V -> Prop) m k v : Forall P m -> (forall k', k' = k -> P (k', v)) -> Forall P (map_set m k v).
Proof.
  intros H K. induction H as [|[k' v'] m Hx H IH]; simpl; [repeat constructor; auto|].
  destruct (bless k k') eqn:E1; [repeat constructor; auto|]. destruct (bless k' k) eqn:E2; constructor; auto.
  apply bless_false in E1. apply bless_false in E2. apply K. destruct (lex_total k k') as [X|[-> |X]]; tauto.
Qed.

(** * Induction over values *)
Section Ind.
Context {F : Type} (P : json F -> Prop)
  (HN : P JNull) (HB : forall b, P (JBool b)) (HI : forall z, P (JInt z)) (HF : forall f, P (JFlt f))
  (HS : forall s, P (JStr s)) (HA : forall l, Forall P l -> P (JArr l))
  (HO : forall m, Forall (fun kv => P (snd kv)) m -> P (JObj m)).
Fixpoint json_ind2 (v : json F) : P v :=
  match v with
  | JNull => HN | JBool b => HB b | JInt z => HI z | JFlt f => HF f | JStr s => HS s
  | JArr l => HA l ((fix go l : Forall P l := match l with [] => Forall_nil _ | v :: l => Forall_cons _ (json_ind2 v) (go l) end) l)
  | JObj m => HO m ((fix go m : Forall (fun kv => P (snd kv)) m :=
      match m with [] => Forall_nil _ | kv :: m => Forall_cons _ (json_ind2 (snd kv)) (go m) end) m)
  end.
End Ind.
Lemma Forall2_impl {A B} (P Q : A -> B -> Prop) l m : (forall a b, P a b -> Q a b) -> Forall2 P l m -> Forall2 Q l m.
Proof. intros H. induction 1; constructor; auto. Qed.
Lemma value_arr {F} K FL (l : list (json F)) : value K FL (JArr l) <-> Forall (value K FL) l.
Proof.
  simpl. induction l as [|v l IH]; simpl; [split; constructor|]. rewrite IH. split.
  - intros [A B]. now constructor.
  - inversion 1; auto.
Qed.
Lemma value_obj {F} K FL (m : list (bytes * json F)) : value K FL (JObj m) <->
  increasing (map fst m) /\ Forall (fun kv => K (fst kv) /\ value K FL (snd kv)) m.
Proof.
  change (value K FL (JObj m)) with (increasing (map fst m) /\
    fold_right (fun kv P => K (fst kv) /\ value K FL (snd kv) /\ P) True m).
  assert (E : fold_right (fun kv P => K (fst kv) /\ value K FL (snd kv) /\ P) True m <->
     Forall (fun kv => K (fst kv) /\ value K FL (snd kv)) m).
  { induction m as [|v m IH]; simpl; [split; constructor|]. rewrite IH. split.
    - intros (A & B & C). now constructor.
    - inversion 1; tauto. }
  rewrite E. reflexivity.
Qed.

(** evaluate conditions on characters *)
Ltac ifs := repeat match goal with |- context[if ?b then _ else _] =>
  let x := eval vm_compute in b in
  match x with true => change b with true | false => change b with false end; cbv iota end.
(** * dump *)
Section Round.
Context {F : Type} (D : doubles F).
Fixpoint items (depth : nat) (tab : bytes) (skip : bool) (l : list (json F)) : bytes :=
  match l with
  | [] => []
  | v :: l => (if skip then [] else [","%char; " "%char]) ++ dump D (S depth) tab v ++ items depth tab false l
  end.
Fixpoint entries (depth : nat) (tab : bytes) (skip : bool) (m : list (bytes * json F)) : bytes :=
  match m with
  | [] => []
  | (k, v) :: m =>
      (if skip then [] else [","%char; LF]) ++
      pad depth tab ++ [DQ] ++ k ++ [DQ; " "%char; ":"%char; " "%char] ++ dump D (S depth) tab v ++ entries depth tab false m
  end.
Lemma dump_arr depth tab l : dump D depth tab (JArr l) = ["["%char] ++ items depth tab true l ++ ["]"%char].
Proof.
  cbn [dump]. do 2 f_equal.
  match goal with |- ?g true l = _ => enough (H : forall b, g b l = items depth tab b l) by apply H end.
  induction l as [|v l IH]; intros b; [reflexivity|].
  cbn [items]. rewrite <- IH. reflexivity.
Qed.
Lemma dump_obj depth tab m : dump D depth tab (JObj m) =
  ["{"%char; LF] ++ entries depth tab true m ++ [LF] ++ skipn 2 (pad depth tab) ++ ["}"%char].
Proof.
  cbn [dump]. do 2 f_equal.
  match goal with |- ?g true m = _ => enough (H : forall b, g b m = entries depth tab b m) by apply H end.
  induction m as [|[k v] m IH]; intros b; [reflexivity|].
  cbn [entries]. rewrite <- IH. reflexivity.
Qed.
Definition ws (w : bytes) : Prop := forallb isspace w = true.
Lemma ws_app a b : ws a -> ws b -> ws (a ++ b).
Proof. unfold ws. intros A B. now rewrite forallb_app, A, B. Qed.
Lemma ws_pad d tab : ws tab -> ws (pad d tab).
Proof. intros H. induction d as [|d IH]; [reflexivity|]. now apply ws_app. Qed.
Lemma ws_skipn n w : ws w -> ws (skipn n w).
Proof.
  revert w. induction n as [|n IH]; intros w H; [assumption|]. destruct w as [|c w]; [reflexivity|].
  apply andb_true_iff in H. simpl. apply IH. tauto.
Qed.

(** [text] read at any place, behind spaces, gives [v] and stops at its end *)
Definition delim (r : bytes) : Prop := r <> [] -> delimiter (hd NUL r) = true /\ hd NUL r <> NUL.
Definition reads (text : bytes) (v : json F) : Prop :=
  forall w s off r, ws w -> pos s off (w ++ text ++ r) -> delim r ->
  exists f e, parse_next D f s off = Ok (v, e) /\ (r <> [] -> e = off + length w + length text).
Definition starts (text : bytes) : Prop :=
  exists c t, text = c :: t /\ isspace c = false /\ c <> "]"%char /\ c <> "}"%char.

Lemma next_at w s off c t f : ws w -> pos s off (w ++ c :: t) -> isspace c = false ->
  parse_next D (S f) s off =
    let off := off + length w in
      if Ascii.eqb c "[" then
        off <- skip_whitespaces s (S off) ;;
        c <- at_ s off ;;
        if Ascii.eqb c "]" then Ok (JArr [], S off) else arr_loop D f s off []
      else if Ascii.eqb c "{" then
        off <- skip_whitespaces s (S off) ;;
        c <- at_ s off ;;
        if Ascii.eqb c "}" then Ok (JObj [], S off) else obj_loop D f s off []
      else if Ascii.eqb c DQ then parse_string s off
      else if Ascii.eqb c "t" || Ascii.eqb c "f" then parse_bool s off
      else if Ascii.eqb c "n" then parse_null s off
      else if is_digit c || Ascii.eqb c "-" then parse_number D s off
      else Err.
Proof.
  intros W P N. cbn [parse_next]. rewrite (skip_spec w s off (c :: t) P W N). cbn [bind].
  rewrite (pos_at _ _ _ _ (pos_app _ _ _ _ P)). reflexivity.
Qed.
Lemma substr_pos s off t r n : pos s off (t ++ r) -> n = length t -> substr s off n = t.
Proof.
  intros P ->. unfold substr. rewrite (pos_skip _ _ _ P), firstn_app, firstn_all, Nat.sub_diag. simpl. apply app_nil_r.
Qed.
Lemma beq_refl a : beq a a = true.
Proof. unfold beq. now destruct (list_eq_dec _ a a). Qed.
Lemma reads_null : reads (str "null") JNull.
Proof.
  intros w s off r W P _. exists 1. eexists. rewrite (next_at w s off _ _ 0 W P eq_refl). cbv zeta.
  pose proof (pos_app _ _ _ _ P) as P1. simpl. unfold parse_null.
  rewrite (substr_pos s _ (str "null") r 4 P1 eq_refl), beq_refl. split; [reflexivity|]. intros _. lia.
Qed.
Lemma reads_bool (b : bool) : reads (if b then str "true" else str "false") (JBool b).
Proof.
  intros w s off r W P _. exists 1. destruct b; eexists.
  - rewrite (next_at w s off _ _ 0 W P eq_refl). cbv zeta. pose proof (pos_app _ _ _ _ P) as P1. simpl. unfold parse_bool.
    rewrite (substr_pos s _ (str "true") r 4 P1 eq_refl), beq_refl. split; [reflexivity|]. intros _. lia.
  - rewrite (next_at w s off _ _ 0 W P eq_refl). cbv zeta. pose proof (pos_app _ _ _ _ P) as P1. simpl. unfold parse_bool.
    rewrite (substr_pos s _ (str "false") r 5 P1 eq_refl), beq_refl.
    assert (E : substr s (off + length w) 4 = str "fals") by (apply (substr_pos s _ (str "fals") ("e"%char :: r)); [exact P1|reflexivity]).
    rewrite E. split; [reflexivity|]. intros _. lia.
Qed.
Lemma reads_str t : reads ([DQ] ++ jsonEscape t ++ [DQ]) (JStr t).
Proof.
  intros w s off r W P _. exists 1. eexists.
  assert (P' : pos s off (w ++ DQ :: jsonEscape t ++ DQ :: r)) by (now rewrite <- !app_assoc in P).
  rewrite (next_at w s off _ _ 0 W P' eq_refl). cbv zeta.
  ifs. rewrite (parse_string_escape t s _ r (pos_app _ _ _ _ P')).
  split; [reflexivity|]. intros _. simpl. lia.
Qed.
Lemma digit_notspace c : is_digit c || Ascii.eqb c "-" = true ->
  isspace c = false /\ Ascii.eqb c "[" = false /\ Ascii.eqb c "{" = false /\ Ascii.eqb c DQ = false /\
  Ascii.eqb c "t" || Ascii.eqb c "f" = false /\ Ascii.eqb c "n" = false /\ c <> "]"%char /\ c <> "}"%char.
Proof.
  intros H. destruct c as [b0 b1 b2 b3 b4 b5 b6 b7].
  destruct b0, b1, b2, b3, b4, b5, b6, b7; try discriminate H; repeat split; try reflexivity; discriminate.
Qed.
Lemma delimiter_number c : delimiter c = true -> number_char c = false.
Proof.
  intros H. destruct c as [b0 b1 b2 b3 b4 b5 b6 b7].
  destruct b0, b1, b2, b3, b4, b5, b6, b7; try discriminate H; reflexivity.
Qed.
Lemma reads_num c t : is_digit c || Ascii.eqb c "-" = true -> forallb number_char t = true ->
  reads (c :: t) (if has_dot (c :: t) then JFlt (f_scale D (f_read D (c :: t)) 0) else JInt (scan_int (c :: t))).
Proof.
  intros C T w s off r W P DL. exists 1. destruct (digit_notspace c C) as (H1 & H2 & H3 & H4 & H5 & H6 & _).
  change (w ++ (c :: t) ++ r) with (w ++ c :: (t ++ r)) in P.
  rewrite (next_at w s off c _ 0 W P H1). cbv zeta. rewrite H2, H3, H4, H5, H6, C.
  assert (NC : number_char c = true) by (unfold number_char; rewrite C; reflexivity).
  assert (DR : delimiter (hd NUL r) = true) by (destruct r as [|x r]; [reflexivity|]; apply DL; discriminate).
  rewrite (number_plain D s (off + length w) (c :: t) r).
  - eexists. split; [reflexivity|]. intros NR. destruct (DL NR) as [_ N].
    destruct (Ascii.eqb_spec (hd NUL r) NUL); [contradiction|]. reflexivity.
  - exact (pos_app _ _ _ _ P).
  - simpl. now rewrite NC, T.
  - now apply delimiter_number.
  - assumption.
Qed.
Lemma numeral_scan t z : numeral t z -> exists c u, t = c :: u /\ is_digit c || Ascii.eqb c "-" = true /\
  forallb number_char u = true /\ has_dot (c :: u) = false /\ scan_Z (c :: u) = z.
Proof.
  assert (DN : forall u, forallb is_digit u = true -> forallb number_char u = true /\ has_dot u = false).
  { induction u as [|x u IH]; [auto|]. cbn [forallb]. intros H. apply andb_true_iff in H. destruct H as [H1 H2].
    destruct (IH H2) as [A B]. rewrite A. unfold number_char. rewrite H1. split; [reflexivity|].
    unfold has_dot. cbn [existsb]. destruct (Ascii.eqb_spec "." x) as [<-|]; [discriminate|exact B]. }
  intros [[(N & DG & _) V]|(u & -> & (N & DG & _) & _ & V)].
  - destruct t as [|c u]; [congruence|]. exists c, u. split; [reflexivity|]. pose proof DG as DG'. apply andb_true_iff in DG.
    destruct DG as [D1 D2]. rewrite D1. split; [reflexivity|]. split; [apply DN; assumption|].
    split; [apply DN; assumption|]. now rewrite scan_Z_digits.
  - exists "-"%char, u. split; [reflexivity|]. split; [reflexivity|]. split; [apply DN; assumption|].
    split; [apply (DN u DG)|]. now rewrite scan_Z_neg.
Qed.
Lemma reads_int z : in_int32 z = true -> reads (to_string_Z z) (JInt z).
Proof.
  intros I. destruct (numeral_scan _ _ (to_string_Z_numeral z)) as (c & u & E & A & B & C & V). rewrite E.
  pose proof (reads_num c u A B) as R. rewrite C in R. unfold scan_int in R. rewrite V in R.
  assert (CL : clamp32 z = z) by (unfold clamp32, in_int32, int32_min, int32_max in *; lia).
  now rewrite CL in R.
Qed.
Lemma in_has_dot t : In "."%char t -> has_dot t = true.
Proof. intros H. unfold has_dot. apply existsb_exists. exists "."%char. split; [assumption|reflexivity]. Qed.
Lemma reads_flt f : float_stable D f -> reads (f_text D f) (JFlt f).
Proof.
  intros [(c & t & E & C & N & DT) S]. rewrite E in S |- *.
  assert (A : is_digit c || Ascii.eqb c "-" = true) by (destruct C as [-> | ->]; reflexivity).
  pose proof (reads_num c t A N) as R. rewrite (in_has_dot (c :: t) (or_intror DT)), S in R. exact R.
Qed.
Lemma starts_dump K depth tab v : value K (float_stable D) v -> starts (dump D depth tab v).
Proof.
  destruct v as [|[]|z|f|s|l|m]; intros V; cbn [dump]; try (eexists; eexists; split; [reflexivity|]; now repeat split).
  - destruct (numeral_scan _ _ (to_string_Z_numeral z)) as (c & u & E & A & _).
    destruct (digit_notspace c A) as (H1 & _ & _ & _ & _ & _ & H2 & H3). exists c, u. auto.
  - destruct V as [(c & t & E & C & N & DT) _].
    assert (A : is_digit c || Ascii.eqb c "-" = true) by (destruct C as [-> | ->]; reflexivity).
    destruct (digit_notspace c A) as (H1 & _ & _ & _ & _ & _ & H2 & H3). exists c, t. auto.
Qed.
Lemma arr_loop_S f s off acc : arr_loop D (S f) s off acc =
      (' (v, off) <- parse_next D f s off ;;
      let acc := acc ++ [v] in
      off <- skip_whitespaces s off ;;
      c <- at_ s off ;;
      if Ascii.eqb c "," then arr_loop D f s (S off) acc
      else if Ascii.eqb c "]" then Ok (JArr acc, S off)
      else Err).
Proof. reflexivity. Qed.
Lemma obj_loop_S f s off acc : obj_loop D (S f) s off acc =
      (' (key, off) <- parse_next D f s off ;;
      off <- skip_whitespaces s off ;;
      c <- at_ s off ;;
      if Ascii.eqb c ":" then
        off <- skip_whitespaces s (S off) ;;
        ' (v, off) <- parse_next D f s off ;;
        let acc := map_set acc (toString key) v in
        off <- skip_whitespaces s off ;;
        c <- at_ s off ;;
        if Ascii.eqb c "," then obj_loop D f s (S off) acc
        else if Ascii.eqb c "}" then Ok (JObj acc, S off)
        else Err
      else Err).
Proof. reflexivity. Qed.
Lemma not_nil_app {A} (a : list A) x b : a ++ x :: b <> [].
Proof. destruct a; discriminate. Qed.

(** arrays *)
Lemma arr_items l : forall depth tab b acc w s off r, l <> [] -> ws w ->
  Forall2 (fun v v' => reads (dump D (S depth) tab v) v') l b ->
  pos s off (w ++ items depth tab true l ++ "]"%char :: r) ->
  exists f, arr_loop D f s off acc = Ok (JArr (acc ++ b), off + length w + length (items depth tab true l) + 1).
Proof.
  induction l as [|v l IH]; intros depth tab b acc w s off r NE W H P; [congruence|].
  inversion H as [|? v' ? b' Hv Hl]; subst. cbn [items app] in P. rewrite <- app_assoc in P.
  set (rest := items depth tab false l ++ "]"%char :: r) in *.
  assert (DR : delim rest).
  { intros _. unfold rest. destruct l as [|v2 l]; [split; [reflexivity|discriminate]|].
    cbn [items]. rewrite <- !app_assoc. split; [reflexivity|discriminate]. }
  assert (NR : rest <> []) by apply not_nil_app.
  destruct (Hv w s off rest W P DR) as (f1 & e1 & E1 & L1). specialize (L1 NR). subst e1.
  pose proof (pos_app _ _ _ _ P) as P1. pose proof (pos_app _ _ _ _ P1) as P2.
  destruct l as [|v2 l].
  - inversion Hl; subst. exists (S f1). rewrite arr_loop_S. rewrite E1. cbn [bind]. unfold rest in P2. simpl in P2.
    rewrite (skip_none s _ _ P2 eq_refl). cbn [bind]. rewrite (pos_at _ _ _ _ P2). cbn [bind]. ifs.
    cbn [items app]. rewrite app_nil_r. do 2 f_equal. lia.
  - set (tail := v2 :: l) in *.
    assert (Erest : rest = ","%char :: " "%char :: items depth tab true tail ++ "]"%char :: r).
    { unfold rest, tail. cbn [items]. rewrite <- !app_assoc. reflexivity. }
    rewrite Erest in P2. pose proof (pos_S _ _ _ _ P2) as P3.
    destruct (IH depth tab b' (acc ++ [v']) [" "%char] s _ r ltac:(discriminate) eq_refl Hl P3) as (f2 & E2).
    exists (S (Nat.max f1 f2)). rewrite arr_loop_S. rewrite (next_mono D f1 _ s off _ E1) by lia. cbn [bind].
    rewrite (skip_none s _ _ P2 eq_refl). cbn [bind]. rewrite (pos_at _ _ _ _ P2). cbn [bind].
    change (Ascii.eqb "," ",") with true. cbn iota. rewrite (arr_mono D f2 _ s _ _ _ E2) by lia.
    rewrite <- app_assoc. do 2 f_equal. cbn [items app]. rewrite !app_length.
    assert (EI : length (items depth tab false tail) = 2 + length (items depth tab true tail)).
    { unfold tail. cbn [items]. rewrite !app_length. reflexivity. }
    rewrite EI. simpl length. lia.
Qed.
Lemma reads_arr depth tab l b :
  Forall2 (fun v v' => reads (dump D (S depth) tab v) v') l b ->
  Forall (fun v => starts (dump D (S depth) tab v)) l ->
  reads (dump D depth tab (JArr l)) (JArr b).
Proof.
  intros H ST w s off r W P _. rewrite dump_arr in P |- *.
  rewrite <- !app_assoc in P. cbn [app] in P. pose proof (pos_app _ _ _ _ P) as P1. pose proof (pos_S _ _ _ _ P1) as P2.
  destruct l as [|v l].
  - inversion H; subst. exists 1. eexists. rewrite (next_at w s off _ _ 0 W P eq_refl). cbv zeta. ifs.
    cbn [items app] in P2. rewrite (skip_none s _ _ P2 eq_refl). cbn [bind]. rewrite (pos_at _ _ _ _ P2). cbn [bind].
    change (Ascii.eqb "]" "]") with true. cbn iota. split; [reflexivity|]. intros _. simpl. lia.
  - destruct (arr_items (v :: l) depth tab b [] [] s _ r ltac:(discriminate) eq_refl H P2) as (f & E).
    exists (S f). eexists. rewrite (next_at w s off _ _ f W P eq_refl). cbv zeta. change (Ascii.eqb "[" "[") with true. cbn iota.
    inversion ST as [|? ? (c & t & EC & N1 & N2 & N3)]; subst.
    assert (P2' : exists t', pos s (S (off + length w)) (c :: t')).
    { cbn [items app] in P2. rewrite EC in P2. eexists. exact P2. }
    destruct P2' as [t' P2']. rewrite (skip_none s _ _ P2' N1). cbn [bind]. rewrite (pos_at _ _ _ _ P2'). cbn [bind].
    destruct (Ascii.eqb_spec c "]"); [contradiction|]. rewrite E. split; [reflexivity|]. intros _.
    rewrite !app_length. simpl length. lia.
Qed.

(** objects: [kt k t]: the key text [k] is read as the string [t] *)
Definition key_reads (k t : bytes) : Prop :=
  forall s off r, pos s off (k ++ DQ :: r) -> str_loop (length s + 2) s off [] = Ok (t, S (off + length k)).
Lemma key_escape t : key_reads (jsonEscape t) t.
Proof.
  intros s off r P. pose proof (pos_len _ _ _ P) as L. rewrite app_length in L. pose proof (escape_len t).
  rewrite (escape_body t _ s off [] r P) by lia. reflexivity.
Qed.
Lemma key_raw k : ~ In DQ k -> ~ In BSL k -> key_reads k k.
Proof.
  intros A B s off r P. pose proof (pos_len _ _ _ P) as L. rewrite app_length in L.
  rewrite (raw_body k _ s off [] r P A B) by lia. reflexivity.
Qed.
Definition insert_all (acc : list (bytes * json F)) (ts : list (bytes * json F)) : list (bytes * json F) :=
  fold_left (fun acc tv => map_set acc (jsonEscape (fst tv)) (snd tv)) ts acc.
Lemma next_key w s off k t r : ws w -> pos s off (w ++ DQ :: k ++ DQ :: r) -> key_reads k t ->
  parse_next D 1 s off = Ok (JStr t, off + length w + length k + 2).
Proof.
  intros W P K. rewrite (next_at w s off DQ _ 0 W P eq_refl). cbv zeta. ifs.
  unfold parse_string. pose proof (pos_S _ _ _ _ (pos_app _ _ _ _ P)) as P1. rewrite (K s _ r P1). cbn [bind].
  do 2 f_equal. lia.
Qed.
Lemma obj_entries m : forall depth tab b acc w s off z r, m <> [] -> ws w -> ws z -> ws tab ->
  Forall2 (fun kv tv => key_reads (fst kv) (fst tv) /\ reads (dump D (S depth) tab (snd kv)) (snd tv)
     /\ starts (dump D (S depth) tab (snd kv))) m b ->
  pos s off (w ++ entries depth tab true m ++ LF :: z ++ "}"%char :: r) ->
  exists f, obj_loop D f s off acc =
    Ok (JObj (insert_all acc b), off + length w + length (entries depth tab true m) + 1 + length z + 1).
Proof.
  induction m as [|[k v] m IH]; intros depth tab b acc w s off z r NE W Z TB H P; [congruence|].
  inversion H as [|? [t v'] ? b' (Hk & Hv & Hs) Hl]; subst. cbn [fst snd] in Hk, Hv, Hs.
  cbn [entries app] in P. rewrite <- !app_assoc in P. cbn [app] in P. rewrite <- !app_assoc in P. cbn [app] in P.
  rewrite <- !app_assoc in P.
  set (rest := entries depth tab false m ++ LF :: z ++ "}"%char :: r) in *.
  assert (P0 : pos s off ((w ++ pad depth tab) ++ DQ :: k ++ DQ :: " "%char :: ":"%char :: " "%char :: dump D (S depth) tab v ++ rest)).
  { rewrite <- app_assoc. exact P. }
  pose proof (ws_app _ _ W (ws_pad depth tab TB)) as W0.
  pose proof (next_key _ s off k t _ W0 P0 Hk) as EK. rewrite app_length in EK.
  set (o1 := off + (length w + length (pad depth tab)) + length k + 2) in *.
  assert (P1 : pos s o1 ([" "%char] ++ ":"%char :: " "%char :: dump D (S depth) tab v ++ rest)).
  { pose proof (pos_app _ _ _ _ P0) as Q. apply pos_S in Q. apply pos_app in Q. apply pos_S in Q.
    rewrite app_length in Q. replace o1 with (S (S (off + (length w + length (pad depth tab))) + length k)) by (unfold o1; lia).
    exact Q. }
  pose proof (skip_spec [" "%char] s o1 _ P1 eq_refl eq_refl) as SK1. pose proof (pos_app _ _ _ _ P1) as P2.
  pose proof (pos_S _ _ _ _ P2) as P3.
  destruct Hs as (c & u & EC & NC & _).
  assert (SK2 : skip_whitespaces s (S (o1 + 1)) = Ok (S (o1 + 1) + 1)).
  { apply (skip_spec [" "%char] s _ (dump D (S depth) tab v ++ rest)); [exact P3|reflexivity|]. rewrite EC. exact NC. }
  pose proof (pos_S _ _ _ _ P3) as P4.
  assert (DR : delim rest).
  { intros _. unfold rest. destruct m as [|[k2 v2] m]; [split; [reflexivity|discriminate]|].
    cbn [entries]. rewrite <- !app_assoc. split; [reflexivity|discriminate]. }
  assert (NR : rest <> []) by apply not_nil_app.
  destruct (Hv [] s _ rest eq_refl P4 DR) as (f1 & e1 & E1 & L1). specialize (L1 NR). subst e1.
  pose proof (pos_app _ _ _ _ P4) as P5.
  assert (EN : forall f, Nat.max 1 f1 <= f ->
    obj_loop D (S f) s off acc =
      (off <- skip_whitespaces s (S (S (o1 + length [" "%char])) + length (dump D (S depth) tab v)) ;;
       c <- at_ s off ;;
       if Ascii.eqb c "," then obj_loop D f s (S off) (map_set acc (jsonEscape t) v')
       else if Ascii.eqb c "}" then Ok (JObj (map_set acc (jsonEscape t) v'), S off) else Err)).
  { intros f Lf. rewrite !obj_loop_S. rewrite (next_mono D 1 f s off _ EK) by lia. cbn [bind].
    rewrite SK1. cbn [bind]. rewrite (pos_at _ _ _ _ P2). cbn [bind]. change (Ascii.eqb ":" ":") with true. cbn iota.
    change (length [" "%char]) with 1. rewrite SK2. cbn [bind].
    replace (S (o1 + 1) + 1) with (S (S (o1 + length [" "%char]))) by (simpl; lia).
    rewrite (next_mono D f1 f s _ _ E1) by lia. cbn [bind]. change (length (@nil ascii)) with 0. rewrite Nat.add_0_r. reflexivity. }
  destruct m as [|kv2 m].
  - inversion Hl; subst. exists (S (Nat.max 1 f1)). rewrite EN by lia.
    assert (P5' : pos s (S (S (o1 + length [" "%char])) + length (dump D (S depth) tab v)) ((LF :: z) ++ "}"%char :: r)) by exact P5.
    rewrite (skip_spec (LF :: z) s _ _ P5' Z eq_refl). cbn [bind].
    rewrite (pos_at _ _ _ _ (pos_app _ _ _ _ P5')). cbn [bind]. ifs.
    cbn [insert_all fold_left fst snd entries]. rewrite app_nil_r. do 2 f_equal. unfold o1. cbn [app]. rewrite !app_length. simpl length.
    rewrite !app_length. simpl length. lia.
  - set (tail := kv2 :: m) in *.
    assert (Erest : rest = ","%char :: [LF] ++ entries depth tab true tail ++ LF :: z ++ "}"%char :: r).
    { unfold rest, tail. cbn [entries]. destruct kv2. rewrite <- !app_assoc. reflexivity. }
    assert (EI : length (entries depth tab false tail) = 2 + length (entries depth tab true tail)).
    { unfold tail. destruct kv2. cbn [entries]. rewrite !app_length. reflexivity. }
    assert (NT : tail <> []) by discriminate. clearbody rest tail.
    rewrite Erest in P5. pose proof (pos_S _ _ _ _ P5) as P6.
    destruct (IH depth tab b' (map_set acc (jsonEscape t) v') [LF] s _ z r NT eq_refl Z TB Hl P6) as (f2 & E2).
    exists (S (Nat.max (Nat.max 1 f1) f2)). rewrite EN by lia.
    rewrite (skip_none s _ _ P5 eq_refl). cbn [bind]. rewrite (pos_at _ _ _ _ P5). cbn [bind].
    change (Ascii.eqb "," ",") with true. cbn iota. rewrite (obj_mono D f2 _ s _ _ _ E2) by lia.
    cbn [insert_all fold_left fst snd]. do 2 f_equal. cbn [entries app]. rewrite !app_length. simpl length. rewrite !app_length.
    simpl length. rewrite !app_length, EI. unfold o1. lia.
Qed.
Lemma reads_obj depth tab m b : ws tab ->
  Forall2 (fun kv tv => key_reads (fst kv) (fst tv) /\ reads (dump D (S depth) tab (snd kv)) (snd tv)
     /\ starts (dump D (S depth) tab (snd kv))) m b ->
  reads (dump D depth tab (JObj m)) (JObj (insert_all [] b)).
Proof.
  intros TB H w s off r W P _. rewrite dump_obj in P |- *. set (z := skipn 2 (pad depth tab)) in *.
  assert (Z : ws z) by (apply ws_skipn, ws_pad; assumption). clearbody z.
  rewrite <- !app_assoc in P. cbn [app] in P. pose proof (pos_app _ _ _ _ P) as P1. pose proof (pos_S _ _ _ _ P1) as P2.
  destruct m as [|[k v] m].
  - inversion H; subst. exists 1. eexists. rewrite (next_at w s off _ _ 0 W P eq_refl). cbv zeta. ifs.
    cbn [entries app] in P2. assert (P2' : pos s (S (off + length w)) ((LF :: LF :: z) ++ "}"%char :: r)) by exact P2.
    rewrite (skip_spec (LF :: LF :: z) s _ _ P2' Z eq_refl). cbn [bind]. rewrite (pos_at _ _ _ _ (pos_app _ _ _ _ P2')). cbn [bind].
    change (Ascii.eqb "}" "}") with true. cbn iota. split; [reflexivity|]. intros _. cbn [entries app]. simpl length. rewrite app_length. simpl length. lia.
  - assert (P2' : pos s (S (off + length w)) ([LF] ++ entries depth tab true ((k, v) :: m) ++ LF :: z ++ "}"%char :: r)).
    { cbn [app] in P2 |- *. rewrite <- ?app_assoc in P2 |- *. exact P2. }
    assert (DQ1 : exists w' t', ws w' /\ pos s (S (off + length w)) ((LF :: w') ++ DQ :: t') /\ w' = pad depth tab).
    { exists (pad depth tab). cbn [entries app] in P2'. rewrite <- app_assoc in P2'. eexists. split; [apply ws_pad; assumption|].
      split; [|reflexivity]. exact P2'. }
    destruct DQ1 as (w' & t' & W' & PD & Ew').
    assert (SK : skip_whitespaces s (S (off + length w)) = Ok (S (off + length w) + length (LF :: w'))).
    { exact (skip_spec (LF :: w') s _ (DQ :: t') PD W' eq_refl). }
    pose proof (pos_app _ _ _ _ PD) as PD1.
    (* the loop started at the first quote behaves as started right after the brace *)
    assert (SL : forall f, obj_loop D (S (S f)) s (S (off + length w) + length (LF :: w')) [] =
                           obj_loop D (S (S f)) s (S (off + length w)) []).
    { intros f. rewrite !obj_loop_S. f_equal. cbn [parse_next]. rewrite SK.
      rewrite (skip_none s _ _ PD1 eq_refl). reflexivity. }
    destruct (obj_entries ((k, v) :: m) depth tab b [] [LF] s _ z r ltac:(discriminate) eq_refl Z TB H P2') as (f & E).
    exists (S (S (S f))). eexists. rewrite (next_at w s off _ _ _ W P eq_refl). cbv zeta.
    change (Ascii.eqb "{" "[") with false. change (Ascii.eqb "{" "{") with true. cbn iota.
    rewrite SK. cbn [bind]. rewrite (pos_at _ _ _ _ PD1). cbn [bind]. change (Ascii.eqb DQ "}") with false. cbn iota.
    rewrite SL, (obj_mono D f _ s _ _ _ E) by lia. split; [reflexivity|]. intros _. rewrite !app_length. simpl length.
    rewrite !app_length. simpl length. lia.
Qed.

Lemma insert_all_app m : forall acc b, increasing (map fst (acc ++ m)) ->
  Forall2 (fun kv tv => fst kv = jsonEscape (fst tv) /\ snd tv = snd kv) m b -> insert_all acc b = acc ++ m.
Proof.
  induction m as [|[k v] m IH]; intros acc b I H; inversion H as [|? [t v'] ? b' [Hk Hv] Hl]; subst; [now rewrite app_nil_r|].
  cbn [fst snd] in *. subst. cbn [insert_all fold_left fst snd]. change (fold_left _ b' _) with (insert_all (map_set acc (jsonEscape t) v) b').
  replace (acc ++ (jsonEscape t, v) :: m) with ((acc ++ [(jsonEscape t, v)]) ++ m) in I |- * by (rewrite <- app_assoc; reflexivity).
  rewrite map_set_snoc; [apply IH; assumption|].
  rewrite map_app in I. rewrite map_app in I. cbn [map fst] in I.
  assert (I' : forall l l', increasing (l ++ l') -> increasing l).
  { clear. induction l as [|a l IHl]; intros l' H; [exact Logic.I|]. change ((a :: l) ++ l') with (a :: l ++ l') in H.
    apply increasing_cons in H. destruct H as [H1 H2]. apply increasing_cons. split; [eauto|].
    intros b B. apply H2, in_or_app. now left. }
  apply I' in I. apply increasing_snoc in I. exact (proj2 I).
Qed.
Lemma reads_dump v : forall depth tab, ws tab -> value escaped (float_stable D) v -> reads (dump D depth tab v) v.
Proof.
  induction v as [|b|z|f|s|l IH|m IH] using json_ind2; intros depth tab TB V.
  - apply reads_null.
  - apply reads_bool.
  - apply reads_int. exact V.
  - apply reads_flt. exact V.
  - apply reads_str.
  - apply value_arr in V. apply reads_arr.
    + clear -IH V TB. induction l as [|v l IHl]; constructor; inversion IH; inversion V; subst; auto.
    + eapply Forall_impl; [|exact V]. intros v Hv. eapply starts_dump. exact Hv.
  - apply value_obj in V. destruct V as [I V].
    assert (B : exists b, Forall2 (fun kv tv => (key_reads (fst kv) (fst tv) /\ reads (dump D (S depth) tab (snd kv)) (snd tv)
       /\ starts (dump D (S depth) tab (snd kv))) /\ (fst kv = jsonEscape (fst tv) /\ snd tv = snd kv)) m b).
    { clear I. induction m as [|[k v] m IHm]; [exists []; constructor|]. inversion IH as [|? ? H1 H2]; inversion V as [|? ? [[t Ek] H3] H4]; subst.
      destruct (IHm H2 H4) as [b Hb]. exists ((t, v) :: b). constructor; [|assumption]. cbn [fst snd] in *. subst k.
      split; [|auto]. split; [apply key_escape|]. split; [auto|]. eapply starts_dump. exact H3. }
    destruct B as [b B].
    assert (E : insert_all [] b = m).
    { apply (insert_all_app m [] b I). eapply Forall2_impl; [|exact B]. simpl. tauto. }
    rewrite <- E at 2. apply reads_obj; [assumption|]. eapply Forall2_impl; [|exact B]. simpl. tauto.
Qed.
Lemma load_reads text v : reads text v -> loadJSON D text = Ok v.
Proof.
  intros R. destruct (R [] text 0 []) as (f & e & E & _); [reflexivity| |intros H; congruence|].
  - rewrite app_nil_r. apply pos_0.
  - exact (load_next D f text v e E).
Qed.
Lemma clamp_range z : in_int32 (clamp32 z) = true.
Proof. unfold in_int32, clamp32, int32_min, int32_max. lia. Qed.
Lemma parsed_value f : forall s,
  (forall off v e, parse_next D f s off = Ok (v, e) -> value escaped (fun _ => True) v) /\
  (forall off acc v e, value escaped (fun _ => True) (JObj acc) -> obj_loop D f s off acc = Ok (v, e) -> value escaped (fun _ => True) v) /\
  (forall off acc v e, value escaped (fun _ => True) (JArr acc) -> arr_loop D f s off acc = Ok (v, e) -> value escaped (fun _ => True) v).
Proof.
  induction f as [|f IH]; intros s; [split; [|split]; intros; discriminate|]. destruct (IH s) as (IN & IO & IA).
  split; [|split].
  - intros off v e. cbn [parse_next]. intros E.
    apply bind_ok in E. destruct E as (o1 & _ & E). apply bind_ok in E. destruct E as (c & _ & E).
    destruct (Ascii.eqb c "[").
    { apply bind_ok in E. destruct E as (o2 & _ & E). apply bind_ok in E. destruct E as (c2 & _ & E).
      destruct (Ascii.eqb c2 "]"); [injection E as <- <-; exact I|]. exact (IA o2 [] v e I E). }
    destruct (Ascii.eqb c "{").
    { apply bind_ok in E. destruct E as (o2 & _ & E). apply bind_ok in E. destruct E as (c2 & _ & E).
      destruct (Ascii.eqb c2 "}"); [injection E as <- <-; split; exact I|]. apply (IO o2 [] v e); [split; exact I|exact E]. }
    destruct (Ascii.eqb c DQ).
    { unfold parse_string in E. apply bind_ok in E. destruct E as ([val o2] & _ & E). injection E as <- <-. exact I. }
    destruct (Ascii.eqb c "t" || Ascii.eqb c "f").
    { unfold parse_bool in E. destruct (beq _ _); [injection E as <- <-; exact I|].
      destruct (beq _ _); [injection E as <- <-; exact I|discriminate]. }
    destruct (Ascii.eqb c "n").
    { unfold parse_null in E. destruct (beq _ _); [injection E as <- <-; exact I|discriminate]. }
    destruct (is_digit c || Ascii.eqb c "-"); [|discriminate].
    unfold parse_number in E. apply bind_ok in E. destruct E as ([[[val dbl] c1] o2] & _ & E).
    apply bind_ok in E. destruct E as ([[[es exp] c2] o3] & _ & E). injection E as <- _.
    destruct dbl, es; try exact I. apply clamp_range.
  - intros off acc v e A E. rewrite obj_loop_S in E. apply bind_ok in E. destruct E as ([key o1] & EK & E).
    apply bind_ok in E. destruct E as (o2 & _ & E). apply bind_ok in E. destruct E as (c & _ & E).
    destruct (Ascii.eqb c ":"); [|discriminate]. apply bind_ok in E. destruct E as (o3 & _ & E).
    apply bind_ok in E. destruct E as ([v1 o4] & EV & E). cbv zeta in E.
    apply bind_ok in E. destruct E as (o5 & _ & E). apply bind_ok in E. destruct E as (c2 & _ & E).
    assert (A' : value escaped (fun _ => True) (JObj (map_set acc (toString key) v1))).
    { apply value_obj in A. destruct A as [A1 A2]. apply value_obj. split; [now apply map_set_increasing|].
      apply map_set_all; [assumption|]. intros k' ->. cbn [fst snd]. split; [|exact (IN _ _ _ EV)].
      destruct key; simpl; try (exists []; reflexivity). eexists. reflexivity. }
    destruct (Ascii.eqb c2 ","); [exact (IO _ _ _ _ A' E)|].
    destruct (Ascii.eqb c2 "}"); [|discriminate]. injection E as <- <-. exact A'.
  - intros off acc v e A E. rewrite arr_loop_S in E.
    apply bind_ok in E. destruct E as ([v1 o4] & EV & E). cbv zeta in E.
    apply bind_ok in E. destruct E as (o5 & _ & E). apply bind_ok in E. destruct E as (c2 & _ & E).
    assert (A' : value escaped (fun _ => True) (JArr (acc ++ [v1]))).
    { apply value_arr. apply Forall_app. apply value_arr in A. split; [assumption|]. constructor; [|constructor]. exact (IN _ _ _ EV). }
    destruct (Ascii.eqb c2 ","); [exact (IA _ _ _ _ A' E)|].
    destruct (Ascii.eqb c2 "]"); [|discriminate]. injection E as <- <-. exact A'.
Qed.
Lemma load_value s v : loadJSON D s = Ok v -> value escaped (fun _ => True) v.
Proof.
  unfold loadJSON, omap. intros E. apply bind_ok in E. destruct E as ([v' e] & E & R). injection R as <-.
  exact (proj1 (parsed_value _ s) _ _ _ E).
Qed.
End Round.
Lemma value_and {F} (K1 K2 : bytes -> Prop) (L1 L2 : F -> Prop) v : value K1 L1 v -> value K2 L2 v ->
  value K1 L2 v.
Proof.
  induction v as [|b|z|f|s|l IH|m IH] using json_ind2; intros A B; auto.
  - apply value_arr in A. apply value_arr in B. apply value_arr.
    induction l as [|v l IHl]; constructor; inversion IH; inversion A; inversion B; subst; auto.
  - apply value_obj in A. apply value_obj in B. apply value_obj. destruct A as [A1 A2]. destruct B as [_ B2].
    split; [assumption|]. clear A1.
    induction m as [|v m IHm]; constructor; inversion IH; inversion A2; inversion B2; subst; [|auto].
    split; [tauto|]. match goal with H : _ -> _ -> value K1 L2 _ |- _ => apply H; tauto end.
Qed.
Lemma value_impl {F} (K1 K2 : bytes -> Prop) (L1 L2 : F -> Prop) v : (forall k, K1 k -> K2 k) -> (forall f, L1 f -> L2 f) ->
  value K1 L1 v -> value K2 L2 v.
Proof.
  intros HK HL. induction v as [|b|z|f|s|l IH|m IH] using json_ind2; intros A; auto.
  - now apply HL.
  - apply value_arr in A. apply value_arr.
    induction l as [|v l IHl]; constructor; inversion IH; inversion A; subst; auto.
  - apply value_obj in A. apply value_obj. destruct A as [A1 A2]. split; [assumption|]. clear A1.
    induction m as [|v m IHm]; constructor; inversion IH; inversion A2; subst; [|auto].
    split; [apply HK; tauto|]. match goal with H : _ -> value K2 L2 _ |- _ => apply H; tauto end.
Qed.
