(** loadJSON accepts exactly the loose grammar. *)
From Verif Require Import Base DecModel DecProofs JsonModel JsonSpec JsonProofs JsonRoundProofs JsonTextSpec JsonTextProofs JsonLooseSpec.
Local Open Scope nat_scope.

(** * Characters *)
(** a decidable fact about all 256 characters *)
Lemma all_ascii (P : ascii -> bool) : forallb P (map ascii_of_nat (seq 0 256)) = true -> forall c, P c = true.
Proof.
  intros H c. rewrite forallb_forall in H. apply H. rewrite <- (ascii_nat_embedding c). apply in_map, in_seq. pose proof (nat_ascii_bounded c). lia.
Qed.
Lemma space_iff c : space c <-> isspace c = true.
Proof.
  split.
  - intros H. repeat (destruct H as [<-|H]; [reflexivity|]). destruct H.
  - destruct c as [[][][][][][][][]]; intros H; try discriminate H; unfold space; simpl; tauto.
Qed.
Lemma spaces_iff w : spaces w <-> forallb isspace w = true.
Proof. unfold spaces. rewrite forallb_forall, Forall_forall. split; intros H c I; apply space_iff, H, I. Qed.
Lemma stop_iff c : stop c <-> delimiter c = true /\ c <> NUL.
Proof.
  unfold stop. rewrite space_iff. split.
  - intros [H|H]; [split; [unfold delimiter; now rewrite H|intros ->; discriminate]|]. simpl in H. repeat (destruct H as [<-|H]; [split; [reflexivity|discriminate]|]). destruct H.
  - intros [H N]. unfold delimiter in H. rewrite !orb_true_iff, !Ascii.eqb_eq in H. destruct H as [[[[H|H]|H]|H]|H]; [now left| | | |contradiction]; subst c; right; simpl; tauto.
Qed.
Lemma stops_iff r : stops r <-> delimiter (hd NUL r) = true /\ Ascii.eqb (hd NUL r) NUL = false.
Proof.
  split.
  - intros (c & r' & -> & H). apply stop_iff in H. destruct H as [H N]. cbn [hd]. split; [exact H|]. destruct (Ascii.eqb_spec c NUL); [contradiction|reflexivity].
  - intros [H N]. destruct r as [|c r]; [discriminate N|]. exists c, r. split; [reflexivity|]. apply stop_iff. split; [exact H|]. intros ->. discriminate N.
Qed.
Lemma nul_or_end_iff r : nul_or_end r <-> Ascii.eqb (hd NUL r) NUL = true.
Proof.
  split; [intros [->|(r' & ->)]; reflexivity|]. intros H. destruct r as [|c r]; [now left|]. apply Ascii.eqb_eq in H. cbn [hd] in H. subst c. right. now exists r.
Qed.
Lemma known_spec e c : In (e, c) known -> Ascii.eqb e "u" = false /\ unescape e = c.
Proof. intros I. simpl in I. repeat (destruct I as [I|I]; [injection I as <- <-; split; reflexivity|]). destruct I. Qed.
Lemma known_dec e : In (e, unescape e) known \/ (~ In e (map fst known) /\ unescape e = BSL).
Proof. destruct e as [[][][][][][][][]]; try (left; simpl; tauto); right; (split; [|reflexivity]); simpl; intuition discriminate. Qed.
Lemma unknown_spec e : ~ In e (map fst known) -> unescape e = BSL.
Proof. intros N. destruct (known_dec e) as [H|[_ H]]; [|exact H]. exfalso. apply N. now apply (in_map fst) in H. Qed.
Lemma hex_iff c : ishex c = true -> In c (str "0123456789abcdefABCDEF").
Proof. destruct c as [[][][][][][][][]]; intros H; try discriminate H; simpl; tauto. Qed.

(** * Strings *)
Lemma lchars_body b t : lchars b t -> forall f s off val r, pos s off (b ++ DQ :: r) -> length b < f ->
  str_loop f s off val = Ok (val ++ t, S (off + length b)).
Proof.
  assert (E1 : forall f s off val e b t r, pos s off (BSL :: e :: b ++ DQ :: r) -> Ascii.eqb e "u" = false -> length (BSL :: e :: b) < S f ->
    (forall val r, pos s (S (S off)) (b ++ DQ :: r) -> str_loop f s (S (S off)) val = Ok (val ++ t, S (S (S off) + length b))) ->
    str_loop (S f) s off val = Ok (val ++ unescape e :: t, S (off + length (BSL :: e :: b)))).
  { intros f s off val e b0 t0 r P U L IH. cbn [str_loop]. pose proof (pos_S _ _ _ _ P) as P1. rewrite (pos_at _ _ _ _ P). cbn [bind].
    change (Ascii.eqb BSL DQ) with false. change (Ascii.eqb BSL BSL) with true. cbv iota. rewrite (pos_at _ _ _ _ P1). cbn [bind]. rewrite U.
    rewrite (IH (val ++ [unescape e]) r (pos_S _ _ _ _ P1)). rewrite <- app_assoc. cbn [length app]. do 2 f_equal. lia. }
  induction 1 as [|c b t N1 N2 H IH|e c b t I H IH|e b t I N H IH|h b t L X H IH]; intros f s off val r P Lf; (destruct f as [|f]; [lia|]).
  - cbn [str_loop]. cbn [app] in P. rewrite (pos_at _ _ _ _ P). cbn [bind length]. change (Ascii.eqb DQ DQ) with true. cbv iota. now rewrite app_nil_r, Nat.add_0_r.
  - cbn [str_loop]. cbn [app] in P. rewrite (pos_at _ _ _ _ P). cbn [bind]. destruct (Ascii.eqb_spec c DQ); [contradiction|]. destruct (Ascii.eqb_spec c BSL); [contradiction|].
    cbn [length] in Lf |- *. rewrite (IH f s (S off) (val ++ [c]) r (pos_S _ _ _ _ P)) by lia. rewrite <- app_assoc. do 2 f_equal. lia.
  - destruct (known_spec _ _ I) as [U <-]. apply (E1 f s off val e b t r P U Lf). intros v' r' P'. apply IH with (r := r'); [exact P'|cbn [length] in Lf; lia].
  - change ("092"%char :: t) with (BSL :: t). rewrite <- (unknown_spec e I). apply (E1 f s off val e b t r P).
    + destruct (Ascii.eqb_spec e "u"); [contradiction|reflexivity].
    + exact Lf.
    + intros v' r' P'. apply IH with (r := r'); [exact P'|cbn [length] in Lf; lia].
  - cbn [str_loop]. cbn [app] in P. rewrite <- app_assoc in P. pose proof (pos_S _ _ _ _ P) as P1. pose proof (pos_S _ _ _ _ P1) as P2. pose proof (pos_app _ _ _ _ P2) as P3.
    rewrite (pos_at _ _ _ _ P). cbn [bind].
    change (Ascii.eqb "092" DQ) with false. change (Ascii.eqb "092" BSL) with true. cbv iota. rewrite (pos_at _ _ _ _ P1). cbn [bind].
    change (Ascii.eqb "u" "u") with true. cbv iota. pose proof (hex_loop_spec h s (S (S off)) (val ++ [BSL; "u"%char]) _ (hex_chars h X) P2) as EH.
    rewrite L in EH. rewrite EH. cbn [bind]. cbn [length] in Lf |- *. rewrite app_length in *. replace (off + 6) with (S (S off) + length h) by lia.
    rewrite (IH f s _ _ r P3) by lia. rewrite <- !app_assoc. do 2 f_equal. lia.
Qed.
Lemma str_sound f : forall s off val r v e, pos s off r -> str_loop f s off val = Ok (v, e) ->
  exists b t r', r = b ++ DQ :: r' /\ lchars b t /\ v = val ++ t /\ pos s e r'.
Proof.
  induction f as [|f IH]; intros s off val r v e P E; [discriminate|]. cbn [str_loop] in E. pose proof (pos_len _ _ _ P) as PL.
  rewrite (pos_at_hd _ _ _ P) in E. cbn [bind] in E. destruct r as [|c r]; cbn [hd] in E.
  { exfalso. change (Ascii.eqb NUL DQ) with false in E. change (Ascii.eqb NUL BSL) with false in E. cbv iota in E. destruct f as [|f]; [discriminate|]. cbn [str_loop] in E. simpl in PL. rewrite at_oob in E by lia. discriminate. }
  pose proof (pos_S _ _ _ _ P) as P1. destruct (Ascii.eqb_spec c DQ) as [->|N1].
  { injection E as <- <-. exists [], [], r. split; [reflexivity|]. split; [constructor|]. split; [now rewrite app_nil_r|exact P1]. }
  destruct (Ascii.eqb_spec c BSL) as [->|N2].
  - rewrite (pos_at_hd _ _ _ P1) in E. cbn [bind] in E. destruct r as [|c2 r].
    { exfalso. cbn [hd] in E. change (Ascii.eqb NUL "u") with false in E. cbv iota in E. destruct f as [|f]; [discriminate|]. cbn [str_loop] in E. simpl in PL. rewrite at_oob in E by lia. discriminate. }
    cbn [hd] in E. pose proof (pos_S _ _ _ _ P1) as P2. cbn [length] in PL. destruct (Ascii.eqb_spec c2 "u") as [->|N3].
    + destruct (hex_out 4 s (S (S off)) (val ++ [BSL; "u"%char])) as [X|(h & X & A1 & A2 & A3 & r' & A4)]; [lia|rewrite X in E; discriminate|].
      rewrite X in E. cbn [bind] in E. pose proof (pos_det _ _ _ _ P2 A4) as ->.
      assert (P3 : pos s (off + 6) r') by (replace (off + 6) with (S (S off) + length h) by lia; now apply pos_app).
      destruct (IH _ _ _ _ _ _ P3 E) as (b & t & r2 & -> & C & -> & P4). exists (BSL :: "u"%char :: h ++ b), (BSL :: "u"%char :: h ++ t), r2.
      split; [cbn [app]; now rewrite <- app_assoc|]. split; [|split; [now rewrite <- !app_assoc|exact P4]].
      apply lc_unicode; [lia| |exact C]. intros c I. apply hex_iff. rewrite forallb_forall in A2. now apply A2.
    + destruct (IH _ _ _ _ _ _ P2 E) as (b & t & r2 & -> & C & -> & P4). exists (BSL :: c2 :: b), (unescape c2 :: t), r2.
      split; [reflexivity|]. split; [|split; [now rewrite <- app_assoc|exact P4]]. destruct (known_dec c2) as [K|[K ->]]; [now apply lc_escape|now apply lc_unknown].
  - destruct (IH _ _ _ _ _ _ P1 E) as (b & t & r2 & -> & C & -> & P4). exists (c :: b), (c :: t), r2. split; [reflexivity|]. split; [now apply lc_plain|]. split; [now rewrite <- app_assoc|exact P4].
Qed.

(** * Numbers *)
Lemma in_int32_iff z : in_int32 z = true <-> (int32_min <= z <= int32_max)%Z.
Proof. unfold in_int32. rewrite andb_true_iff, !Z.leb_le. reflexivity. Qed.
Lemma digit_prefix_spec t : exists u, t = digit_prefix t ++ u /\ forallb is_digit (digit_prefix t) = true /\ (forall c u', u = c :: u' -> is_digit c = false).
Proof.
  induction t as [|c t (u & E & A & B)]; [exists []; repeat split; discriminate|]. cbn [digit_prefix]. destruct (is_digit c) eqn:C.
  - exists u. cbn [app forallb]. rewrite C, <- E. repeat split; assumption.
  - exists (c :: t). repeat split. intros c' u' [= <- <-]. exact C.
Qed.
Lemma digit_prefix_app ds u : forallb is_digit ds = true -> (forall c u', u = c :: u' -> is_digit c = false) -> digit_prefix (ds ++ u) = ds.
Proof.
  intros A B. induction ds as [|c ds IH]; cbn [app].
  - destruct u as [|c u]; [reflexivity|]. cbn [digit_prefix]. now rewrite (B c u eq_refl).
  - cbn [forallb] in A. apply andb_true_iff in A. destruct A as [A1 A2]. cbn [digit_prefix]. rewrite A1. now rewrite IH.
Qed.
Lemma leading_iff n z : run n -> (leading n z <-> z = scan_Z n).
Proof.
  intros (c & t & -> & C & _). split.
  - intros (neg & ds & u & E & A & N & B & ->). destruct neg; cbn [sign app] in E.
    + injection E as -> ->. unfold scan_Z. change (Ascii.eqb "-" "-") with true. cbv iota. now rewrite digit_prefix_app.
    + rewrite E. unfold scan_Z. specialize (N eq_refl). destruct ds as [|d ds]; [congruence|]. cbn [app]. cbn [app] in E.
      assert (D : Ascii.eqb d "-" = false). { cbn [forallb] in A. apply andb_true_iff in A. destruct A as [A _]. destruct (Ascii.eqb_spec d "-") as [->|]; [discriminate|reflexivity]. }
      rewrite D. change (d :: ds ++ u) with ((d :: ds) ++ u). now rewrite digit_prefix_app.
  - intros ->. unfold scan_Z. destruct (Ascii.eqb_spec c "-") as [->|N].
    + destruct (digit_prefix_spec t) as (u & E & A & B). exists true, (digit_prefix t), u. cbn [sign app]. rewrite <- E. repeat split; try assumption. discriminate.
    + destruct C as [C|C]; [|contradiction]. destruct (digit_prefix_spec (c :: t)) as (u & E & A & B). exists false, (digit_prefix (c :: t)), u. cbn [sign]. rewrite app_nil_l, <- E.
      repeat split; try assumption. intros _. cbn [digit_prefix]. rewrite C. discriminate.
Qed.
Lemma has_dot_iff n : has_dot n = true <-> In "."%char n.
Proof.
  unfold has_dot. rewrite existsb_exists. split.
  - intros (x & I & E). apply Ascii.eqb_eq in E. now subst x.
  - intros I. exists "."%char. split; [exact I|reflexivity].
Qed.
Lemma clamp_same z : clamp z = clamp32 z.
Proof. reflexivity. Qed.
Section N.
Context {F : Type} (D : doubles F).
Definition pnum (n : bytes) : json F := if has_dot n then JFlt (f_scale D (f_read D n) 0) else JInt (scan_int n).
Lemma plain_iff n v : run n -> (plain_value D n v <-> v = pnum n).
Proof.
  intros R. unfold pnum. split.
  - intros [z N L|I]; [|now rewrite (proj2 (has_dot_iff n) I)]. apply leading_iff in L; [|exact R]. subst z.
    destruct (has_dot n) eqn:E; [exfalso; apply N; now apply has_dot_iff|reflexivity].
  - intros ->. destruct (has_dot n) eqn:E; [apply pv_float; now apply has_dot_iff|]. unfold scan_int. rewrite <- clamp_same. apply pv_int; [intros I; apply has_dot_iff in I; congruence|].
    now apply leading_iff.
Qed.
Definition pexp (n : bytes) (x : ascii) (ds : bytes) : outcome (json F) :=
  let es := (if Ascii.eqb x "-" then ["-"%char] else []) ++ ds in
  exp <- exp_value es ;; Ok (match has_dot n, es with false, [] => JInt (scan_int n) | _, _ => JFlt (f_scale D (f_read D n) exp) end).
Lemma exp_iff n x ds v : run n -> forallb is_digit ds = true -> (exp_result D n x ds v <-> pexp n x ds = Ok v).
Proof.
  intros R A. unfold pexp. destruct (Ascii.eqb_spec x "-") as [->|N].
  - cbn [app]. unfold exp_value. rewrite scan_Z_neg by exact A. unfold chk32. split.
    + intros [w N _ _|z _ -> B]; [congruence|]. change (Ascii.eqb "-" "-") with true. cbv iota.
      change (Ascii.eqb "-" "-") with true in B. cbv iota in B. rewrite (proj2 (in_int32_iff _)) by (unfold int32_min, int32_max; lia). cbn [bind]. now destruct (has_dot n).
    + destruct (in_int32 _) eqn:I; [|discriminate]. apply in_int32_iff in I. cbn [bind]. intros E. assert (E' : v = JFlt (f_scale D (f_read D n) (- dec_value ds))) by (destruct (has_dot n); congruence).
      subst v. apply ev_some; [now left|reflexivity|]. unfold int32_min, int32_max in I. lia.
  - cbn [app]. destruct ds as [|d ds].
    + cbn [exp_value scan_Z chk32 bind]. change (exp_value []) with (@Ok Z 0%Z). cbn [bind]. split.
      * intros [w _ _ P|z [H|H] _ _]; [|contradiction|contradiction]. apply (plain_iff n w R) in P. subst w. unfold pnum. now destruct (has_dot n).
      * intros E. apply ev_none; [exact N|reflexivity|]. apply (plain_iff n v R). unfold pnum. destruct (has_dot n); congruence.
    + unfold exp_value. rewrite scan_Z_digits by exact A. unfold chk32. split.
      * intros [w _ H _|z _ -> B]; [discriminate|]. destruct (Ascii.eqb_spec x "-"); [contradiction|].
        rewrite (proj2 (in_int32_iff _)) by (unfold int32_min, int32_max; lia). cbn [bind]. now destruct (has_dot n).
      * destruct (in_int32 _) eqn:I; [|discriminate]. apply in_int32_iff in I. cbn [bind]. intros E. assert (E' : v = JFlt (f_scale D (f_read D n) (dec_value (d :: ds)))) by (destruct (has_dot n); congruence).
        subst v. apply ev_some; [now right|destruct (Ascii.eqb_spec x "-"); [contradiction|reflexivity]|]. unfold int32_min, int32_max in I. lia.
Qed.
End N.

(** * Positions after a value *)
Definition after (s : bytes) (e : nat) (o : option bytes) : Prop := match o with Some r => pos s e r | None => e = S (length s) end.
Lemma run_chars n : run n -> forallb number_char n = true /\ n <> [].
Proof.
  intros (c & t & -> & C & T). split; [|discriminate]. cbn [forallb]. rewrite T, andb_true_r. destruct C as [C|C]; [unfold number_char; now rewrite C|subst c; reflexivity].
Qed.
Lemma number_char_delimiter c : delimiter c = true -> number_char c = false.
Proof.
  intros H. pose proof (all_ascii (fun c => implb (delimiter c) (negb (number_char c))) eq_refl c) as X. cbv beta in X. rewrite H in X. now destruct (number_char c).
Qed.
Lemma digit_delimiter c : delimiter c = true -> is_digit c = false.
Proof. intros H. apply number_char_delimiter in H. unfold number_char in H. now destruct (is_digit c). Qed.
Lemma e_iff e : In e (str "eE") <-> e = "e"%char \/ e = "E"%char.
Proof. simpl. intuition congruence. Qed.
Section P.
Context {F : Type} (D : doubles F).
Lemma number_sound s off c r v e : pos s off (c :: r) -> is_digit c || Ascii.eqb c "-" = true -> parse_number D s off = Ok (v, e) ->
  exists o, after s e o /\ loose D (c :: r) v o.
Proof.
  intros P C E. destruct (prefix_split number_char (c :: r) eq_refl) as (n & r' & En & W & N).
  assert (R : run n).
  { destruct n as [|c0 n]; [exfalso; cbn [app] in En; subst r'; cbn [hd] in N; unfold number_char in N; rewrite C in N; discriminate|]. injection En as <- _.
    exists c, n. cbn [forallb] in W. apply andb_true_iff in W. split; [reflexivity|]. split; [|apply W]. apply orb_true_iff in C. destruct C as [C|C]; [now left|right; now apply Ascii.eqb_eq]. }
  rewrite En in P |- *. pose proof (pos_len _ _ _ P) as L. rewrite app_length in L. destruct (run_chars n R) as [_ NE].
  destruct (delimiter (hd NUL r')) eqn:DL.
  - rewrite (number_plain D s off n r' P W N DL) in E. injection E as Ev Ee. assert (PV : plain_value D n v) by (apply (plain_iff D n v R); unfold pnum; congruence). subst e.
    destruct (Ascii.eqb (hd NUL r') NUL) eqn:Z.
    + destruct r' as [|c' r'].
      * exists None. split; [cbn; cbn [length] in L; lia|]. rewrite app_nil_r. now apply l_number_end.
      * cbn [hd] in Z. apply Ascii.eqb_eq in Z. subst c'. exists (Some r'). split; [exact (pos_S _ _ _ _ (pos_app _ _ _ _ P))|]. now apply l_number_nul.
    + exists (Some r'). split; [exact (pos_app _ _ _ _ P)|]. apply l_number; try assumption. now apply stops_iff.
  - destruct (Ascii.eqb (hd NUL r') "E" || Ascii.eqb (hd NUL r') "e") eqn:EE.
    + destruct r' as [|e0 r']; [discriminate EE|]. cbn [hd] in EE. assert (He : e0 = "e"%char \/ e0 = "E"%char) by (apply orb_true_iff in EE; rewrite !Ascii.eqb_eq in EE; tauto).
      destruct r' as [|x r'].
      { exfalso. unfold parse_number in E. rewrite (num_loop_spec n _ s off [] false [e0] P W N) in E by lia. cbn [bind hd] in E. rewrite EE in E. cbn [length] in L.
        destruct (Nat.eqb_spec (S (off + length n)) (length s)); [discriminate|lia]. }
      destruct (prefix_split is_digit r' eq_refl) as (ds & r4 & -> & Wd & Nd).
      rewrite (number_exp D s off n e0 x ds r4 P W He Wd Nd) in E. destruct (delimiter (hd NUL r4)) eqn:D4; [|discriminate].
      assert (EV : exp_result D n x ds v /\ e = off + length n + 2 + length ds - (if Ascii.eqb (hd NUL r4) NUL then 0 else 1)).
      { cbv zeta in E. pose proof (exp_iff D n x ds v R Wd) as X. unfold pexp in X. cbv zeta in X. destruct (exp_value _) as [z| | |]; cbn [bind] in E, X; try discriminate.
        injection E as E1 E2. split; [apply X; now rewrite E1|congruence]. }
      destruct EV as [EV ->]. pose proof (pos_app _ _ _ _ P) as P1. pose proof (pos_S _ _ _ _ P1) as P2. pose proof (pos_S _ _ _ _ P2) as P3. pose proof (pos_app _ _ _ _ P3) as P4.
      destruct (Ascii.eqb (hd NUL r4) NUL) eqn:Z.
      * exists (Some r4). split; [unfold after; replace (off + length n + 2 + length ds - 0) with (S (S (off + length n)) + length ds) by (clear; lia); exact P4|].
        apply l_exp_end; try assumption; [now apply e_iff|now apply nul_or_end_iff].
      * destruct (exists_last (l := x :: ds) ltac:(discriminate)) as (p & c0 & Ep). exists (Some (c0 :: r4)). split.
        -- unfold after. assert (P2' : pos s (S (off + length n)) (p ++ c0 :: r4)). { replace (p ++ c0 :: r4) with (x :: ds ++ r4); [exact P2|]. change (x :: ds ++ r4) with ((x :: ds) ++ r4). rewrite Ep. now rewrite <- app_assoc. }
           replace (off + length n + 2 + length ds - 1) with (S (off + length n) + length p); [exact (pos_app _ _ _ _ P2')|].
           apply (f_equal (@length ascii)) in Ep. rewrite app_length in Ep. cbn [length] in Ep. clear - Ep. lia.
        -- apply (l_exp D n e0 x ds p c0 v r4); try assumption; [now apply e_iff|apply stops_iff; now split].
    + exfalso. unfold parse_number in E. rewrite (num_loop_spec n _ s off [] false r' P W N) in E by lia. cbn [bind] in E. rewrite EE, DL in E. discriminate.
Qed.
Lemma number_complete s off n r v : run n -> pos s off (n ++ r) ->
  (stops r -> plain_value D n v -> exists e, after s e (Some r) /\ parse_number D s off = Ok (v, e)) /\
  (forall r', r = NUL :: r' -> plain_value D n v -> exists e, after s e (Some r') /\ parse_number D s off = Ok (v, e)) /\
  (r = [] -> plain_value D n v -> exists e, after s e None /\ parse_number D s off = Ok (v, e)).
Proof.
  intros R P. destruct (run_chars n R) as [W NE]. pose proof (pos_len _ _ _ P) as L. rewrite app_length in L. split; [|split].
  - intros H V. apply stops_iff in H. destruct H as [H Z]. apply (plain_iff D n v R) in V. subst v. rewrite (number_plain D s off n r P W (number_char_delimiter _ H) H). rewrite Z.
    eexists. split; [|reflexivity]. exact (pos_app _ _ _ _ P).
  - intros r' -> V. apply (plain_iff D n v R) in V. subst v. rewrite (number_plain D s off n (NUL :: r') P W eq_refl eq_refl). eexists. split; [|reflexivity]. exact (pos_S _ _ _ _ (pos_app _ _ _ _ P)).
  - intros -> V. apply (plain_iff D n v R) in V. subst v. rewrite (number_plain D s off n [] P W eq_refl eq_refl). eexists. split; [|reflexivity]. cbn. cbn [length] in L. lia.
Qed.
Lemma exp_complete s off n e0 x ds r v : run n -> In e0 (str "eE") -> forallb is_digit ds = true -> exp_result D n x ds v -> pos s off (n ++ e0 :: x :: ds ++ r) ->
  (forall p c, x :: ds = p ++ [c] -> stops r -> exists e, after s e (Some (c :: r)) /\ parse_number D s off = Ok (v, e)) /\
  (nul_or_end r -> exists e, after s e (Some r) /\ parse_number D s off = Ok (v, e)).
Proof.
  intros R He Wd V P. destruct (run_chars n R) as [W NE]. apply e_iff in He. apply (exp_iff D n x ds v R Wd) in V. unfold pexp in V. cbv zeta in V.
  pose proof (pos_app _ _ _ _ P) as P1. pose proof (pos_S _ _ _ _ P1) as P2. pose proof (pos_S _ _ _ _ P2) as P3. pose proof (pos_app _ _ _ _ P3) as P4. split.
  - intros p c Ep H. apply stops_iff in H. destruct H as [H Z]. rewrite (number_exp D s off n e0 x ds r P W He Wd (digit_delimiter _ H)), H, Z. cbv zeta.
    destruct (exp_value _) as [z| | |]; cbn [bind] in V |- *; try discriminate. injection V as V. rewrite V. eexists. split; [|reflexivity]. unfold after.
    assert (P2' : pos s (S (off + length n)) (p ++ c :: r)). { replace (p ++ c :: r) with (x :: ds ++ r); [exact P2|]. change (x :: ds ++ r) with ((x :: ds) ++ r). rewrite Ep. now rewrite <- app_assoc. }
    replace (off + length n + 2 + length ds - 1) with (S (off + length n) + length p); [exact (pos_app _ _ _ _ P2')|].
    apply (f_equal (@length ascii)) in Ep. rewrite app_length in Ep. cbn [length] in Ep. clear - Ep. lia.
  - intros H. apply nul_or_end_iff in H. assert (DL : delimiter (hd NUL r) = true) by (apply Ascii.eqb_eq in H; now rewrite H).
    rewrite (number_exp D s off n e0 x ds r P W He Wd (digit_delimiter _ DL)), DL, H. cbv zeta.
    destruct (exp_value _) as [z| | |]; cbn [bind] in V |- *; try discriminate. injection V as V. rewrite V. eexists. split; [|reflexivity]. unfold after.
    replace (off + length n + 2 + length ds - 0) with (S (S (off + length n)) + length ds) by (clear; lia). exact P4.
Qed.
End P.

(** * The parser *)
Scheme loose_mind := Minimality for loose Sort Prop
  with items_mind := Minimality for items Sort Prop
  with entries_mind := Minimality for entries Sort Prop.
Combined Scheme loose_mutind from loose_mind, items_mind, entries_mind.
Section Q.
Context {F : Type} (D : doubles F).
Lemma skip_inv s e o e' : after s e o -> skip_whitespaces s e = Ok e' ->
  exists w r, o = Some (w ++ r) /\ spaces w /\ pos s e' r /\ isspace (hd NUL r) = false.
Proof.
  intros A E. destruct o as [r|]; cbn in A.
  - destruct (prefix_split isspace r eq_refl) as (w & r' & -> & W & N). rewrite (skip_spec w s e r' A W N) in E. injection E as <-.
    exists w, r'. split; [reflexivity|]. split; [now apply spaces_iff|]. split; [exact (pos_app _ _ _ _ A)|exact N].
  - exfalso. subst e. unfold skip_whitespaces in E. replace (length s + 2) with (S (length s + 1)) in E by lia. cbn [skip_ws] in E. rewrite at_oob in E by lia. discriminate.
Qed.
Lemma loose_spaces w s v o : spaces w -> loose D s v o -> loose D (w ++ s) v o.
Proof. induction 1 as [|c w C W IH]; intros L; [exact L|]. cbn [app]. apply l_space; auto. Qed.
Lemma items_spaces w s l r : spaces w -> items D s l r -> items D (w ++ s) l r.
Proof. intros W [s0 v w0 r0 L S0|s0 v w0 s' l0 r0 L S0 I]; [apply i_last with w0|apply i_more with w0 s']; try assumption; now apply loose_spaces. Qed.
Lemma entries_spaces w s l r : spaces w -> entries D s l r -> entries D (w ++ s) l r.
Proof. intros W [s0 k w0 s1 v w' r0 L S0 L1 S1|s0 k w0 s1 v w' s2 ms r0 L S0 L1 S1 E]; [exact (n_last D _ _ _ _ _ _ _ (loose_spaces _ _ _ _ W L) S0 L1 S1)|exact (n_more D _ _ _ _ _ _ _ _ _ (loose_spaces _ _ _ _ W L) S0 L1 S1 E)]. Qed.
Lemma name_text (k : json F) : toString k = jsonEscape (name k).
Proof. now destruct k. Qed.
Lemma hd_is r c : Ascii.eqb (hd NUL r) c = true -> Ascii.eqb NUL c = false -> exists r', r = c :: r'.
Proof. intros E N. apply Ascii.eqb_neq in N. apply Ascii.eqb_eq in E. destruct r as [|x r]; cbn [hd] in E; [congruence|]. subst x. now exists r. Qed.
Lemma bind_ok {A B} (m : outcome A) (k : A -> outcome B) b : bind m k = Ok b -> exists a, m = Ok a /\ k a = Ok b.
Proof. destruct m; cbn [bind]; intros H; try discriminate. eauto. Qed.

Lemma sound f : forall s,
  (forall off r v e, pos s off r -> parse_next D f s off = Ok (v, e) -> exists o, after s e o /\ loose D r v o) /\
  (forall off r acc v e, pos s off r -> obj_loop D f s off acc = Ok (v, e) -> exists ms r', pos s e r' /\ entries D r ms r' /\ v = JObj (insert_all acc ms)) /\
  (forall off r acc v e, pos s off r -> arr_loop D f s off acc = Ok (v, e) -> exists l r', pos s e r' /\ items D r l r' /\ v = JArr (acc ++ l)).
Proof.
  induction f as [|f IH]; intros s; [split; [|split]; intros; discriminate|]. destruct (IH s) as (IN & IO & IA). clear IH. split; [|split].
  - intros off r v e P E. cbn [parse_next] in E. apply bind_ok in E. destruct E as (e1 & E1 & E).
    destruct (skip_inv s off (Some r) e1 P E1) as (w & r1 & Er & W & P1 & _). injection Er as ->.
    assert (G : exists o, after s e o /\ loose D r1 v o); [|destruct G as (o & A & L); exists o; split; [exact A|now apply loose_spaces]].
    rewrite (pos_at_hd _ _ _ P1) in E. cbn [bind] in E.
    destruct (Ascii.eqb (hd NUL r1) "[") eqn:C1.
    { destruct (hd_is _ _ C1 eq_refl) as [r2 ->]. pose proof (pos_S _ _ _ _ P1) as P2. apply bind_ok in E. destruct E as (e2 & E2 & E).
      destruct (skip_inv s _ (Some r2) e2 P2 E2) as (w2 & r3 & Er & W2 & P3 & _). injection Er as ->. rewrite (pos_at_hd _ _ _ P3) in E. cbn [bind] in E.
      destruct (Ascii.eqb (hd NUL r3) "]") eqn:C2.
      - destruct (hd_is _ _ C2 eq_refl) as [r4 ->]. injection E as <- <-. exists (Some r4). split; [exact (pos_S _ _ _ _ P3)|now apply l_array0].
      - destruct (IA _ _ _ _ _ P3 E) as (l & r' & P4 & I & ->). exists (Some r'). split; [exact P4|]. apply l_array. now apply items_spaces. }
    destruct (Ascii.eqb (hd NUL r1) "{") eqn:C2.
    { destruct (hd_is _ _ C2 eq_refl) as [r2 ->]. pose proof (pos_S _ _ _ _ P1) as P2. apply bind_ok in E. destruct E as (e2 & E2 & E).
      destruct (skip_inv s _ (Some r2) e2 P2 E2) as (w2 & r3 & Er & W2 & P3 & _). injection Er as ->. rewrite (pos_at_hd _ _ _ P3) in E. cbn [bind] in E.
      destruct (Ascii.eqb (hd NUL r3) "}") eqn:C3.
      - destruct (hd_is _ _ C3 eq_refl) as [r4 ->]. injection E as <- <-. exists (Some r4). split; [exact (pos_S _ _ _ _ P3)|now apply l_object0].
      - destruct (IO _ _ _ _ _ P3 E) as (ms & r' & P4 & I & ->). exists (Some r'). split; [exact P4|]. apply l_object with ms; [now apply entries_spaces|apply insert_all_last]. }
    destruct (Ascii.eqb (hd NUL r1) DQ) eqn:C3.
    { destruct (hd_is _ _ C3 eq_refl) as [r2 ->]. unfold parse_string in E. apply bind_ok in E. destruct E as ([t e2] & E2 & E). injection E as <- <-.
      destruct (str_sound _ _ _ _ _ _ _ (pos_S _ _ _ _ P1) E2) as (b & t' & r' & -> & L & -> & P3). exists (Some r'). split; [exact P3|now apply l_string]. }
    destruct (Ascii.eqb (hd NUL r1) "t" || Ascii.eqb (hd NUL r1) "f") eqn:C4.
    { unfold parse_bool in E. destruct (beq (substr s e1 4) (str "true")) eqn:B1.
      - injection E as <- <-. apply substr_len in B1; [|cbn; lia|reflexivity]. destruct B1 as (_ & r2 & P2). pose proof (pos_det _ _ _ _ P1 P2) as ->. exists (Some r2). split; [exact (pos_app _ _ (str "true") _ P2)|apply l_true].
      - destruct (beq (substr s e1 5) (str "false")) eqn:B2; [|discriminate]. injection E as <- <-. apply substr_len in B2; [|cbn; lia|reflexivity]. destruct B2 as (_ & r2 & P2). pose proof (pos_det _ _ _ _ P1 P2) as ->.
        exists (Some r2). split; [exact (pos_app _ _ (str "false") _ P2)|apply l_false]. }
    destruct (Ascii.eqb (hd NUL r1) "n") eqn:C5.
    { unfold parse_null in E. destruct (beq (substr s e1 4) (str "null")) eqn:B1; [|discriminate]. injection E as <- <-. apply substr_len in B1; [|cbn; lia|reflexivity]. destruct B1 as (_ & r2 & P2). pose proof (pos_det _ _ _ _ P1 P2) as ->.
      exists (Some r2). split; [exact (pos_app _ _ (str "null") _ P2)|apply l_null]. }
    destruct (is_digit (hd NUL r1) || Ascii.eqb (hd NUL r1) "-") eqn:C6; [|discriminate]. destruct r1 as [|c r1]; [discriminate C6|]. exact (number_sound D s e1 c r1 v e P1 C6 E).
  - intros off r acc v e P E. cbn [obj_loop] in E. apply bind_ok in E. destruct E as ([k e1] & E1 & E). destruct (IN _ _ _ _ P E1) as (o & A & L). clear E1.
    apply bind_ok in E. destruct E as (e2 & E2 & E). destruct (skip_inv s e1 o e2 A E2) as (w & r1 & -> & W & P1 & _). rewrite (pos_at_hd _ _ _ P1) in E. cbn [bind] in E.
    destruct (Ascii.eqb (hd NUL r1) ":") eqn:C1; [|discriminate]. destruct (hd_is _ _ C1 eq_refl) as [r2 ->].
    apply bind_ok in E. destruct E as (e3 & E3 & E). destruct (skip_inv s _ (Some r2) e3 (pos_S _ _ _ _ P1) E3) as (w1 & r3 & Er & W1 & P3 & _). injection Er as ->.
    apply bind_ok in E. destruct E as ([u e4] & E4 & E). destruct (IN _ _ _ _ P3 E4) as (o' & A' & L'). clear E4. cbv zeta in E.
    apply bind_ok in E. destruct E as (e5 & E5 & E). destruct (skip_inv s e4 o' e5 A' E5) as (w2 & r4 & -> & W2 & P4 & _). rewrite (pos_at_hd _ _ _ P4) in E. cbn [bind] in E.
    rewrite name_text in E. destruct (Ascii.eqb (hd NUL r4) ",") eqn:C2.
    + destruct (hd_is _ _ C2 eq_refl) as [r5 ->]. destruct (IO _ _ _ _ _ (pos_S _ _ _ _ P4) E) as (ms & r' & P5 & I & ->). exists ((name k, u) :: ms), r'. split; [exact P5|]. split; [|reflexivity].
      eapply n_more; [exact L|exact W| |exact W2|exact I]. now apply loose_spaces.
    + destruct (Ascii.eqb (hd NUL r4) "}") eqn:C3; [|discriminate]. destruct (hd_is _ _ C3 eq_refl) as [r5 ->]. injection E as <- <-. exists [(name k, u)], r5. split; [exact (pos_S _ _ _ _ P4)|]. split; [|reflexivity].
      eapply n_last; [exact L|exact W| |exact W2]. now apply loose_spaces.
  - intros off r acc v e P E. cbn [arr_loop] in E. apply bind_ok in E. destruct E as ([u e1] & E1 & E). destruct (IN _ _ _ _ P E1) as (o & A & L). clear E1. cbv zeta in E.
    apply bind_ok in E. destruct E as (e2 & E2 & E). destruct (skip_inv s e1 o e2 A E2) as (w & r1 & -> & W & P1 & _). rewrite (pos_at_hd _ _ _ P1) in E. cbn [bind] in E.
    destruct (Ascii.eqb (hd NUL r1) ",") eqn:C2.
    + destruct (hd_is _ _ C2 eq_refl) as [r5 ->]. destruct (IA _ _ _ _ _ (pos_S _ _ _ _ P1) E) as (l & r' & P5 & I & ->). exists (u :: l), r'. split; [exact P5|]. split; [|now rewrite <- app_assoc].
      eapply i_more; [exact L|exact W|exact I].
    + destruct (Ascii.eqb (hd NUL r1) "]") eqn:C3; [|discriminate]. destruct (hd_is _ _ C3 eq_refl) as [r5 ->]. injection E as <- <-. exists [u], r5. split; [exact (pos_S _ _ _ _ P1)|]. split; [|reflexivity].
      eapply i_last; [exact L|exact W].
Qed.
(** the first character behind the spaces *)
Lemma loose_first s v o : loose D s v o -> exists w c t, s = w ++ c :: t /\ spaces w /\ isspace c = false /\ c <> "]"%char /\ c <> "}"%char.
Proof.
  assert (G : forall n r, run n -> exists w c t, n ++ r = w ++ c :: t /\ spaces w /\ isspace c = false /\ c <> "]"%char /\ c <> "}"%char).
  { intros n r (c & t & -> & C & _). exists [], c, (t ++ r). split; [reflexivity|]. split; [constructor|].
    assert (X : number_char c = true) by (unfold number_char; destruct C as [-> | ->]; reflexivity). split; [|split; intros ->; discriminate].
    destruct (isspace c) eqn:S0; [|reflexivity]. exfalso. assert (DL : delimiter c = true) by (unfold delimiter; now rewrite S0). apply number_char_delimiter in DL. congruence. }
  induction 1 as [c s v o C L (w & c0 & t & -> & W & R)|r|r|r|b t r H|n v r R H|n v r R H|n v R H|n e x ds p c v r R|n e x ds v r R|w r W|s l r I|w r W|s ms m r I];
    try (exists []; do 2 eexists; split; [reflexivity|]; split; [constructor|]; split; [reflexivity|split; discriminate]); try (now apply G).
  - exists (c :: w), c0, t. split; [reflexivity|]. split; [now constructor|exact R].
  - destruct (G n [] R) as (w & c & t & E & X). rewrite app_nil_r in E. exists w, c, t. now split.
Qed.
Lemma items_first s l r : items D s l r -> exists w c t, s = w ++ c :: t /\ spaces w /\ isspace c = false /\ c <> "]"%char.
Proof. intros [s0 v w r0 L _|s0 v w s' l0 r0 L _ _]; destruct (loose_first _ _ _ L) as (w0 & c & t & E & W & N & N1 & _); now exists w0, c, t. Qed.
Lemma entries_first s l r : entries D s l r -> exists w c t, s = w ++ c :: t /\ spaces w /\ isspace c = false /\ c <> "}"%char.
Proof. intros [s0 k w s1 v w' r0 L _ _ _|s0 k w s1 v w' s2 ms r0 L _ _ _ _]; destruct (loose_first _ _ _ L) as (w0 & c & t & E & W & N & _ & N1); now exists w0, c, t. Qed.

Lemma skip_two s off c w r : pos s off (c :: w ++ r) -> spaces (c :: w) -> isspace (hd NUL r) = false ->
  skip_whitespaces s off = Ok (S off + length w) /\ skip_whitespaces s (S off) = Ok (S off + length w) /\ skip_whitespaces s (S off + length w) = Ok (S off + length w).
Proof.
  intros P W N. apply spaces_iff in W. pose proof (pos_S _ _ _ _ P) as P1. cbn [forallb] in W. pose proof W as W0. apply andb_true_iff in W0. destruct W0 as [_ W1].
  split; [|split].
  - rewrite (skip_spec (c :: w) s off r P W N). cbn [length]. f_equal. lia.
  - exact (skip_spec w s _ r P1 W1 N).
  - exact (skip_none s _ r (pos_app _ _ _ _ P1) N).
Qed.
Lemma loop_skip f s o o' : skip_whitespaces s o = Ok o' -> skip_whitespaces s o' = Ok o' ->
  (forall acc, arr_loop D f s o' acc = arr_loop D f s o acc) /\ (forall acc, obj_loop D f s o' acc = obj_loop D f s o acc).
Proof.
  intros A B. split; intros acc; (destruct f as [|f]; [reflexivity|]); rewrite ?arr_loop_S, ?obj_loop_S; now rewrite (next_skip D f s o o' A B).
Qed.
Lemma next_one s off c r g : pos s off (c :: r) -> isspace c = false -> parse_next D (S g) s off =
      if Ascii.eqb c "[" then
        off <- skip_whitespaces s (S off) ;;
        c <- at_ s off ;;
        if Ascii.eqb c "]" then Ok (JArr [], S off) else arr_loop D g s off []
      else if Ascii.eqb c "{" then
        off <- skip_whitespaces s (S off) ;;
        c <- at_ s off ;;
        if Ascii.eqb c "}" then Ok (JObj [], S off) else obj_loop D g s off []
      else if Ascii.eqb c DQ then parse_string s off
      else if Ascii.eqb c "t" || Ascii.eqb c "f" then parse_bool s off
      else if Ascii.eqb c "n" then parse_null s off
      else if is_digit c || Ascii.eqb c "-" then parse_number D s off
      else Err.
Proof. intros P N. cbn [parse_next]. rewrite (skip_none s off (c :: r) P N). cbn [bind]. rewrite (pos_at _ _ _ _ P). reflexivity. Qed.
Lemma next_number s off n r : run n -> pos s off (n ++ r) -> parse_next D 1 s off = parse_number D s off.
Proof.
  intros (c & t & -> & C & _) P. cbn [app] in P. assert (NC : number_char c = true) by (unfold number_char; destruct C as [-> | ->]; reflexivity).
  assert (NS : isspace c = false). { destruct (isspace c) eqn:S0; [|reflexivity]. exfalso. assert (DL : delimiter c = true) by (unfold delimiter; now rewrite S0). apply number_char_delimiter in DL. congruence. }
  rewrite (next_one s off c _ 0 P NS).
  pose proof (all_ascii (fun c => implb (is_digit c || Ascii.eqb c "-") (negb (Ascii.eqb c "[" || Ascii.eqb c "{" || Ascii.eqb c DQ || (Ascii.eqb c "t" || Ascii.eqb c "f") || Ascii.eqb c "n"))) eq_refl c) as X.
  cbv beta in X. assert (C' : is_digit c || Ascii.eqb c "-" = true) by (destruct C as [C|C]; [now rewrite C|subst c; reflexivity]). rewrite C' in X |- *. cbn [implb] in X.
  apply negb_true_iff in X. apply orb_false_iff in X. destruct X as [X X5]. apply orb_false_iff in X. destruct X as [X X4]. apply orb_false_iff in X. destruct X as [X X3]. apply orb_false_iff in X. destruct X as [X1 X2].
  now rewrite X1, X2, X3, X4, X5.
Qed.
Lemma pos_substr s off t r : pos s off (t ++ r) -> beq (substr s off (length t)) t = true.
Proof.
  intros P. unfold beq, substr. rewrite (pos_skip _ _ _ P), firstn_app, Nat.sub_diag, firstn_all, firstn_O, app_nil_r. destruct (list_eq_dec _ _ _); [reflexivity|contradiction].
Qed.

Lemma complete :
  (forall r v o, loose D r v o -> forall s off, pos s off r -> exists f e, after s e o /\ parse_next D f s off = Ok (v, e)) /\
  (forall r l r', items D r l r' -> forall s off acc, pos s off r -> exists f e, pos s e r' /\ arr_loop D f s off acc = Ok (JArr (acc ++ l), e)) /\
  (forall r ms r', entries D r ms r' -> forall s off acc, pos s off r -> exists f e, pos s e r' /\ obj_loop D f s off acc = Ok (JObj (insert_all acc ms), e)).
Proof.
  apply loose_mutind.
  - intros c r v o C L IH s off P. destruct (loose_first _ _ _ L) as (w & c0 & t & -> & W & N & _).
    destruct (skip_two s off c w (c0 :: t) P (Forall_cons _ C W) N) as (A1 & A2 & A3). destruct (IH s (S off) (pos_S _ _ _ _ P)) as (f & e & A & E). exists f, e. split; [exact A|].
    rewrite <- (next_skip D f s off _ A1 A3). rewrite (next_skip D f s (S off) _ A2 A3). exact E.
  - intros r s off P. exists 1, (off + 4). split; [exact (pos_app _ _ (str "null") _ P)|]. rewrite (next_one s off "n"%char _ 0 P eq_refl). change (@parse_null F s off = Ok (JNull, off + 4)). unfold parse_null. pose proof (pos_substr _ _ _ _ P) as X. change (beq (substr s off 4) (str "null") = true) in X. now rewrite X.
  - intros r s off P. exists 1, (off + 4). split; [exact (pos_app _ _ (str "true") _ P)|]. rewrite (next_one s off "t"%char _ 0 P eq_refl). change (@parse_bool F s off = Ok (JBool true, off + 4)). unfold parse_bool. pose proof (pos_substr _ _ _ _ P) as X. change (beq (substr s off 4) (str "true") = true) in X. now rewrite X.
  - intros r s off P. exists 1, (off + 5). split; [exact (pos_app _ _ (str "false") _ P)|]. rewrite (next_one s off "f"%char _ 0 P eq_refl). change (@parse_bool F s off = Ok (JBool false, off + 5)). unfold parse_bool.
    pose proof (pos_substr _ _ _ _ P) as X. change (beq (substr s off 5) (str "false") = true) in X. rewrite X. destruct (beq (substr s off 4) (str "true")) eqn:B; [|reflexivity].
    exfalso. apply substr_len in B; [|cbn; lia|reflexivity]. destruct B as (_ & r2 & P2). pose proof (pos_det _ _ _ _ P P2) as B. discriminate B.
  - intros b t r H s off P. exists 1, (S (S off + length b)). split; [exact (pos_S _ _ _ _ (pos_app _ _ _ _ (pos_S _ _ _ _ P)))|]. rewrite (next_one s off "034"%char _ 0 P eq_refl). change (@parse_string F s off = Ok (JStr t, S (S off + length b))). unfold parse_string.
    pose proof (pos_len _ _ _ P) as L. cbn [length] in L. rewrite app_length in L. rewrite (lchars_body b t H _ s (S off) [] r (pos_S _ _ _ _ P)) by lia. reflexivity.
  - intros n v r R V H s off P. destruct (proj1 (number_complete D s off n r v R P) H V) as (e & A & E). exists 1, e. split; [exact A|]. now rewrite (next_number s off n r R P).
  - intros n v r R V s off P. destruct (proj1 (proj2 (number_complete D s off n _ v R P)) r eq_refl V) as (e & A & E). exists 1, e. split; [exact A|]. now rewrite (next_number s off n _ R P).
  - intros n v R V s off P. rewrite <- (app_nil_r n) in P. destruct (proj2 (proj2 (number_complete D s off n _ v R P)) eq_refl V) as (e & A & E). exists 1, e. split; [exact A|]. now rewrite (next_number s off n _ R P).
  - intros n e0 x ds p c v r R He Wd Ep V H s off P. destruct (proj1 (exp_complete D s off n e0 x ds r v R He Wd V P) p c Ep H) as (e & A & E). exists 1, e. split; [exact A|]. now rewrite (next_number s off n _ R P).
  - intros n e0 x ds v r R He Wd V H s off P. destruct (proj2 (exp_complete D s off n e0 x ds r v R He Wd V P) H) as (e & A & E). exists 1, e. split; [exact A|]. now rewrite (next_number s off n _ R P).
  - intros w r W s off P. apply spaces_iff in W. pose proof (pos_S _ _ _ _ P) as P1. exists 1, (S (S off + length w)). split; [exact (pos_S _ _ _ _ (pos_app _ _ _ _ P1))|].
    rewrite (next_one s off "["%char _ 0 P eq_refl). change (Ascii.eqb "[" "[") with true. cbv iota. rewrite (skip_spec w s _ _ P1 W eq_refl). cbn [bind]. rewrite (pos_at _ _ _ _ (pos_app _ _ _ _ P1)). reflexivity.
  - intros r l r' I IH s off P. pose proof (pos_S _ _ _ _ P) as P1. destruct (items_first _ _ _ I) as (w & c & t & -> & W & N & N1). apply spaces_iff in W. destruct (IH s (S off) [] P1) as (f & e & A & E).
    exists (S f), e. split; [exact A|]. rewrite (next_one s off "["%char _ f P eq_refl). change (Ascii.eqb "[" "[") with true. cbv iota. rewrite (skip_spec w s _ (c :: t) P1 W N). cbn [bind]. pose proof (pos_app _ _ _ _ P1) as P2. rewrite (pos_at _ _ _ _ P2). cbn [bind].
    destruct (Ascii.eqb_spec c "]") as [->|]; [contradiction|]. rewrite (proj1 (loop_skip f s (S off) _ (skip_spec w s _ (c :: t) P1 W N) (skip_none s _ _ P2 N))). exact E.
  - intros w r W s off P. apply spaces_iff in W. pose proof (pos_S _ _ _ _ P) as P1. exists 1, (S (S off + length w)). split; [exact (pos_S _ _ _ _ (pos_app _ _ _ _ P1))|].
    rewrite (next_one s off "{"%char _ 0 P eq_refl). change (Ascii.eqb "{" "[") with false. change (Ascii.eqb "{" "{") with true. cbv iota. rewrite (skip_spec w s _ _ P1 W eq_refl). cbn [bind]. rewrite (pos_at _ _ _ _ (pos_app _ _ _ _ P1)). reflexivity.
  - intros r ms m r' I IH LW s off P. apply last_wins_unique in LW. subst m. pose proof (pos_S _ _ _ _ P) as P1. destruct (entries_first _ _ _ I) as (w & c & t & -> & W & N & N1). apply spaces_iff in W. destruct (IH s (S off) [] P1) as (f & e & A & E).
    exists (S f), e. split; [exact A|]. rewrite (next_one s off "{"%char _ f P eq_refl). change (Ascii.eqb "{" "[") with false. change (Ascii.eqb "{" "{") with true. cbv iota. rewrite (skip_spec w s _ (c :: t) P1 W N). cbn [bind]. pose proof (pos_app _ _ _ _ P1) as P2. rewrite (pos_at _ _ _ _ P2). cbn [bind].
    destruct (Ascii.eqb_spec c "}") as [->|]; [contradiction|]. rewrite (proj2 (loop_skip f s (S off) _ (skip_spec w s _ (c :: t) P1 W N) (skip_none s _ _ P2 N))). exact E.
  - intros r v w r' L IH W s off acc P. apply spaces_iff in W. destruct (IH s off P) as (f & e & A & E). cbn [after] in A. pose proof (pos_app _ _ _ _ A) as P1. exists (S f), (S (e + length w)). split; [exact (pos_S _ _ _ _ P1)|].
    rewrite arr_loop_S. rewrite E. cbn [bind]. rewrite (skip_spec w s e _ A W eq_refl). cbn [bind]. rewrite (pos_at _ _ _ _ P1). reflexivity.
  - intros r v w r1 l r' L IH W I IHI s off acc P. apply spaces_iff in W. destruct (IH s off P) as (f & e & A & E). cbn [after] in A. pose proof (pos_app _ _ _ _ A) as P1.
    destruct (IHI s (S (e + length w)) (acc ++ [v]) (pos_S _ _ _ _ P1)) as (f2 & e2 & A2 & E2). exists (S (f + f2)), e2. split; [exact A2|].
    rewrite arr_loop_S. rewrite (next_mono D f (f + f2) s off _ E) by lia. cbn [bind]. rewrite (skip_spec w s e _ A W eq_refl). cbn [bind]. rewrite (pos_at _ _ _ _ P1). cbn [bind].
    change (Ascii.eqb "," ",") with true. cbv iota. rewrite (arr_mono D f2 (f + f2) s _ _ _ E2) by lia. now rewrite <- app_assoc.
  - intros r k w r1 v w' r' L IH W L1 IH1 W' s off acc P. apply spaces_iff in W, W'. destruct (IH s off P) as (f & e & A & E). cbn [after] in A. pose proof (pos_app _ _ _ _ A) as P1. pose proof (pos_S _ _ _ _ P1) as P2.
    destruct (loose_first _ _ _ L1) as (w1 & c & t & -> & W1 & N & _). apply spaces_iff in W1. pose proof (pos_app _ _ _ _ P2) as P3.
    destruct (IH1 s _ P2) as (f1 & e1 & A1 & E1). cbn [after] in A1. pose proof (pos_app _ _ _ _ A1) as P4.
    exists (S (f + f1)), (S (e1 + length w')). split; [exact (pos_S _ _ _ _ P4)|]. rewrite obj_loop_S. rewrite (next_mono D f (f + f1) s off _ E) by lia. cbn [bind]. rewrite (skip_spec w s e _ A W eq_refl). cbn [bind]. rewrite (pos_at _ _ _ _ P1). cbn [bind].
    change (Ascii.eqb ":" ":") with true. cbv iota. rewrite (skip_spec w1 s _ (c :: t) P2 W1 N). cbn [bind].
    rewrite (next_skip D (f + f1) s _ _ (skip_spec w1 s _ (c :: t) P2 W1 N) (skip_none s _ _ P3 N)). rewrite (next_mono D f1 (f + f1) s _ _ E1) by lia. cbn [bind]. cbv zeta.
    rewrite (skip_spec w' s e1 _ A1 W' eq_refl). cbn [bind]. rewrite (pos_at _ _ _ _ P4). cbn [bind]. rewrite name_text. reflexivity.
  - intros r k w r1 v w' r2 ms r' L IH W L1 IH1 W' I IHI s off acc P. apply spaces_iff in W, W'. destruct (IH s off P) as (f & e & A & E). cbn [after] in A. pose proof (pos_app _ _ _ _ A) as P1. pose proof (pos_S _ _ _ _ P1) as P2.
    destruct (loose_first _ _ _ L1) as (w1 & c & t & -> & W1 & N & _). apply spaces_iff in W1. pose proof (pos_app _ _ _ _ P2) as P3.
    destruct (IH1 s _ P2) as (f1 & e1 & A1 & E1). cbn [after] in A1. pose proof (pos_app _ _ _ _ A1) as P4.
    destruct (IHI s _ (map_set acc (jsonEscape (name k)) v) (pos_S _ _ _ _ P4)) as (f2 & e2 & A2 & E2).
    exists (S (f + f1 + f2)), e2. split; [exact A2|]. rewrite obj_loop_S. rewrite (next_mono D f (f + f1 + f2) s off _ E) by lia. cbn [bind]. rewrite (skip_spec w s e _ A W eq_refl). cbn [bind]. rewrite (pos_at _ _ _ _ P1). cbn [bind].
    change (Ascii.eqb ":" ":") with true. cbv iota. rewrite (skip_spec w1 s _ (c :: t) P2 W1 N). cbn [bind].
    rewrite (next_skip D (f + f1 + f2) s _ _ (skip_spec w1 s _ (c :: t) P2 W1 N) (skip_none s _ _ P3 N)). rewrite (next_mono D f1 (f + f1 + f2) s _ _ E1) by lia. cbn [bind]. cbv zeta.
    rewrite (skip_spec w' s e1 _ A1 W' eq_refl). cbn [bind]. rewrite (pos_at _ _ _ _ P4). cbn [bind]. rewrite name_text.
    change (Ascii.eqb "," ",") with true. cbv iota. rewrite (obj_mono D f2 (f + f1 + f2) s _ _ _ E2) by lia. reflexivity.
Qed.
Lemma load_iff s v : loadJSON D s = Ok v <-> exists o, loose D s v o.
Proof.
  split.
  - intros E. unfold loadJSON, omap in E. apply bind_ok in E. destruct E as ([v' e] & E & E'). injection E' as <-. destruct (proj1 (sound _ s) 0 s v' e (pos_0 s) E) as (o & _ & L). now exists o.
  - intros (o & L). destruct (proj1 complete s v o L s 0 (pos_0 s)) as (f & e & _ & E). exact (load_next D f s v e E).
Qed.
Lemma plain_number n v : plain_value D n v -> (exists z, v = JInt z) \/ (exists d, v = JFlt d).
Proof. intros [z _ _|_]; eauto. Qed.
Lemma exp_number n x ds v : exp_result D n x ds v -> (exists z, v = JInt z) \/ (exists d, v = JFlt d).
Proof. intros [u _ _ P|z _ _ _]; [exact (plain_number _ _ P)|eauto]. Qed.
Definition closed (v : json F) : Prop := (forall z, v <> JInt z) /\ (forall d, v <> JFlt d).
Lemma closed_plain n v : closed v -> plain_value D n v -> False.
Proof. intros (A & B) P. destruct (plain_number _ _ P) as [[z E]|[d E]]; [now apply (A z)|now apply (B d)]. Qed.
Lemma closed_exp n x ds v : closed v -> exp_result D n x ds v -> False.
Proof. intros (A & B) P. destruct (exp_number _ _ _ _ P) as [[z E]|[d E]]; [now apply (A z)|now apply (B d)]. Qed.
Lemma appended x :
  (forall s v o, loose D s v o -> (closed v -> exists r, o = Some r) /\ forall r, o = Some r -> r <> [] \/ closed v -> loose D (s ++ x) v (Some (r ++ x))) /\
  (forall s l r, items D s l r -> items D (s ++ x) l (r ++ x)) /\
  (forall s ms r, entries D s ms r -> entries D (s ++ x) ms (r ++ x)).
Proof.
  assert (NE : forall (w : bytes) c r, w ++ c :: r <> []) by (intros [|? ?] ? ?; discriminate).
  apply loose_mutind.
  - intros c s v o C L (IH1 & IH2). split; [exact IH1|]. intros r E H. exact (l_space D _ _ _ _ C (IH2 r E H)).
  - intros r. split; [eauto|]. intros r' E _. injection E as <-. rewrite <- app_assoc. apply l_null.
  - intros r. split; [eauto|]. intros r' E _. injection E as <-. rewrite <- app_assoc. apply l_true.
  - intros r. split; [eauto|]. intros r' E _. injection E as <-. rewrite <- app_assoc. apply l_false.
  - intros b t r H. split; [eauto|]. intros r' E _. injection E as <-. cbn [app]. rewrite <- app_assoc. exact (l_string D b t (r ++ x) H).
  - intros n v r R V S0. split; [eauto|]. intros r' E _. injection E as <-. rewrite <- app_assoc. apply l_number; [exact R|exact V|]. destruct S0 as (c & t & -> & S0). exists c, (t ++ x). now split.
  - intros n v r R V. split; [eauto|]. intros r' E _. injection E as <-. rewrite <- app_assoc. exact (l_number_nul D n v (r ++ x) R V).
  - intros n v R V. split; [intros C; destruct (closed_plain _ _ C V)|]. intros r E. discriminate.
  - intros n e y ds p c v r R He Wd Ep V S0. split; [eauto|]. intros r' E _. injection E as <-. rewrite <- app_assoc. cbn [app]. rewrite <- app_assoc.
    apply (l_exp D n e y ds p c v (r ++ x) R He Wd Ep V). destruct S0 as (c0 & t & -> & S0). exists c0, (t ++ x). now split.
  - intros n e y ds v r R He Wd V H. split; [eauto|]. intros r' E [N|C]; [|destruct (closed_exp _ _ _ _ C V)]. injection E as <-. rewrite <- app_assoc. cbn [app]. rewrite <- app_assoc.
    apply (l_exp_end D n e y ds v (r ++ x) R He Wd V). destruct H as [->|(t & ->)]; [contradiction|]. right. now exists (t ++ x).
  - intros w r W. split; [eauto|]. intros r' E _. injection E as <-. cbn [app]. rewrite <- app_assoc. exact (l_array0 D w (r ++ x) W).
  - intros s l r I IH. split; [eauto|]. intros r' E _. injection E as <-. exact (l_array D _ _ _ IH).
  - intros w r W. split; [eauto|]. intros r' E _. injection E as <-. cbn [app]. rewrite <- app_assoc. exact (l_object0 D w (r ++ x) W).
  - intros s ms m r I IH LW. split; [eauto|]. intros r' E _. injection E as <-. exact (l_object D _ _ _ _ IH LW).
  - intros s v w r L (_ & IH) W. specialize (IH _ eq_refl (or_introl (NE _ _ _))). rewrite <- app_assoc in IH. exact (i_last D _ _ _ _ IH W).
  - intros s v w s' l r L (_ & IH) W I IHI. specialize (IH _ eq_refl (or_introl (NE _ _ _))). rewrite <- app_assoc in IH. exact (i_more D _ _ _ _ _ _ IH W IHI).
  - intros s k w s1 v w' r L (_ & IH) W L1 (_ & IH1) W'. specialize (IH _ eq_refl (or_introl (NE _ _ _))). specialize (IH1 _ eq_refl (or_introl (NE _ _ _))). rewrite <- app_assoc in IH, IH1. exact (n_last D _ _ _ _ _ _ _ IH W IH1 W').
  - intros s k w s1 v w' s2 ms r L (_ & IH) W L1 (_ & IH1) W' I IHI. specialize (IH _ eq_refl (or_introl (NE _ _ _))). specialize (IH1 _ eq_refl (or_introl (NE _ _ _))). rewrite <- app_assoc in IH, IH1. exact (n_more D _ _ _ _ _ _ _ _ _ IH W IH1 W' IHI).
Qed.
Lemma loose_appended s v o x : loose D s v o -> (forall z, v <> JInt z) -> (forall d, v <> JFlt d) -> exists o', loose D (s ++ x) v o'.
Proof. intros L A B. destruct (proj1 (appended x) s v o L) as (H1 & H2). destruct (H1 (conj A B)) as (r & ->). exists (Some (r ++ x)). apply H2; [reflexivity|right; now split]. Qed.
End Q.
