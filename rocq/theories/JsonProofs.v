(** Proofs about the JSON parser and printer. *)
From Verif Require Import Base DecModel DecProofs JsonModel JsonSpec.
Local Open Scope nat_scope.

(** * Positions *)
Definition pos (s : bytes) (off : nat) (r : bytes) : Prop := exists p, s = p ++ r /\ off = length p.
Lemma pos_0 s : pos s 0 s.
Proof. exists []. auto. Qed.
Lemma pos_at s off c r : pos s off (c :: r) -> at_ s off = Ok c.
Proof. intros (p & -> & ->). unfold at_. rewrite nth_error_app2, Nat.sub_diag by lia. reflexivity. Qed.
Lemma pos_end s off : pos s off [] -> at_ s off = Ok NUL.
Proof.
  intros (p & -> & ->). unfold at_. rewrite app_nil_r, (proj2 (nth_error_None _ _)) by lia.
  now rewrite Nat.eqb_refl.
Qed.
Lemma pos_app s off a r : pos s off (a ++ r) -> pos s (off + length a) r.
Proof. intros (p & -> & ->). exists (p ++ a). rewrite app_assoc, app_length. auto. Qed.
Lemma pos_S s off c r : pos s off (c :: r) -> pos s (S off) r.
Proof. intros H. replace (S off) with (off + length [c]) by (simpl; lia). apply pos_app. exact H. Qed.
Lemma pos_len s off r : pos s off r -> off + length r = length s.
Proof. intros (p & -> & ->). now rewrite app_length. Qed.
Lemma pos_ex s off : off <= length s -> exists r, pos s off r.
Proof.
  intros L. exists (skipn off s), (firstn off s). rewrite firstn_skipn, firstn_length. split; [reflexivity|lia].
Qed.
Lemma pos_skip s off r : pos s off r -> skipn off s = r.
Proof. intros (p & -> & ->). rewrite skipn_app, skipn_all, Nat.sub_diag. reflexivity. Qed.
Lemma pos_at_hd s off r : pos s off r -> at_ s off = Ok (hd NUL r).
Proof. destruct r; [apply pos_end|apply pos_at]. Qed.
Lemma at_oob s off : length s < off -> at_ s off = UB.
Proof.
  intros L. unfold at_. rewrite (proj2 (nth_error_None _ _)) by lia.
  destruct (Nat.eqb_spec off (length s)); [lia|reflexivity].
Qed.

Lemma skip_ws_spec w : forall f s off r, pos s off (w ++ r) -> forallb isspace w = true ->
  isspace (hd NUL r) = false -> length w < f -> skip_ws f s off = Ok (off + length w).
Proof.
  induction w as [|c w IH]; intros [|f] s off r P W NR L; simpl in L; try lia; cbn [skip_ws].
  - rewrite (pos_at_hd _ _ _ P). cbn [bind]. simpl in *. rewrite NR, Nat.add_0_r. reflexivity.
  - simpl in W. apply andb_true_iff in W. destruct W as [W1 W2].
    rewrite (pos_at _ _ _ _ P). cbn [bind]. rewrite W1. rewrite (IH f s (S off) r); auto.
    + simpl. f_equal. lia.
    + exact (pos_S _ _ _ _ P).
    + lia.
Qed.
Lemma skip_spec w s off r : pos s off (w ++ r) -> forallb isspace w = true ->
  isspace (hd NUL r) = false -> skip_whitespaces s off = Ok (off + length w).
Proof.
  intros P W N. eapply skip_ws_spec; eauto. apply pos_len in P. rewrite app_length in P. lia.
Qed.
Lemma skip_none s off r : pos s off r -> isspace (hd NUL r) = false -> skip_whitespaces s off = Ok off.
Proof. intros P N. rewrite (skip_spec [] s off r); auto. Qed.

(** * Strings *)
Lemma escape_body : forall t f s off val r, pos s off (jsonEscape t ++ DQ :: r) -> length t < f ->
  str_loop f s off val = Ok (val ++ t, S (off + length (jsonEscape t))).
Proof.
  induction t as [|c t IH]; intros [|f] s off val r P L; simpl in L; try lia; cbn [str_loop].
  - rewrite (pos_at _ _ _ _ P). cbn [bind]. simpl. now rewrite app_nil_r, Nat.add_0_r.
  - cbn [jsonEscape] in P |- *. rewrite <- app_assoc in P.
    assert (two : forall x, pos s off ([BSL; x] ++ jsonEscape t ++ DQ :: r) -> Ascii.eqb x "u" = false -> unescape x = c ->
      bind (at_ s off) (fun c0 => if Ascii.eqb c0 DQ then Ok (val, S off)
         else if Ascii.eqb c0 BSL then e <- at_ s (S off) ;; if Ascii.eqb e "u" then
          val <- hex_loop 4 s (S (S off)) (val ++ [BSL; "u"%char]) ;; str_loop f s (off + 6) val
          else str_loop f s (S (S off)) (val ++ [unescape e]) else str_loop f s (S off) (val ++ [c0]))
      = Ok (val ++ c :: t, S (off + length ([BSL; x] ++ jsonEscape t)))).
    { intros x Px Hu Hx. rewrite (pos_at _ _ _ _ Px). cbn [bind].
      change (Ascii.eqb BSL DQ) with false. rewrite Ascii.eqb_refl. cbn iota.
      pose proof (pos_S _ _ _ _ Px) as P1. rewrite (pos_at _ _ _ _ P1). cbn [bind]. rewrite Hu, Hx.
      pose proof (pos_S _ _ _ _ P1) as P2. rewrite (IH f s _ (val ++ [c]) r P2) by lia.
      rewrite <- app_assoc. simpl. do 2 f_equal. lia. }
    unfold escape1 in P |- *.
    destruct (Ascii.eqb_spec c DQ) as [->|N1]; [now apply two|].
    destruct (Ascii.eqb_spec c BSL) as [->|N2]; [now apply two|].
    destruct (Ascii.eqb_spec c BS) as [->|N3]; [now apply two|].
    destruct (Ascii.eqb_spec c FF) as [->|N4]; [now apply two|].
    destruct (Ascii.eqb_spec c LF) as [->|N5]; [now apply two|].
    destruct (Ascii.eqb_spec c CR) as [->|N6]; [now apply two|].
    destruct (Ascii.eqb_spec c HT) as [->|N7]; [now apply two|].
    clear two. rewrite (pos_at _ _ _ _ P). cbn [bind].
    destruct (Ascii.eqb_spec c DQ); [contradiction|]. destruct (Ascii.eqb_spec c BSL); [contradiction|].
    rewrite (IH f s (S off) (val ++ [c]) r) by (try lia; exact (pos_S _ _ _ _ P)).
    rewrite <- app_assoc. simpl. do 2 f_equal. lia.
Qed.
(** a body without quotes and backslashes is read as it is *)
Lemma raw_body : forall t f s off val r, pos s off (t ++ DQ :: r) -> ~ In DQ t -> ~ In BSL t -> length t < f ->
  str_loop f s off val = Ok (val ++ t, S (off + length t)).
Proof.
  induction t as [|c t IH]; intros [|f] s off val r P A B L; simpl in L; try lia; cbn [str_loop].
  - rewrite (pos_at _ _ _ _ P). cbn [bind]. simpl. now rewrite app_nil_r, Nat.add_0_r.
  - rewrite (pos_at _ _ _ _ P). cbn [bind].
    destruct (Ascii.eqb_spec c DQ) as [->|]; [exfalso; apply A; left; reflexivity|].
    destruct (Ascii.eqb_spec c BSL) as [->|]; [exfalso; apply B; left; reflexivity|].
    rewrite (IH f s (S off) (val ++ [c]) r).
    + rewrite <- app_assoc. simpl. do 2 f_equal. lia.
    + exact (pos_S _ _ _ _ P).
    + intros H. apply A. now right.
    + intros H. apply B. now right.
    + lia.
Qed.
Lemma escape_len t : length t <= length (jsonEscape t).
Proof.
  induction t as [|c t IH]; [simpl; lia|]. cbn [jsonEscape]. rewrite app_length.
  assert (1 <= length (escape1 c)).
  { unfold escape1. repeat match goal with |- context[if ?b then _ else _] => destruct b end; simpl; lia. }
  simpl. lia.
Qed.
Lemma parse_string_escape {F} t s off r : pos s off (DQ :: jsonEscape t ++ DQ :: r) ->
  @parse_string F s off = Ok (JStr t, off + length (DQ :: jsonEscape t ++ [DQ])).
Proof.
  intros P. unfold parse_string. pose proof (pos_len _ _ _ P) as L. simpl in L. rewrite app_length in L.
  pose proof (escape_len t). rewrite (escape_body t _ s (S off) [] r) by (try lia; exact (pos_S _ _ _ _ P)).
  cbn [bind]. simpl. rewrite app_length. simpl. do 2 f_equal. lia.
Qed.

Lemma escape_plain t : plain t -> jsonEscape t = t.
Proof.
  induction t as [|c t IH]; intros H; [reflexivity|]. cbn [jsonEscape].
  rewrite IH by (intros x X; apply H; now right).
  assert (N : ~ special c) by (apply H; now left). unfold special in N. simpl in N. unfold escape1.
  destruct (Ascii.eqb_spec c DQ) as [->|]; [exfalso; apply N; unfold DQ; tauto|].
  destruct (Ascii.eqb_spec c BSL) as [->|]; [exfalso; apply N; unfold BSL; tauto|].
  destruct (Ascii.eqb_spec c BS) as [->|]; [exfalso; apply N; unfold BS; tauto|].
  destruct (Ascii.eqb_spec c FF) as [->|]; [exfalso; apply N; unfold FF; tauto|].
  destruct (Ascii.eqb_spec c LF) as [->|]; [exfalso; apply N; unfold LF; tauto|].
  destruct (Ascii.eqb_spec c CR) as [->|]; [exfalso; apply N; unfold CR; tauto|].
  destruct (Ascii.eqb_spec c HT) as [->|]; [exfalso; apply N; unfold HT; tauto|].
  reflexivity.
Qed.
Lemma escape1_len_special c : special c -> length (escape1 c) = 2.
Proof.
  unfold special. simpl. intros H.
  repeat (destruct H as [<-|H]; [reflexivity|]). destruct H.
Qed.
Lemma escape_grows t c : In c t -> special c -> length t < length (jsonEscape t).
Proof.
  induction t as [|d t IH]; [intros []|]. intros I S. cbn [jsonEscape]. rewrite app_length. pose proof (escape_len t).
  destruct I as [->|I].
  - rewrite (escape1_len_special c S). simpl. lia.
  - specialize (IH I S). simpl. assert (1 <= length (escape1 d)).
    { unfold escape1. repeat match goal with |- context[if ?b then _ else _] => destruct b end; simpl; lia. }
    lia.
Qed.
Lemma escape_id_iff t : jsonEscape t = t <-> plain t.
Proof.
  split; [|apply escape_plain]. intros E c I S. apply (escape_grows t c I) in S. rewrite E in S. lia.
Qed.

(** * More fuel changes nothing *)
Definition le_out {A} (a b : outcome A) : Prop := a = Fuel \/ b = a.
Lemma le_refl {A} (a : outcome A) : le_out a a.
Proof. right. reflexivity. Qed.
Lemma bind_le {A B} (a b : outcome A) (k k' : A -> outcome B) :
  le_out a b -> (forall x, le_out (k x) (k' x)) -> le_out (bind a k) (bind b k').
Proof. intros [-> | ->] H; [left; reflexivity|]. destruct a; simpl; try apply le_refl. apply H. Qed.
Lemma if_le {A} (c : bool) (a b a' b' : outcome A) : le_out a a' -> le_out b b' ->
  le_out (if c then a else b) (if c then a' else b').
Proof. now destruct c. Qed.
Section Fuel.
Context {F : Type} (D : doubles F).
Lemma fuel_mono : forall f,
  (forall s off, le_out (parse_next D f s off) (parse_next D (S f) s off)) /\
  (forall s off acc, le_out (obj_loop D f s off acc) (obj_loop D (S f) s off acc)) /\
  (forall s off acc, le_out (arr_loop D f s off acc) (arr_loop D (S f) s off acc)).
Proof.
  induction f as [|f (IN & IO & IA)]; [split; [|split]; intros; left; reflexivity|].
  split; [|split]; intros.
  - cbn [parse_next].
    apply bind_le; [apply le_refl|intros off1]. apply bind_le; [apply le_refl|intros c].
    apply if_le; [|apply if_le; [|apply le_refl]].
    + apply bind_le; [apply le_refl|intros off2]. apply bind_le; [apply le_refl|intros c2].
      apply if_le; [apply le_refl|]. apply IA.
    + apply bind_le; [apply le_refl|intros off2]. apply bind_le; [apply le_refl|intros c2].
      apply if_le; [apply le_refl|]. apply IO.
  - cbn [obj_loop]. apply bind_le; [apply IN|intros [k o1]].
    apply bind_le; [apply le_refl|intros o2]. apply bind_le; [apply le_refl|intros c].
    apply if_le; [|apply le_refl]. apply bind_le; [apply le_refl|intros o3].
    apply bind_le; [apply IN|intros [v o4]]. apply bind_le; [apply le_refl|intros o5].
    apply bind_le; [apply le_refl|intros c2]. apply if_le; [apply IO|apply le_refl].
  - cbn [arr_loop]. apply bind_le; [apply IN|intros [k o1]].
    apply bind_le; [apply le_refl|intros o2]. apply bind_le; [apply le_refl|intros c].
    apply if_le; [apply IA|apply le_refl].
Qed.
Lemma next_mono f g s off r : parse_next D f s off = Ok r -> f <= g -> parse_next D g s off = Ok r.
Proof.
  intros E L. induction L as [|g L IH]; [assumption|].
  destruct (proj1 (fuel_mono g) s off) as [H|H]; congruence.
Qed.
Lemma obj_mono f g s off acc r : obj_loop D f s off acc = Ok r -> f <= g -> obj_loop D g s off acc = Ok r.
Proof.
  intros E L. induction L as [|g L IH]; [assumption|].
  destruct (proj1 (proj2 (fuel_mono g)) s off acc) as [H|H]; congruence.
Qed.
Lemma arr_mono f g s off acc r : arr_loop D f s off acc = Ok r -> f <= g -> arr_loop D g s off acc = Ok r.
Proof.
  intros E L. induction L as [|g L IH]; [assumption|].
  destruct (proj2 (proj2 (fuel_mono g)) s off acc) as [H|H]; congruence.
Qed.
Lemma next_agree f g s off : parse_next D f s off <> Fuel -> parse_next D g s off <> Fuel ->
  parse_next D f s off = parse_next D g s off.
Proof.
  assert (W : forall f g, f <= g -> parse_next D f s off <> Fuel -> parse_next D g s off = parse_next D f s off).
  { intros a b L N. induction L as [|b L IH]; [reflexivity|]. rewrite <- IH in N |- *.
    destruct (proj1 (fuel_mono b) s off) as [H|H]; congruence. }
  intros A B. destruct (Nat.le_ge_cases f g) as [L|L]; [symmetry|]; now apply W.
Qed.
End Fuel.

(** * Outcomes of all parsers *)
Lemma skip_out s off : off <= length s ->
  exists e, skip_whitespaces s off = Ok e /\ off <= e <= length s /\ exists w r, pos s off (w ++ r) /\ e = off + length w.
Proof.
  intros L. destruct (pos_ex s off L) as [r P].
  assert (W : exists w r', r = w ++ r' /\ forallb isspace w = true /\ isspace (hd NUL r') = false).
  { clear P. induction r as [|c r IH]; [exists [], []; auto|].
    destruct (isspace c) eqn:E.
    - destruct IH as (w & r' & -> & A & B). exists (c :: w), r'. simpl. rewrite E. auto.
    - exists [], (c :: r). auto. }
  destruct W as (w & r' & -> & A & B). rewrite (skip_spec w s off r' P A B). eexists. split; [reflexivity|].
  apply pos_len in P as PL. rewrite app_length in PL. split; [lia|]. eauto.
Qed.
Lemma hex_out n : forall s i val, i <= length s ->
  hex_loop n s i val = Err \/
  exists h, hex_loop n s i val = Ok (val ++ h) /\ length h = n /\ forallb ishex h = true /\ i + n <= length s /\
    exists r, pos s i (h ++ r).
Proof.
  induction n as [|n IH]; intros s i val L; cbn [hex_loop].
  - right. exists []. rewrite app_nil_r. destruct (pos_ex s i L) as [r P]. split; [reflexivity|].
    split; [reflexivity|]. split; [reflexivity|]. split; [lia|]. eauto.
  - destruct (pos_ex s i L) as [r P]. rewrite (pos_at_hd _ _ _ P). cbn [bind].
    destruct (ishex (hd NUL r)) eqn:H; [|auto]. destruct r as [|c r]; [discriminate|]. simpl hd in *.
    apply pos_len in P as PL. simpl in PL.
    destruct (IH s (S i) (val ++ [c])) as [E|(h & E & A1 & A2 & A3 & r' & A4)]; [lia|auto|].
    right. exists (c :: h). rewrite E, <- app_assoc. split; [reflexivity|]. simpl. rewrite H, A2.
    split; [lia|]. split; [reflexivity|]. split; [lia|]. exists r'.
    pose proof (pos_S _ _ _ _ P) as P1. apply pos_skip in P1. apply pos_skip in A4.
    rewrite <- A4, P1. exact P.
Qed.
Lemma ishex_plain c : ishex c = true -> c <> DQ /\ c <> BSL.
Proof. intros H. split; intros ->; discriminate. Qed.
(** scanning on from the start or from this position gives the same verdict *)
Definition sync (s : bytes) (off : nat) : Prop :=
  forall r, pos s off r -> open_at_end false s = open_at_end false r.
Lemma pos_det s off r r' : pos s off r -> pos s off r' -> r = r'.
Proof. intros A B. apply pos_skip in A. apply pos_skip in B. congruence. Qed.
Lemma sync_0 s : sync s 0.
Proof. intros r P. now rewrite (pos_det _ _ _ _ P (pos_0 s)). Qed.
Lemma open_plain t r : (forall c, In c t -> c <> DQ) -> open_at_end false (t ++ r) = open_at_end false r.
Proof.
  induction t as [|c t IH]; intros H; [reflexivity|]. cbn [app open_at_end].
  destruct (Ascii.eqb_spec c "034") as [E|_]; [exfalso; apply (H c); [now left|exact E]|].
  apply IH. intros x X. apply H. now right.
Qed.
Lemma sync_plain s off t r : sync s off -> pos s off (t ++ r) -> (forall c, In c t -> c <> DQ) -> sync s (off + length t).
Proof.
  intros S P H r' P'. rewrite (pos_det _ _ _ _ P' (pos_app _ _ _ _ P)), (S _ P). now apply open_plain.
Qed.
Lemma sync_S s off c r : sync s off -> pos s off (c :: r) -> c <> DQ -> sync s (S off).
Proof.
  intros S P H. replace (Datatypes.S off) with (off + length [c]) by (simpl; lia).
  apply (sync_plain s off [c] r S P). intros x [<-|[]]. exact H.
Qed.
(** [str_loop] from inside the string: error, or UB and then the text ends inside
    the literal, or a complete literal *)
Lemma open_hex h r : forallb ishex h = true -> open_at_end true (h ++ r) = open_at_end true r.
Proof.
  induction h as [|c h IH]; [reflexivity|]. cbn [forallb]. intros H. apply andb_true_iff in H. destruct H as [H1 H2].
  destruct (ishex_plain c H1) as [N1 N2]. cbn [app open_at_end].
  destruct (Ascii.eqb_spec c "092") as [E|_]; [now destruct N2|].
  destruct (Ascii.eqb_spec c "034") as [E|_]; [now destruct N1|]. cbn [negb]. now apply IH.
Qed.
Lemma str_out f : forall s off val r, pos s off r -> length r + 1 < f ->
  str_loop f s off val = Err \/
  (str_loop f s off val = UB /\ open_at_end true r = true) \/
  (exists v e r', str_loop f s off val = Ok (v, e) /\ off < e <= length s /\ pos s e r' /\
     open_at_end true r = open_at_end false r').
Proof.
  induction f as [|f IH]; intros s off val r P L; [lia|]. cbn [str_loop].
  pose proof (pos_len _ _ _ P) as PL. rewrite (pos_at_hd _ _ _ P). cbn [bind].
  destruct r as [|c r]; cbn [hd].
  { right. left. change (Ascii.eqb NUL DQ) with false. change (Ascii.eqb NUL BSL) with false. cbn iota.
    destruct f as [|f]; [simpl in L; lia|]. cbn [str_loop]. simpl in PL. rewrite at_oob by lia.
    split; reflexivity. }
  pose proof (pos_S _ _ _ _ P) as P1. cbn [length] in L, PL. cbn [open_at_end].
  destruct (Ascii.eqb_spec c DQ) as [->|N1].
  { right. right. exists val, (S off), r. split; [reflexivity|]. split; [lia|]. split; [assumption|reflexivity]. }
  destruct (Ascii.eqb_spec c BSL) as [->|N2].
  - change (Ascii.eqb BSL "092") with true. cbn iota.
    rewrite (pos_at_hd _ _ _ P1). cbn [bind]. destruct r as [|c2 r].
    { cbn [hd]. change (Ascii.eqb NUL "u") with false. cbn iota. right. left.
      destruct f as [|f]; [simpl in L; lia|]. cbn [str_loop]. simpl in PL. rewrite at_oob by lia. split; reflexivity. }
    cbn [hd]. pose proof (pos_S _ _ _ _ P1) as P2. cbn [length] in L, PL.
    destruct (Ascii.eqb_spec c2 "u") as [->|N3].
    + destruct (hex_out 4 s (S (S off)) (val ++ [BSL; "u"%char])) as [-> | (h & -> & A1 & A2 & A3 & r' & A4)]; [lia|left; reflexivity|].
      cbn [bind]. pose proof (pos_det _ _ _ _ P2 A4) as Er.
      assert (Lr : length r = length h + length r') by (rewrite Er; apply app_length).
      assert (P3 : pos s (off + 6) r') by (replace (off + 6) with (S (S off) + length h) by lia; now apply pos_app).
      rewrite Er, open_hex by assumption.
      destruct (IH s (off + 6) ((val ++ [BSL; "u"%char]) ++ h) r' P3) as [E|[[E NB]|(v & e & r2 & E & EL & EP & EO)]]; [lia| | |].
      * left. exact E.
      * right. left. auto.
      * right. right. exists v, e, r2. split; [exact E|]. split; [lia|]. auto.
    + destruct (IH s (S (S off)) (val ++ [unescape c2]) r P2) as [E|[[E NB]|(v & e & r2 & E & EL & EP & EO)]]; [lia| | |].
      * left. exact E.
      * right. left. auto.
      * right. right. exists v, e, r2. split; [exact E|]. split; [lia|]. auto.
  - change (Ascii.eqb c "092") with (Ascii.eqb c BSL). change (Ascii.eqb c "034") with (Ascii.eqb c DQ).
    destruct (Ascii.eqb_spec c BSL); [contradiction|]. destruct (Ascii.eqb_spec c DQ); [contradiction|]. cbn [negb].
    destruct (IH s (S off) (val ++ [c]) r P1) as [E|[[E NB]|(v & e & r2 & E & EL & EP & EO)]]; [lia| | |].
    * left. exact E.
    * right. left. auto.
    * right. right. exists v, e, r2. split; [exact E|]. split; [lia|]. auto.
Qed.

(** * Numbers *)
Lemma prefix_split (p : ascii -> bool) r : p NUL = false ->
  exists t r', r = t ++ r' /\ forallb p t = true /\ p (hd NUL r') = false.
Proof.
  intros N. induction r as [|c r (t & r' & -> & A & B)]; [exists [], []; auto|].
  destruct (p c) eqn:E.
  - exists (c :: t), r'. simpl. rewrite E. auto.
  - exists [], (c :: t ++ r'). auto.
Qed.
Definition has_dot (t : bytes) : bool := existsb (Ascii.eqb ".") t.
Lemma num_loop_spec t : forall f s off val dbl r, pos s off (t ++ r) -> forallb number_char t = true ->
  number_char (hd NUL r) = false -> length t < f ->
  num_loop f s off val dbl = Ok (val ++ t, dbl || has_dot t, hd NUL r, S (off + length t)).
Proof.
  induction t as [|c t IH]; intros [|f] s off val dbl r P W NR L; simpl in L; try lia; cbn [num_loop].
  - rewrite (pos_at_hd _ _ _ P). cbn [bind]. simpl app. unfold number_char in NR.
    apply orb_false_iff in NR. destruct NR as [N1 N2]. apply orb_false_iff in N1. destruct N1 as [N1 N3].
    rewrite N1, N2, N3. simpl. now rewrite app_nil_r, orb_false_r, Nat.add_0_r.
  - simpl in W. apply andb_true_iff in W. destruct W as [W1 W2].
    pose proof (pos_S _ _ _ _ P) as P1. rewrite (pos_at _ _ _ _ P). cbn [bind].
    unfold number_char in W1. destruct (Ascii.eqb c "-" || is_digit c) eqn:E.
    + rewrite (IH f s (S off) (val ++ [c]) dbl r P1 W2 NR) by lia. rewrite <- app_assoc.
      assert (H : has_dot (c :: t) = has_dot t).
      { unfold has_dot. cbn [existsb]. destruct (Ascii.eqb_spec "." c) as [<-|N]; [discriminate|reflexivity]. }
      rewrite H. cbn [length app]. do 2 f_equal. lia.
    + assert (c = "."%char) as ->.
      { apply orb_false_iff in E. destruct E as [E1 E2]. rewrite E1, E2 in W1. simpl in W1. now apply Ascii.eqb_eq in W1. }
      change (Ascii.eqb "." ".") with true. cbn iota.
      rewrite (IH f s (S off) (val ++ ["."%char]) true r P1 W2 NR) by lia. rewrite <- app_assoc.
      change (has_dot ("."%char :: t)) with true. rewrite orb_true_r. cbn [length app orb]. do 2 f_equal. lia.
Qed.
Lemma exp_loop_spec t : forall f s off es r, pos s off (t ++ r) -> forallb is_digit t = true ->
  is_digit (hd NUL r) = false -> length t < f ->
  exp_loop f s off es = if delimiter (hd NUL r) then Ok (es ++ t, hd NUL r, off + length t) else Err.
Proof.
  induction t as [|c t IH]; intros [|f] s off es r P W NR L; simpl in L; try lia; cbn [exp_loop].
  - rewrite (pos_at_hd _ _ _ P). cbn [bind]. simpl app. rewrite NR. simpl. now rewrite app_nil_r, Nat.add_0_r.
  - simpl in W. apply andb_true_iff in W. destruct W as [W1 W2].
    pose proof (pos_S _ _ _ _ P) as P1. rewrite (pos_at _ _ _ _ P). cbn [bind]. rewrite W1.
    rewrite (IH f s (S off) (es ++ [c]) r P1 W2 NR) by lia. rewrite <- app_assoc. simpl.
    destruct (delimiter _); [|reflexivity]. do 2 f_equal. lia.
Qed.
Lemma digit_prefix_all t : forallb is_digit t = true -> digit_prefix t = t.
Proof.
  induction t as [|c t IH]; simpl; [reflexivity|]. intros H. apply andb_true_iff in H. destruct H as [-> H].
  now rewrite IH.
Qed.
Lemma scan_Z_digits t : forallb is_digit t = true -> scan_Z t = dec_value t.
Proof.
  destruct t as [|c t]; [reflexivity|]. intros H. unfold scan_Z. rewrite (digit_prefix_all (c :: t) H).
  destruct (Ascii.eqb_spec c "-") as [->|]; [discriminate|reflexivity].
Qed.
Lemma scan_Z_neg t : forallb is_digit t = true -> scan_Z ("-"%char :: t) = (- dec_value t)%Z.
Proof. intros H. unfold scan_Z. now rewrite digit_prefix_all by assumption. Qed.

(** parse_number, no exponent *)
Lemma number_plain {F} (D : doubles F) s off t r : pos s off (t ++ r) -> forallb number_char t = true ->
  number_char (hd NUL r) = false -> delimiter (hd NUL r) = true ->
  parse_number D s off =
    Ok (if has_dot t then JFlt (f_scale D (f_read D t) 0) else JInt (scan_int t),
        if Ascii.eqb (hd NUL r) NUL then S (off + length t) else off + length t).
Proof.
  intros P W N DL. unfold parse_number. pose proof (pos_len _ _ _ P) as L. rewrite app_length in L.
  rewrite (num_loop_spec t _ s off [] false r P W N) by lia. cbn [bind].
  assert (NE : Ascii.eqb (hd NUL r) "E" || Ascii.eqb (hd NUL r) "e" = false).
  { destruct (Ascii.eqb_spec (hd NUL r) "E") as [E|]; [rewrite E in DL; discriminate|].
    destruct (Ascii.eqb_spec (hd NUL r) "e") as [E|]; [rewrite E in DL; discriminate|reflexivity]. }
  rewrite NE, DL. cbn [bind].
  destruct (has_dot t), (Ascii.eqb (hd NUL r) NUL); cbn [orb app]; do 2 f_equal; lia.
Qed.
(** parse_number, with exponent: [c] is the character behind the e *)
Lemma number_exp {F} (D : doubles F) s off t e c ds r : pos s off (t ++ e :: c :: ds ++ r) ->
  forallb number_char t = true -> e = "e"%char \/ e = "E"%char -> forallb is_digit ds = true ->
  is_digit (hd NUL r) = false ->
  parse_number D s off =
    if delimiter (hd NUL r) then
      let es := (if Ascii.eqb c "-" then ["-"%char] else []) ++ ds in
      exp <- exp_value es ;;
      Ok (match has_dot t, es with false, [] => JInt (scan_int t) | _, _ => JFlt (f_scale D (f_read D t) exp) end,
          off + length t + 2 + length ds - (if Ascii.eqb (hd NUL r) NUL then 0 else 1))
    else Err.
Proof.
  intros P W E DS N. unfold parse_number. pose proof (pos_len _ _ _ P) as L. rewrite app_length in L.
  simpl in L. rewrite app_length in L.
  assert (NE : number_char e = false) by (destruct E as [-> | ->]; reflexivity).
  rewrite (num_loop_spec t _ s off [] false (e :: c :: ds ++ r) P W NE) by lia. cbn [bind hd].
  assert (EE : Ascii.eqb e "E" || Ascii.eqb e "e" = true) by (destruct E as [-> | ->]; reflexivity).
  rewrite EE. destruct (Nat.eqb_spec (S (off + length t)) (length s)); [lia|].
  pose proof (pos_app _ _ _ _ P) as P1. pose proof (pos_S _ _ _ _ P1) as P2. pose proof (pos_S _ _ _ _ P2) as P3.
  rewrite (pos_at _ _ _ _ P2). cbn [bind].
  rewrite (exp_loop_spec ds _ s _ _ r P3 DS N) by lia.
  destruct (delimiter (hd NUL r)); [|reflexivity]. cbn [bind]. cbv zeta.
  destruct (exp_value _) as [x| | |]; cbn [bind]; try reflexivity. f_equal. f_equal.
  destruct (Ascii.eqb (hd NUL r) NUL); lia.
Qed.
Lemma pos_last s off t : pos s off t -> t <> [] -> forallb number_char t = true -> ends_in_number s.
Proof.
  intros (p & -> & _) N W. destruct (exists_last N) as (t' & c & ->). exists (p ++ t'), c.
  split; [now rewrite app_assoc|]. rewrite forallb_app in W. apply andb_true_iff in W. destruct W as [_ W].
  simpl in W. now rewrite andb_true_r in W.
Qed.
(** a position behind a number with exponent where no separator can be found *)
Definition bad (s : bytes) (e : nat) : Prop := exists c, at_ s e = Ok c /\ (is_digit c = true \/ c = NUL \/ c = DQ).
Definition fine (s : bytes) (off : nat) {A} (o : outcome (A * nat)) : Prop :=
  o <> Fuel /\ (o = UB -> risky s) /\
  (forall v e, o = Ok (v, e) -> off < e <= S (length s) /\ (e <= length s \/ risky s) /\ (sync s e \/ bad s e)).
Lemma number_not_quote t : forallb number_char t = true -> forall c, In c t -> c <> DQ.
Proof. intros H c I ->. rewrite forallb_forall in H. apply H in I. discriminate. Qed.
Lemma digit_number t : forallb is_digit t = true -> forallb number_char t = true.
Proof.
  rewrite !forallb_forall. intros H x X. apply H in X. unfold number_char. rewrite X. reflexivity.
Qed.
Lemma number_fine {F} (D : doubles F) s off c r : pos s off (c :: r) -> sync s off -> is_digit c || Ascii.eqb c "-" = true ->
  fine s off (parse_number D s off).
Proof.
  intros P SY C. pose proof (pos_len _ _ _ P) as L. simpl in L.
  destruct (prefix_split number_char (c :: r) eq_refl) as (t & r' & E & W & N).
  destruct t as [|c' t]. { exfalso. simpl in E. subst r'. simpl in N. unfold number_char in N. rewrite C in N. discriminate. }
  set (t' := c' :: t) in *. assert (LT : 1 <= length t') by (simpl; lia).
  assert (LL : S (length r) = length t' + length r') by (change (S (length r)) with (length (c :: r)); rewrite E, app_length; reflexivity).
  rewrite E in P. assert (NT : t' <> []) by discriminate. clearbody t'.
  destruct (Ascii.eqb (hd NUL r') "E" || Ascii.eqb (hd NUL r') "e") eqn:EX.
  - destruct r' as [|e r']; [discriminate|]. simpl hd in *. simpl in LL.
    assert (EE : e = "e"%char \/ e = "E"%char).
    { apply orb_true_iff in EX. destruct EX as [X|X]; apply Ascii.eqb_eq in X; auto. }
    destruct r' as [|c2 r'].
    + assert (H : parse_number D s off = Err).
      { unfold parse_number. rewrite (num_loop_spec t' _ s off [] false [e] P W N) by lia. cbn [bind hd].
        rewrite EX. simpl in LL. destruct (Nat.eqb_spec (S (off + length t')) (length s)); [reflexivity|lia]. }
      rewrite H. split; [discriminate|]. split; discriminate.
    + destruct (prefix_split is_digit r' eq_refl) as (ds & r2 & -> & DS & N2). simpl in LL. rewrite app_length in LL.
      rewrite (number_exp D s off t' e c2 ds r2 P W EE DS N2).
      destruct (delimiter (hd NUL r2)) eqn:DL; [|split; [discriminate|split; discriminate]]. cbv zeta.
      destruct (exp_value _) as [x| | |] eqn:EV; cbn [bind].
      * split; [discriminate|]. split; [discriminate|]. intros v e1 [= <- <-].
        pose proof (pos_app _ _ _ _ P) as P1. pose proof (pos_S _ _ _ _ P1) as P2. pose proof (pos_S _ _ _ _ P2) as P3.
        pose proof (pos_app _ _ _ _ P3) as P4.
        destruct (Ascii.eqb_spec (hd NUL r2) NUL) as [Z|Z]; (split; [lia|]); (split; [left; lia|]).
        { right. exists NUL. split; [|auto].
          replace (off + length t' + 2 + length ds - 0) with (S (S (off + length t')) + length ds) by lia.
          rewrite (pos_at_hd _ _ _ P4), Z. reflexivity. }
        destruct ds as [|d ds] using rev_ind.
        { clear IHds || idtac. replace (off + length t' + 2 + length (@nil ascii) - 1) with (S (off + length t')) by (simpl; lia).
          left. apply sync_S with (c := e) (r := c2 :: [] ++ r2); [|exact P1|destruct EE as [-> | ->]; discriminate].
          apply (sync_plain s off t' _ SY P). now apply number_not_quote. }
        { clear IHds || idtac. right. exists d. split.
          - rewrite <- app_assoc in P3. cbn [app] in P3. pose proof (pos_app _ _ _ _ P3) as P5.
            replace (off + length t' + 2 + length (ds ++ [d]) - 1) with (S (S (off + length t')) + length ds)
              by (rewrite app_length; simpl; lia).
            exact (pos_at _ _ _ _ P5).
          - left. rewrite forallb_app in DS. apply andb_true_iff in DS. destruct DS as [_ DS]. simpl in DS. now rewrite andb_true_r in DS. }
      * split; [discriminate|]. split; discriminate.
      * split; [discriminate|]. split; [|discriminate]. intros _. right. right.
        destruct P as (p & -> & _). exists (p ++ t'), e, c2, ds, r2. rewrite <- app_assoc.
        split; [reflexivity|]. split; [assumption|]. split; [assumption|].
        unfold exp_value, chk32 in EV. destruct (in_int32 _) eqn:I; [discriminate|]. unfold in_int32, int32_min, int32_max in *.
        pose proof (dec_value_bound ds DS) as [B _].
        destruct (Ascii.eqb c2 "-"); simpl app in I; [rewrite scan_Z_neg in I by assumption|rewrite scan_Z_digits in I by assumption]; lia.
      * exfalso. unfold exp_value, chk32 in EV. destruct (in_int32 _); discriminate.
  - destruct (delimiter (hd NUL r')) eqn:DL.
    + rewrite (number_plain D s off t' r' P W N DL). split; [discriminate|]. split; [discriminate|].
      pose proof (sync_plain s off t' _ SY P (number_not_quote _ W)) as SY1. pose proof (pos_app _ _ _ _ P) as P1.
      intros v e [= <- <-]. destruct (Ascii.eqb_spec (hd NUL r') NUL) as [Z|Z].
      * split; [lia|]. destruct r' as [|x r'].
        { split.
          - right. right. left. apply pos_last with (off := off) (t := t'); [|assumption|assumption]. now rewrite app_nil_r in P.
          - left. intros r2 P2. apply pos_len in P2. apply pos_len in P1. simpl in P1. lia. }
        { split; [left; simpl in LL; lia|]. left. apply sync_S with (c := x) (r := r'); [assumption|assumption|].
          simpl in Z. subst x. discriminate. }
      * split; [lia|]. split; [left; lia|]. left. assumption.
    + assert (H : parse_number D s off = Err).
      { unfold parse_number. rewrite (num_loop_spec t' _ s off [] false r' P W N) by lia. cbn [bind]. rewrite EX, DL. reflexivity. }
      rewrite H. split; [discriminate|]. split; discriminate.
Qed.

(** * The whole parser terminates and is safe on texts that are not risky *)
Lemma fine_weaken {A} s off off' (o : outcome (A * nat)) : off <= off' -> fine s off' o -> fine s off o.
Proof.
  intros L (A1 & A2 & A3). split; [assumption|]. split; [assumption|]. intros v e E. destruct (A3 v e E). split; [lia|assumption].
Qed.
Lemma fine_err {A} s off : @fine s off A Err.
Proof. split; [discriminate|]. split; discriminate. Qed.
Lemma fine_ok {A} s off (v : A) e : off < e <= length s -> sync s e -> fine s off (Ok (v, e)).
Proof.
  intros L S. split; [discriminate|]. split; [discriminate|]. intros v' e' [= <- <-]. split; [lia|]. split; [left; lia|auto].
Qed.
Definition okpos (s : bytes) (off : nat) : Prop := off <= S (length s) /\ (off <= length s \/ risky s).
Lemma skip_out2 s off : okpos s off -> sync s off ->
  (skip_whitespaces s off = UB /\ risky s) \/
  exists e r, skip_whitespaces s off = Ok e /\ off <= e /\ pos s e r /\ sync s e.
Proof.
  intros [L H] SY. destruct (le_gt_dec off (length s)) as [LR|LR].
  - right. destruct (pos_ex s off LR) as [r P].
    destruct (prefix_split isspace r eq_refl) as (w & r' & -> & W & N).
    exists (off + length w), r'. split; [exact (skip_spec w s off r' P W N)|]. split; [lia|].
    split; [exact (pos_app _ _ _ _ P)|]. apply (sync_plain s off w r' SY P).
    intros c I ->. rewrite forallb_forall in W. apply W in I. discriminate.
  - left. unfold skip_whitespaces. replace (length s + 2) with (S (length s + 1)) by lia. cbn [skip_ws]. rewrite at_oob by lia.
    split; [reflexivity|]. destruct H as [H|H]; [lia|assumption].
Qed.
Lemma skip_fine {A} s off (k : nat -> outcome (A * nat)) : okpos s off -> sync s off ->
  (forall e r, off <= e -> pos s e r -> sync s e -> fine s off (k e)) -> fine s off (bind (skip_whitespaces s off) k).
Proof.
  intros OK SY H. destruct (skip_out2 s off OK SY) as [[-> R]|(e & r & -> & A1 & A2 & A3)]; cbn [bind].
  - split; [discriminate|]. split; [auto|discriminate].
  - exact (H e r A1 A2 A3).
Qed.
(** after a value: skip spaces and look at the next character *)
Lemma after_fine {A} s off e (k : nat -> ascii -> outcome (A * nat)) : okpos s e -> sync s e \/ bad s e -> off <= e ->
  (forall o c, is_digit c = true \/ c = NUL \/ c = DQ -> k o c = Err) ->
  (forall o r, e <= o -> pos s o r -> sync s o -> fine s off (k o (hd NUL r))) ->
  fine s off (bind (skip_whitespaces s e) (fun o => c <- at_ s o ;; k o c)).
Proof.
  intros OK [SY|(c & AT & C)] L K H.
  - destruct (skip_out2 s e OK SY) as [[-> R]|(o & r & -> & A1 & A2 & A3)]; cbn [bind].
    + split; [discriminate|]. split; [auto|discriminate].
    + rewrite (pos_at_hd _ _ _ A2). cbn [bind]. exact (H o r A1 A2 A3).
  - assert (SK : skip_whitespaces s e = Ok e).
    { unfold skip_whitespaces. replace (length s + 2) with (S (length s + 1)) by lia. cbn [skip_ws]. rewrite AT. cbn [bind].
      assert (N : isspace c = false).
      { destruct C as [C|[-> | ->]]; [|reflexivity|reflexivity]. unfold is_digit in C. unfold isspace. lia. }
      now rewrite N. }
    rewrite SK. cbn [bind]. rewrite AT. cbn [bind]. rewrite K by assumption. apply fine_err.
Qed.
Lemma bind_fine {A B} s off off' (m : outcome (A * nat)) (k : A * nat -> outcome (B * nat)) :
  off <= off' -> fine s off' m ->
  (forall v e, off' < e -> okpos s e -> sync s e \/ bad s e -> fine s off (k (v, e))) -> fine s off (bind m k).
Proof.
  intros L (A1 & A2 & A3) H. destruct m as [[v e]| | |]; cbn [bind].
  - destruct (A3 v e eq_refl) as (B1 & B2 & B3). apply H; [lia| |assumption]. split; [lia|assumption].
  - apply fine_err.
  - split; [discriminate|]. split; [intros _; auto|discriminate].
  - congruence.
Qed.
Lemma hd_not_nul r c : Ascii.eqb (hd NUL r) c = true -> Ascii.eqb NUL c = false -> exists r', r = c :: r'.
Proof.
  intros E N. destruct r as [|x r]; cbn [hd] in E.
  - congruence.
  - apply Ascii.eqb_eq in E. subst. eauto.
Qed.
Lemma string_fine {F} s off r : pos s off (DQ :: r) -> sync s off -> fine s off (@parse_string F s off).
Proof.
  intros P SY. unfold parse_string. pose proof (pos_S _ _ _ _ P) as P1. pose proof (pos_len _ _ _ P1) as L.
  assert (SR : open_at_end false s = open_at_end true r) by exact (SY _ P).
  destruct (str_out (length s + 2) s (S off) [] r P1) as [-> | [[-> NB]|(v & e & r' & -> & B & PE & O)]]; [lia| | |]; cbn [bind].
  - apply fine_err.
  - split; [discriminate|]. split; [|discriminate]. intros _. left. congruence.
  - apply fine_ok; [lia|]. intros r2 P2. rewrite (pos_det _ _ _ _ P2 PE). congruence.
Qed.
Lemma substr_len s off n t : beq (substr s off n) t = true -> 0 < length t -> length t = n ->
  off + n <= length s /\ exists r, pos s off (t ++ r).
Proof.
  unfold beq. destruct (list_eq_dec _ _ _) as [E|]; [|discriminate]. intros _ L1 L2.
  pose proof (f_equal (@length ascii) E) as EL. unfold substr in EL. rewrite firstn_length, skipn_length in EL.
  assert (LB : off + n <= length s) by lia. split; [assumption|].
  destruct (pos_ex s off) as [r P]; [lia|]. unfold substr in E. rewrite (pos_skip _ _ _ P) in E.
  exists (skipn n r). rewrite <- E, firstn_skipn. exact P.
Qed.
Ltac notq := intros ? I; simpl in I; decompose [or] I; try contradiction; subst; discriminate.
Section Main.
Context {F : Type} (D : doubles F).
Lemma all_fine f : forall s,
  (forall off, okpos s off -> sync s off -> 2 * (S (length s) - off) + 1 <= f -> fine s off (parse_next D f s off)) /\
  (forall off acc, okpos s off -> sync s off -> 2 * (S (length s) - off) + 2 <= f -> fine s off (obj_loop D f s off acc)) /\
  (forall off acc, okpos s off -> sync s off -> 2 * (S (length s) - off) + 2 <= f -> fine s off (arr_loop D f s off acc)).
Proof.
  induction f as [|f IH]; intros s; [split; [|split]; intros; lia|].
  destruct (IH s) as (IN & IO & IA).
  assert (OKS : forall e c r, pos s e (c :: r) -> okpos s (S e)).
  { intros e c r P. apply pos_len in P. simpl in P. split; [lia|left; lia]. }
  assert (OKP : forall e r, pos s e r -> okpos s e).
  { intros e r P. apply pos_len in P. split; [lia|left; lia]. }
  split; [|split].
  - intros off OK SY L. cbn [parse_next]. apply skip_fine; [assumption|assumption|]. intros e r LE P SE.
    rewrite (pos_at_hd _ _ _ P). cbn [bind]. pose proof (pos_len _ _ _ P) as PL.
    destruct (Ascii.eqb (hd NUL r) "[") eqn:C1.
    { destruct (hd_not_nul _ _ C1 eq_refl) as [r' ->]. simpl in PL. apply fine_weaken with (off' := S e); [lia|].
      apply skip_fine; [eauto|exact (sync_S _ _ _ _ SE P ltac:(discriminate))|]. intros e2 r2 LE2 P2 S2. rewrite (pos_at_hd _ _ _ P2). cbn [bind].
      pose proof (pos_len _ _ _ P2) as PL2. destruct (Ascii.eqb (hd NUL r2) "]") eqn:C2.
      - destruct (hd_not_nul _ _ C2 eq_refl) as [r3 ->]. simpl in PL2. apply fine_ok; [lia|].
        exact (sync_S _ _ _ _ S2 P2 ltac:(discriminate)).
      - apply fine_weaken with (off' := e2); [lia|]. apply IA; [eauto|assumption|lia]. }
    destruct (Ascii.eqb (hd NUL r) "{") eqn:C2.
    { destruct (hd_not_nul _ _ C2 eq_refl) as [r' ->]. simpl in PL. apply fine_weaken with (off' := S e); [lia|].
      apply skip_fine; [eauto|exact (sync_S _ _ _ _ SE P ltac:(discriminate))|]. intros e2 r2 LE2 P2 S2. rewrite (pos_at_hd _ _ _ P2). cbn [bind].
      pose proof (pos_len _ _ _ P2) as PL2. destruct (Ascii.eqb (hd NUL r2) "}") eqn:C3.
      - destruct (hd_not_nul _ _ C3 eq_refl) as [r3 ->]. simpl in PL2. apply fine_ok; [lia|].
        exact (sync_S _ _ _ _ S2 P2 ltac:(discriminate)).
      - apply fine_weaken with (off' := e2); [lia|]. apply IO; [eauto|assumption|lia]. }
    apply fine_weaken with (off' := e); [lia|].
    destruct (Ascii.eqb (hd NUL r) DQ) eqn:C3.
    { destruct (hd_not_nul _ _ C3 eq_refl) as [r' ->]. eapply string_fine; [exact P|assumption]. }
    destruct (Ascii.eqb (hd NUL r) "t" || Ascii.eqb (hd NUL r) "f") eqn:C4.
    { unfold parse_bool. destruct (beq (substr s e 4) _) eqn:B1.
      - apply substr_len in B1; [|simpl; lia|reflexivity]. destruct B1 as (B1 & r1 & P1). apply fine_ok; [lia|].
        apply (sync_plain s e (str "true") r1 SE P1). notq.
      - destruct (beq (substr s e 5) _) eqn:B2; [|apply fine_err].
        apply substr_len in B2; [|simpl; lia|reflexivity]. destruct B2 as (B2 & r1 & P1). apply fine_ok; [lia|].
        apply (sync_plain s e (str "false") r1 SE P1). notq. }
    destruct (Ascii.eqb (hd NUL r) "n") eqn:C5.
    { unfold parse_null. destruct (beq (substr s e 4) _) eqn:B1; [|apply fine_err].
      apply substr_len in B1; [|simpl; lia|reflexivity]. destruct B1 as (B1 & r1 & P1). apply fine_ok; [lia|].
      apply (sync_plain s e (str "null") r1 SE P1). notq. }
    destruct (is_digit (hd NUL r) || Ascii.eqb (hd NUL r) "-") eqn:C6; [|apply fine_err].
    destruct r as [|c r]; [discriminate|]. eapply number_fine; [exact P|assumption|exact C6].
  - intros off acc OK SY L. cbn [obj_loop]. apply bind_fine with (off' := off); [lia|apply IN; [assumption|assumption|lia]|].
    intros k e LE OKE SB. apply after_fine; [assumption|assumption|lia| |].
    { intros o c [C|[-> | ->]]; [|reflexivity|reflexivity]. destruct (Ascii.eqb_spec c ":") as [->|]; [discriminate|reflexivity]. }
    intros e1 r1 L1 P1 S1. pose proof (pos_len _ _ _ P1) as PL1.
    destruct (Ascii.eqb (hd NUL r1) ":") eqn:C1; [|apply fine_err]. destruct (hd_not_nul _ _ C1 eq_refl) as [r1' ->].
    simpl in PL1. apply fine_weaken with (off' := S e1); [lia|].
    apply skip_fine; [eauto|exact (sync_S _ _ _ _ S1 P1 ltac:(discriminate))|]. intros e2 r2 L2 P2 S2.
    pose proof (pos_len _ _ _ P2) as PL2.
    apply bind_fine with (off' := e2); [lia|apply IN; [eauto|assumption|lia]|].
    intros v e3 L3 OK3 SB3. apply after_fine; [assumption|assumption|lia| |].
    { intros o c [C|[-> | ->]]; [|reflexivity|reflexivity].
      destruct (Ascii.eqb_spec c ",") as [->|]; [discriminate|]. destruct (Ascii.eqb_spec c "}") as [->|]; [discriminate|reflexivity]. }
    intros e4 r4 L4 P4 S4. pose proof (pos_len _ _ _ P4) as PL4.
    destruct (Ascii.eqb (hd NUL r4) ",") eqn:C2.
    + destruct (hd_not_nul _ _ C2 eq_refl) as [r4' ->]. simpl in PL4. apply fine_weaken with (off' := S e4); [lia|].
      apply IO; [eauto|exact (sync_S _ _ _ _ S4 P4 ltac:(discriminate))|lia].
    + destruct (Ascii.eqb (hd NUL r4) "}") eqn:C3; [|apply fine_err].
      destruct (hd_not_nul _ _ C3 eq_refl) as [r4' ->]. simpl in PL4. apply fine_ok; [lia|].
      exact (sync_S _ _ _ _ S4 P4 ltac:(discriminate)).
  - intros off acc OK SY L. cbn [arr_loop]. apply bind_fine with (off' := off); [lia|apply IN; [assumption|assumption|lia]|].
    intros v e3 L3 OK3 SB3. apply after_fine; [assumption|assumption|lia| |].
    { intros o c [C|[-> | ->]]; [|reflexivity|reflexivity].
      destruct (Ascii.eqb_spec c ",") as [->|]; [discriminate|]. destruct (Ascii.eqb_spec c "]") as [->|]; [discriminate|reflexivity]. }
    intros e4 r4 L4 P4 S4. pose proof (pos_len _ _ _ P4) as PL4.
    destruct (Ascii.eqb (hd NUL r4) ",") eqn:C2.
    + destruct (hd_not_nul _ _ C2 eq_refl) as [r4' ->]. simpl in PL4. apply fine_weaken with (off' := S e4); [lia|].
      apply IA; [eauto|exact (sync_S _ _ _ _ S4 P4 ltac:(discriminate))|lia].
    + destruct (Ascii.eqb (hd NUL r4) "]") eqn:C3; [|apply fine_err].
      destruct (hd_not_nul _ _ C3 eq_refl) as [r4' ->]. simpl in PL4. apply fine_ok; [lia|].
      exact (sync_S _ _ _ _ S4 P4 ltac:(discriminate)).
Qed.
Lemma next_fine s : fine s 0 (parse_next D (2 * length s + 3) s 0).
Proof. apply (proj1 (all_fine _ s)); [split; lia|apply sync_0|lia]. Qed.
Lemma load_fine s : loadJSON D s <> Fuel /\ (loadJSON D s = UB -> risky s).
Proof.
  destruct (next_fine s) as (A & B & _).
  unfold loadJSON, omap. destruct (parse_next _ _ _ _) as [[v e]| | |]; cbn [bind];
    (split; [congruence|]); intros; try discriminate; auto.
Qed.
Lemma load_agree f s : parse_next D f s 0 <> Fuel -> loadJSON D s = omap fst (parse_next D f s 0).
Proof.
  intros H. unfold loadJSON. destruct (next_fine s) as (A & _ & _). now rewrite (next_agree D _ f s 0 A).
Qed.
Lemma load_next f s v e : parse_next D f s 0 = Ok (v, e) -> loadJSON D s = Ok v.
Proof. intros H. rewrite (load_agree f s) by congruence. rewrite H. reflexivity. Qed.
End Main.
