(** C52-C56: JSON text. *)
From Verif Require Import Base DecModel DecProofs JsonModel JsonSpec JsonProofs JsonRoundProofs.
Local Open Scope nat_scope.

(** A toy [double]: integers, printed with the suffix ".0".  Only used in examples. *)
Definition toy : doubles Z :=
  Doubles (fun z => to_string_Z z ++ str ".0") scan_Z (fun x e => (x * 10 ^ e)%Z).

(** C52. *)
Theorem C52_escape_round_trip F (D : doubles F) t :
  loadJSON D (["034"%char] ++ jsonEscape t ++ ["034"%char]) = Ok (JStr t).
Proof. apply load_reads. exact (reads_str D t). Qed.
(** in any surroundings, the parser resumes right behind the closing quote *)
Theorem C52_escape_in_context F (D : doubles F) pre t post :
  exists f, parse_next D f (pre ++ "034"%char :: jsonEscape t ++ "034"%char :: post) (length pre)
            = Ok (JStr t, length pre + length (jsonEscape t) + 2).
Proof.
  change "034"%char with DQ. exists 1. assert (P : pos (pre ++ DQ :: jsonEscape t ++ DQ :: post) (length pre) ([] ++ DQ :: jsonEscape t ++ DQ :: post)) by (exists pre; auto).
  rewrite (next_at D [] _ _ DQ _ 0 eq_refl P eq_refl). cbv zeta. ifs. simpl length at 2. rewrite Nat.add_0_r.
  rewrite (parse_string_escape t _ (length pre) post P). do 2 f_equal. simpl length. rewrite app_length. simpl. lia.
Qed.
(** toString returns the escaped text: it is the stored string iff nothing needs escaping *)
Theorem C52_toString F t : toString (@JStr F t) = t <-> plain t.
Proof. apply escape_id_iff. Qed.
Example C52_example :
  jsonEscape (str "a""b\" ++ [LF]) = str "a\""b\\\n" /\
  loadJSON toy (str """a\""b\\\n""") = Ok (JStr (str "a""b\" ++ [LF])) /\ ~ plain (str "a""b").
Proof.
  split; [reflexivity|]. split; [vm_compute; reflexivity|]. intros H. apply (H "034"%char); [vm_compute; tauto|left; reflexivity].
Qed.

(** C53. *)
Theorem C53_round_trip F (D : doubles F) depth tab v :
  value escaped (float_stable D) v -> forallb isspace tab = true ->
  loadJSON D (dump D depth tab v) = Ok v.
Proof. intros V T. apply load_reads. now apply reads_dump. Qed.
Theorem C53_round_trip_plain F (D : doubles F) depth tab v :
  value plain (float_stable D) v -> forallb isspace tab = true ->
  loadJSON D (dump D depth tab v) = Ok v.
Proof.
  intros V T. apply C53_round_trip; [|assumption]. eapply value_impl; [| |exact V]; [|auto].
  intros k K. exists k. symmetry. now apply escape_plain.
Qed.
(** exactly the values whose keys are escaped forms survive *)
Theorem C53_exact F (D : doubles F) depth tab v :
  value (fun _ => True) (float_stable D) v -> forallb isspace tab = true ->
  (loadJSON D (dump D depth tab v) = Ok v <-> value escaped (float_stable D) v).
Proof.
  intros V T. split; [|intros H; now apply C53_round_trip]. intros H. apply load_value in H. exact (value_and _ _ _ _ v H V).
Qed.
(** in particular everything the parser returned *)
Theorem C53_reload F (D : doubles F) depth tab s v :
  loadJSON D s = Ok v -> value (fun _ => True) (float_stable D) v -> forallb isspace tab = true ->
  loadJSON D (dump D depth tab v) = Ok v.
Proof. intros L V T. apply (C53_exact F D depth tab v V T). apply load_value in L. exact (value_and _ _ _ _ v L V). Qed.
Definition C53_value : json Z :=
  JObj [(str "a", JArr [JInt (-5); JNull; JBool true; JStr (str "x""y"); JArr []]); (str "b", JObj []); (str "c", JFlt 77%Z)].
Example C53_example :
  value plain (float_stable toy) C53_value /\ forallb isspace (str "  ") = true /\
  loadJSON toy (dump toy 1 (str "  ") C53_value) = Ok C53_value.
Proof.
  assert (PL : forall c, ~ special c -> plain [c]) by (intros c C x [<-|[]]; assumption).
  assert (NA : ~ special "a" /\ ~ special "b" /\ ~ special "c").
  { unfold special. simpl. split; [|split]; intros H; decompose [or] H; try discriminate; assumption. }
  split; [|split; [reflexivity|vm_compute; reflexivity]].
  cbn [value C53_value map fst snd increasing fold_right].
  assert (FS : float_stable toy 77%Z).
  { split; [|reflexivity]. exists "7"%char, (str "7.0"). split; [reflexivity|]. split; [left; reflexivity|].
    split; [reflexivity|]. simpl. tauto. }
  repeat first [exact FS | exact I | reflexivity | (apply PL; tauto) | (apply lex_lt; reflexivity) | split].
Qed.

(** C54. *)
Theorem C54_key_stored_escaped F (D : doubles F) t :
  loadJSON D (str "{""" ++ jsonEscape t ++ str """:null}") = Ok (JObj [(jsonEscape t, JNull)]).
Proof.
  (* the text differs from dump only by spaces *)
  set (s := str "{""" ++ jsonEscape t ++ str """:null}").
  assert (P : pos s 0 ([] ++ "{"%char :: DQ :: jsonEscape t ++ DQ :: str ":null}")) by apply pos_0.
  assert (H : parse_next D 3 s 0 = Ok (JObj [(jsonEscape t, JNull)], length s)).
  { rewrite (next_at D [] s 0 "{" _ 2 eq_refl P eq_refl). cbv zeta. ifs. change (S (0 + @length ascii [])) with 1.
    pose proof (pos_S _ _ _ _ P) as P1. rewrite (skip_none s 1 _ P1 eq_refl). cbn [bind].
    rewrite (pos_at _ _ _ _ P1). cbn [bind]. ifs. rewrite obj_loop_S.
    rewrite (next_key D [] s 1 _ t _ eq_refl P1 (key_escape t)). cbn [bind].
    pose proof (pos_S _ _ _ _ P1) as P2. apply pos_app in P2. apply pos_S in P2. cbn [str list_ascii_of_string] in P2.
    replace (S (2 + length (jsonEscape t))) with (1 + length (@nil ascii) + length (jsonEscape t) + 2) in P2 by (simpl; lia).
    rewrite (skip_none s _ _ P2 eq_refl). cbn [bind]. rewrite (pos_at _ _ _ _ P2). cbn [bind]. ifs.
    pose proof (pos_S _ _ _ _ P2) as P3. rewrite (skip_none s _ _ P3 eq_refl). cbn [bind].
    rewrite (next_at D [] s _ "n" _ 0 eq_refl P3 eq_refl). cbv zeta. ifs. cbn [length]. unfold parse_null.
    change ("n"%char :: "u"%char :: "l"%char :: "l"%char :: ["}"%char]) with (str "null" ++ ["}"%char]) in P3.
    rewrite !Nat.add_0_r in *. rewrite (substr_pos s _ (str "null") _ 4 P3 eq_refl), beq_refl. cbn [bind].
    apply pos_app in P3. change (length (str "null")) with 4 in P3.
    rewrite (skip_none s _ _ P3 eq_refl). cbn [bind]. rewrite (pos_at _ _ _ _ P3). cbn [bind]. ifs.
    do 2 f_equal. apply pos_S in P3. apply pos_len in P3. simpl in P3 |- *. lia. }
  exact (load_next D 3 s _ _ H).
Qed.
(** a key without quote and backslash comes back escaped *)
Theorem C54_key_raw F (D : doubles F) depth tab k v :
  ~ In "034"%char k -> ~ In "092"%char k -> value escaped (float_stable D) v -> forallb isspace tab = true ->
  loadJSON D (dump D depth tab (JObj [(k, v)])) = Ok (JObj [(jsonEscape k, v)]).
Proof.
  intros N1 N2 V T. apply load_reads. apply (reads_obj D depth tab [(k, v)] [(k, v)] T). constructor; [|constructor].
  cbn [fst snd]. split; [now apply key_raw|]. split; [now apply reads_dump|]. eapply starts_dump. exact V.
Qed.
(** so the key is recovered iff it is the escaped form of some string *)
Theorem C54_exact F (D : doubles F) depth tab k v :
  value escaped (float_stable D) v -> forallb isspace tab = true ->
  (loadJSON D (dump D depth tab (JObj [(k, v)])) = Ok (JObj [(k, v)]) <-> exists t, k = jsonEscape t).
Proof.
  intros V T. rewrite C53_exact; [|apply value_obj; split; [exact I|]; repeat constructor; eapply value_impl; [| |exact V]; auto|assumption].
  rewrite value_obj. split.
  - intros [_ H]. inversion H as [|? ? [K _] _]; subst. exact K.
  - intros K. split; [exact I|]. constructor; [|constructor]. auto.
Qed.
(** the natural claim is false: a quote in a key makes the text unreadable, a
    backslash or a line break changes the key, a final backslash makes the parser
    run past the end of the text *)
Theorem C54_any_key_refuted :
  loadJSON toy (dump toy 1 (str "  ") (JObj [(str "a""b", JNull)])) = Err /\
  loadJSON toy (dump toy 1 (str "  ") (JObj [(str "a\xb", JNull)])) = Ok (JObj [(str "a\\b", JNull)]) /\
  loadJSON toy (dump toy 1 (str "  ") (JObj [([LF], JNull)])) = Ok (JObj [(str "\n", JNull)]) /\
  loadJSON toy (dump toy 1 (str "  ") (JObj [(str "\", JNull)])) = UB.
Proof. vm_compute. repeat split; reflexivity. Qed.

(** C55. *)
Theorem C55_integer F (D : doubles F) (neg : bool) ds :
  ds <> [] -> forallb is_digit ds = true ->
  loadJSON D ((if neg then ["-"%char] else []) ++ ds) =
    Ok (JInt (Z.max (-2147483648) (Z.min 2147483647 (if neg then - dec_value ds else dec_value ds)))).
Proof.
  intros N DG. apply load_reads. pose proof (digit_number ds DG) as DN.
  assert (ND : has_dot ds = false).
  { unfold has_dot. destruct (existsb _ ds) eqn:E; [|reflexivity]. apply existsb_exists in E. destruct E as (x & X & Y).
    apply Ascii.eqb_eq in Y. subst x. rewrite forallb_forall in DG. apply DG in X. discriminate. }
  destruct neg.
  - pose proof (reads_num D "-" ds eq_refl DN) as R. change (has_dot ("-"%char :: ds)) with (has_dot ds) in R.
    rewrite ND in R. unfold scan_int in R. rewrite scan_Z_neg in R by assumption. exact R.
  - destruct ds as [|c ds]; [congruence|]. cbn [forallb] in DG, DN. apply andb_true_iff in DG. destruct DG as [D1 D2].
    apply andb_true_iff in DN. destruct DN as [_ DN].
    pose proof (reads_num D c ds ltac:(rewrite D1; reflexivity) DN) as R. rewrite ND in R. unfold scan_int in R.
    rewrite scan_Z_digits in R by (cbn [forallb]; now rewrite D1). exact R.
Qed.
(** a number: digit or minus first, then digits, minus, dots *)
Definition mantissa (m : bytes) : Prop :=
  exists c t, m = c :: t /\ (is_digit c = true \/ c = "-"%char) /\ forallb number_char t = true.
Theorem C55_fraction F (D : doubles F) m : mantissa m -> In "."%char m ->
  loadJSON D m = Ok (JFlt (f_scale D (f_read D m) 0)).
Proof.
  intros (c & t & -> & C & N) DT. apply load_reads.
  assert (A : is_digit c || Ascii.eqb c "-" = true) by (destruct C as [-> | ->]; reflexivity).
  pose proof (reads_num D c t A N) as R. now rewrite (in_has_dot _ DT) in R.
Qed.
Lemma next_number F (D : doubles F) f pre m r : mantissa m ->
  parse_next D (S f) (pre ++ m ++ r) (length pre) = parse_number D (pre ++ m ++ r) (length pre) /\
  forallb number_char m = true.
Proof.
  intros (c & t & -> & C & N).
  assert (A : is_digit c || Ascii.eqb c "-" = true) by (destruct C as [-> | ->]; reflexivity).
  destruct (digit_notspace c A) as (H1 & H2 & H3 & H4 & H5 & H6 & _).
  assert (P : pos (pre ++ (c :: t) ++ r) (length pre) ([] ++ c :: t ++ r)) by (exists pre; auto).
  split.
  - rewrite (next_at D [] _ _ c _ f eq_refl P H1). cbv zeta. rewrite H2, H3, H4, H5, H6, A. cbn [length]. now rewrite Nat.add_0_r.
  - cbn [forallb]. unfold number_char at 1. rewrite A, N. reflexivity.
Qed.
(** exponent with a sign *)
Theorem C55_exponent_signed F (D : doubles F) m e (neg : bool) ds :
  mantissa m -> e = "e"%char \/ e = "E"%char -> ds <> [] -> forallb is_digit ds = true ->
  (dec_value ds <= 2147483647)%Z ->
  loadJSON D (m ++ e :: (if neg then "-"%char else "+"%char) :: ds) =
    Ok (JFlt (f_scale D (f_read D m) (if neg then - dec_value ds else dec_value ds))).
Proof.
  intros M E N DG B. pose proof (dec_value_bound ds DG) as [B0 _].
  destruct (next_number F D 0 [] m (e :: (if neg then "-"%char else "+"%char) :: ds) M) as [H W].
  cbn [app length] in H.
  assert (P : pos (m ++ e :: (if neg then "-"%char else "+"%char) :: ds) 0 (m ++ e :: (if neg then "-"%char else "+"%char) :: ds ++ []))
    by (rewrite app_nil_r; apply pos_0).
  rewrite (number_exp D _ 0 m e _ ds [] P W E DG eq_refl) in H. cbn [hd] in H. change (delimiter NUL) with true in H. cbn iota zeta in H.
  assert (V : exp_value ((if Ascii.eqb (if neg then "-"%char else "+"%char) "-" then ["-"%char] else []) ++ ds) =
              Ok (if neg then - dec_value ds else dec_value ds)%Z).
  { unfold exp_value, chk32. destruct neg.
    - change (Ascii.eqb "-" "-") with true. cbn [app]. rewrite scan_Z_neg by assumption.
      replace (in_int32 _) with true; [reflexivity|]. unfold in_int32, int32_min, int32_max. lia.
    - change (Ascii.eqb "+" "-") with false. cbn [app]. rewrite scan_Z_digits by assumption.
      replace (in_int32 _) with true; [reflexivity|]. unfold in_int32, int32_min, int32_max. lia. }
  rewrite V in H. cbn [bind] in H. apply load_next in H. rewrite H. f_equal.
  destruct neg, (has_dot m), ds; try congruence; reflexivity.
Qed.
(** without a sign the first digit of the exponent is dropped *)
Theorem C55_exponent_unsigned F (D : doubles F) m e d ds :
  mantissa m -> e = "e"%char \/ e = "E"%char -> is_digit d = true -> forallb is_digit ds = true ->
  (dec_value ds <= 2147483647)%Z ->
  loadJSON D (m ++ e :: d :: ds) =
    Ok (if has_dot m then JFlt (f_scale D (f_read D m) (dec_value ds))
        else match ds with [] => JInt (scan_int m) | _ => JFlt (f_scale D (f_read D m) (dec_value ds)) end).
Proof.
  intros M E DD DG B. pose proof (dec_value_bound ds DG) as [B0 _].
  destruct (next_number F D 0 [] m (e :: d :: ds) M) as [H W]. cbn [app length] in H.
  assert (P : pos (m ++ e :: d :: ds) 0 (m ++ e :: d :: ds ++ [])) by (rewrite app_nil_r; apply pos_0).
  rewrite (number_exp D _ 0 m e _ ds [] P W E DG eq_refl) in H. cbn [hd] in H. change (delimiter NUL) with true in H. cbn iota zeta in H.
  destruct (Ascii.eqb_spec d "-") as [->|_]; [discriminate|]. cbn [app] in H.
  assert (V : exp_value ds = Ok (dec_value ds)).
  { unfold exp_value, chk32. rewrite scan_Z_digits by assumption.
    replace (in_int32 _) with true; [reflexivity|]. unfold in_int32, int32_min, int32_max. lia. }
  rewrite V in H. cbn [bind] in H. apply load_next in H. rewrite H. destruct (has_dot m), ds; reflexivity.
Qed.
(** inside an array a number with a (signed) exponent is always rejected *)
Theorem C55_exponent_in_array F (D : doubles F) m e sg ds x post :
  mantissa m -> e = "e"%char \/ e = "E"%char -> sg = "+"%char \/ sg = "-"%char -> ds <> [] -> forallb is_digit ds = true ->
  (dec_value ds <= 2147483647)%Z -> x = ","%char \/ x = "]"%char \/ isspace x = true ->
  loadJSON D ("["%char :: m ++ e :: sg :: ds ++ x :: post) = Err.
Proof.
  intros M E SG N DG B X. pose proof (dec_value_bound ds DG) as [B0 _].
  set (s := "["%char :: m ++ e :: sg :: ds ++ x :: post).
  destruct (next_number F D 0 ["["%char] m (e :: sg :: ds ++ x :: post) M) as [H W]. cbn [app length] in H. fold s in H.
  assert (P : pos s 1 (m ++ e :: sg :: ds ++ x :: post)) by (exists ["["%char]; auto).
  assert (XD : is_digit x = false /\ delimiter x = true /\ x <> NUL).
  { destruct X as [->|[->|X]]; [repeat split; discriminate|repeat split; discriminate|].
    split; [|split]; [|unfold delimiter; now rewrite X|intros ->; discriminate].
    unfold isspace in X. unfold is_digit. lia. }
  destruct XD as (X1 & X2 & X3).
  rewrite (number_exp D s 1 m e sg ds (x :: post) P W E DG X1) in H. cbn [hd] in H. rewrite X2 in H. cbv zeta in H.
  destruct (Ascii.eqb_spec x NUL); [contradiction|].
  assert (V : exists z, exp_value ((if Ascii.eqb sg "-" then ["-"%char] else []) ++ ds) = Ok z).
  { unfold exp_value, chk32. destruct SG as [-> | ->].
    - change (Ascii.eqb "+" "-") with false. cbn [app]. rewrite scan_Z_digits by assumption.
      replace (in_int32 _) with true; [eauto|]. unfold in_int32, int32_min, int32_max. lia.
    - change (Ascii.eqb "-" "-") with true. cbn [app]. rewrite scan_Z_neg by assumption.
      replace (in_int32 _) with true; [eauto|]. unfold in_int32, int32_min, int32_max. lia. }
  destruct V as [z V]. rewrite V in H. cbn [bind] in H.
  destruct (exists_last N) as (ds' & d & Eds).
  assert (PD : pos s (1 + length m + 2 + length ds - 1) (d :: x :: post)).
  { rewrite Eds in P |- *. rewrite <- app_assoc in P. apply pos_app in P. apply pos_S in P. apply pos_S in P. apply pos_app in P.
    cbn [app] in P. rewrite app_length. cbn [length].
    replace (1 + length m + 2 + (length ds' + 1) - 1) with (S (S (1 + length m)) + length ds') by lia. exact P. }
  assert (DDG : is_digit d = true).
  { rewrite Eds, forallb_app in DG. apply andb_true_iff in DG. destruct DG as [_ DG]. cbn in DG. now rewrite andb_true_r in DG. }
  assert (DS : isspace d = false /\ Ascii.eqb d "," = false /\ Ascii.eqb d "]" = false).
  { split; [unfold is_digit in DDG; unfold isspace; lia|].
    split; [destruct (Ascii.eqb_spec d ",") as [->|]|destruct (Ascii.eqb_spec d "]") as [->|]]; try reflexivity; discriminate. }
  destruct DS as (DS1 & DS2 & DS3).
  assert (R : parse_next D 3 s 0 = Err).
  { assert (P0 : pos s 0 ([] ++ "["%char :: m ++ e :: sg :: ds ++ x :: post)) by apply pos_0.
    rewrite (next_at D [] s 0 "[" _ 2 eq_refl P0 eq_refl). cbv zeta. ifs. cbn [length]. change (S (0 + 0)) with 1.
    destruct M as (c & t & -> & C & T).
    assert (A : is_digit c || Ascii.eqb c "-" = true) by (destruct C as [-> | ->]; reflexivity).
    destruct (digit_notspace c A) as (H1 & _ & _ & _ & _ & _ & H2 & _).
    assert (P1 : pos s 1 (c :: t ++ e :: sg :: ds ++ x :: post)) by exact P.
    rewrite (skip_none s 1 _ P1 H1). cbn [bind]. rewrite (pos_at _ _ _ _ P1). cbn [bind].
    destruct (Ascii.eqb_spec c "]"); [contradiction|]. rewrite arr_loop_S, H. cbn [bind]. cbv zeta.
    rewrite (skip_none s _ _ PD DS1). cbn [bind]. rewrite (pos_at _ _ _ _ PD). cbn [bind]. rewrite DS2, DS3. reflexivity. }
  rewrite (load_agree D 3 s) by congruence. rewrite R. reflexivity.
Qed.
(** the natural claims about exponents are false *)
Theorem C55_exponent_refuted :
  loadJSON toy (str "1e5") = Ok (JInt 1) /\ loadJSON toy (str "1e15") = Ok (JFlt 100000%Z) /\
  loadJSON toy (str "[1e+5]") = Err /\ loadJSON toy (str "1e+5") = Ok (JFlt 100000%Z) /\
  loadJSON toy (str "[1e]]") = Ok (JArr [JInt 1]) /\ loadJSON toy (str "99999999999") = Ok (JInt 2147483647).
Proof. vm_compute. repeat split; reflexivity. Qed.
Example C55_example :
  loadJSON toy (str "-0042") = Ok (JInt (-42)) /\ mantissa (str "-12.5") /\ In "."%char (str "-12.5") /\
  loadJSON toy (str "3E-2") = Ok (JFlt 0%Z) /\ loadJSON toy (str "[ 3e+2 , 1]") = Err.
Proof.
  split; [vm_compute; reflexivity|]. split.
  { exists "-"%char, (str "12.5"). split; [reflexivity|]. split; [right; reflexivity|reflexivity]. }
  split; [cbn; tauto|]. split; vm_compute; reflexivity.
Qed.

(** C56: every text is answered by a value, an error or (only for risky texts) a
    read behind the terminating NUL; the parser always terminates. *)
Theorem C56_terminates F (D : doubles F) s :
  (exists v, loadJSON D s = Ok v) \/ loadJSON D s = Err \/ loadJSON D s = UB.
Proof.
  destruct (load_fine D s) as [A _]. destruct (loadJSON D s) as [v| | |]; eauto. congruence.
Qed.
Theorem C56_safe F (D : doubles F) s : ~ risky s -> loadJSON D s <> UB.
Proof. intros N H. apply N. now apply (load_fine D s). Qed.
Theorem C56_unterminated_string F (D : doubles F) t : ~ In "034"%char t -> ~ In "092"%char t ->
  loadJSON D ("034"%char :: t) = UB.
Proof.
  intros N1 N2. set (s := "034"%char :: t).
  assert (L : forall u f off val, pos s off u -> ~ In DQ u -> ~ In BSL u -> length u + 1 < f -> str_loop f s off val = UB).
  { induction u as [|c u IH]; intros [|f] off val P A B L; simpl in L; try lia; cbn [str_loop].
    - rewrite (pos_end _ _ P). cbn [bind]. ifs. destruct f as [|f]; [lia|]. cbn [str_loop].
      apply pos_len in P. simpl in P. rewrite at_oob by (simpl; lia). reflexivity.
    - rewrite (pos_at _ _ _ _ P). cbn [bind].
      destruct (Ascii.eqb_spec c DQ) as [->|]; [exfalso; apply A; left; reflexivity|].
      destruct (Ascii.eqb_spec c BSL) as [->|]; [exfalso; apply B; left; reflexivity|].
      apply IH; [exact (pos_S _ _ _ _ P)|intros H; apply A; now right|intros H; apply B; now right|lia]. }
  assert (P : pos s 0 ([] ++ DQ :: t)) by apply pos_0.
  assert (R : parse_next D 1 s 0 = UB).
  { rewrite (next_at D [] s 0 DQ t 0 eq_refl P eq_refl). cbv zeta. ifs. unfold parse_string. cbn [length].
    rewrite (L t); [reflexivity|exact (pos_S _ _ _ _ P)|assumption|assumption|unfold s; simpl; lia]. }
  rewrite (load_agree D 1 s) by congruence. rewrite R. reflexivity.
Qed.
Theorem C56_unterminated_array F (D : doubles F) m : mantissa m -> loadJSON D ("["%char :: m) = UB.
Proof.
  intros M. set (s := "["%char :: m).
  destruct (next_number F D 0 ["["%char] m [] M) as [H W]. cbn [app length] in H. rewrite app_nil_r in H. fold s in H.
  assert (P : pos s 1 (m ++ [])) by (rewrite app_nil_r; exists ["["%char]; auto).
  rewrite (number_plain D s 1 m [] P W eq_refl eq_refl) in H. cbn [hd] in H. change (Ascii.eqb NUL NUL) with true in H. cbn iota in H.
  assert (R : parse_next D 3 s 0 = UB).
  { assert (P0 : pos s 0 ([] ++ "["%char :: m)) by apply pos_0.
    rewrite (next_at D [] s 0 "[" _ 2 eq_refl P0 eq_refl). cbv zeta. ifs. cbn [length]. change (S (0 + 0)) with 1.
    destruct M as (c & t & -> & C & T).
    assert (A : is_digit c || Ascii.eqb c "-" = true) by (destruct C as [-> | ->]; reflexivity).
    destruct (digit_notspace c A) as (H1 & _ & _ & _ & _ & _ & H2 & _).
    assert (P1 : pos s 1 (c :: t)) by (rewrite app_nil_r in P; exact P).
    rewrite (skip_none s 1 _ P1 H1). cbn [bind]. rewrite (pos_at _ _ _ _ P1). cbn [bind].
    destruct (Ascii.eqb_spec c "]"); [contradiction|]. rewrite arr_loop_S, H. cbn [bind]. cbv zeta.
    unfold skip_whitespaces at 1. replace (length s + 2) with (S (length s + 1)) by lia. cbn [skip_ws].
    rewrite at_oob by (unfold s; simpl; lia). reflexivity. }
  rewrite (load_agree D 3 s) by congruence. rewrite R. reflexivity.
Qed.
Example C56_example :
  ~ risky (str "{""a"" : [1, 2}") /\ loadJSON toy (str "{""a"" : [1, 2}") = Err /\
  risky (str "[""ab]") /\ loadJSON toy (str "[""ab]") = UB /\
  loadJSON toy (str "1e+99999999999") = UB /\ loadJSON toy (str "") = Err.
Proof.
  split; [|split; [vm_compute; reflexivity|]; split; [left; reflexivity|]; repeat split; vm_compute; reflexivity].
  intros [H|[(a & c & H & N)|(a & e & c & ds & rest & H & E & _)]].
  - discriminate.
  - change (str "{""a"" : [1, 2}") with (str "{""a"" : [1, 2" ++ ["}"%char]) in H. apply app_inj_tail in H.
    destruct H as [_ <-]. discriminate.
  - assert (I : In e (str "{""a"" : [1, 2}")) by (rewrite H; apply in_or_app; right; now left).
    simpl in I. destruct E as [-> | ->]; decompose [or] I; try discriminate; assumption.
Qed.
Print Assumptions C53_exact.
Print Assumptions C55_exponent_in_array.
Print Assumptions C56_safe.
Print Assumptions C52_escape_round_trip.
Print Assumptions C52_escape_in_context.
Print Assumptions C52_toString.
Print Assumptions C53_round_trip.
Print Assumptions C53_round_trip_plain.
Print Assumptions C53_reload.
Print Assumptions C54_key_stored_escaped.
Print Assumptions C54_key_raw.
Print Assumptions C54_exact.
Print Assumptions C54_any_key_refuted.
Print Assumptions C55_integer.
Print Assumptions C55_fraction.
Print Assumptions C55_exponent_signed.
Print Assumptions C55_exponent_unsigned.
Print Assumptions C55_exponent_refuted.
Print Assumptions C56_terminates.
Print Assumptions C56_unterminated_string.
Print Assumptions C56_unterminated_array.
