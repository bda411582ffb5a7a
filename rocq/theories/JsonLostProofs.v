(** loadJSON is undefined exactly on the lost texts. *)
From Verif Require Import Base DecModel DecProofs JsonModel JsonSpec JsonProofs JsonRoundProofs JsonTextSpec JsonTextProofs JsonLooseSpec JsonLooseProofs JsonLostSpec.
Local Open Scope nat_scope.

Lemma bind_ub {A B} (m : outcome A) (k : A -> outcome B) : bind m k = UB -> m = UB \/ exists a, m = Ok a /\ k a = UB.
Proof. destruct m; cbn [bind]; intros H; try discriminate; eauto. Qed.
Lemma skip_pos s off r : pos s off r -> exists w r', r = w ++ r' /\ spaces w /\ isspace (hd NUL r') = false /\ pos s (off + length w) r' /\ skip_whitespaces s off = Ok (off + length w).
Proof.
  intros P. destruct (prefix_split isspace r eq_refl) as (w & r' & -> & W & N). exists w, r'. split; [reflexivity|]. split; [now apply spaces_iff|]. split; [exact N|].
  split; [exact (pos_app _ _ _ _ P)|exact (skip_spec w s off r' P W N)].
Qed.
Lemma skip_behind s e : after s e None -> skip_whitespaces s e = UB.
Proof. cbn. intros ->. unfold skip_whitespaces. replace (length s + 2) with (S (length s + 1)) by lia. cbn [skip_ws]. now rewrite at_oob by lia. Qed.

(** * Strings *)
Lemma open_body b t : lchars b t -> forall f s off val u, u = [] \/ u = [BSL] -> pos s off (b ++ u) -> length b + 2 <= f -> str_loop f s off val = UB.
Proof.
  assert (E1 : forall f s off val e b u, pos s off (BSL :: e :: b ++ u) -> Ascii.eqb e "u" = false ->
    (forall val, pos s (S (S off)) (b ++ u) -> str_loop f s (S (S off)) val = UB) -> str_loop (S f) s off val = UB).
  { intros f s off val e b0 u P U IH. cbn [str_loop]. pose proof (pos_S _ _ _ _ P) as P1. rewrite (pos_at _ _ _ _ P). cbn [bind].
    change (Ascii.eqb BSL DQ) with false. change (Ascii.eqb BSL BSL) with true. cbv iota. rewrite (pos_at _ _ _ _ P1). cbn [bind]. rewrite U. exact (IH _ (pos_S _ _ _ _ P1)). }
  induction 1 as [|c b t N1 N2 H IH|e c b t I H IH|e b t I N H IH|h b t L X H IH]; intros f s off val u U P Lf; (destruct f as [|f]; [lia|]).
  - cbn [app] in P. pose proof (pos_len _ _ _ P) as PL. cbn [length] in Lf. destruct f as [|f]; [lia|]. destruct U as [-> | ->].
    + cbn [str_loop]. rewrite (pos_end _ _ P). cbn [bind]. change (Ascii.eqb NUL DQ) with false. change (Ascii.eqb NUL BSL) with false. cbv iota. cbn [length] in PL. now rewrite at_oob by lia.
    + cbn [str_loop]. rewrite (pos_at _ _ _ _ P). cbn [bind]. change (Ascii.eqb BSL DQ) with false. change (Ascii.eqb BSL BSL) with true. cbv iota. rewrite (pos_end _ _ (pos_S _ _ _ _ P)). cbn [bind].
      change (Ascii.eqb NUL "u") with false. cbv iota. cbn [length] in PL. now rewrite at_oob by lia.
  - cbn [str_loop]. cbn [app] in P. rewrite (pos_at _ _ _ _ P). cbn [bind]. destruct (Ascii.eqb_spec c DQ); [contradiction|]. destruct (Ascii.eqb_spec c BSL); [contradiction|].
    cbn [length] in Lf. apply (IH f s (S off) _ u U (pos_S _ _ _ _ P)). lia.
  - destruct (known_spec _ _ I) as [V _]. apply (E1 f s off val e b u P V). intros v' P'. apply (IH f s _ v' u U P'). cbn [length] in Lf. lia.
  - apply (E1 f s off val e b u P).
    + destruct (Ascii.eqb_spec e "u"); [contradiction|reflexivity].
    + intros v' P'. apply (IH f s _ v' u U P'). cbn [length] in Lf. lia.
  - cbn [str_loop]. cbn [app] in P. rewrite <- app_assoc in P. pose proof (pos_S _ _ _ _ P) as P1. pose proof (pos_S _ _ _ _ P1) as P2. pose proof (pos_app _ _ _ _ P2) as P3.
    rewrite (pos_at _ _ _ _ P). cbn [bind].
    change (Ascii.eqb "092" DQ) with false. change (Ascii.eqb "092" BSL) with true. cbv iota. rewrite (pos_at _ _ _ _ P1). cbn [bind].
    change (Ascii.eqb "u" "u") with true. cbv iota. pose proof (hex_loop_spec h s (S (S off)) (val ++ [BSL; "u"%char]) _ (hex_chars h X) P2) as EH.
    rewrite L in EH. rewrite EH. cbn [bind]. cbn [length] in Lf. rewrite app_length in Lf. replace (off + 6) with (S (S off) + length h) by lia.
    apply (IH f s _ _ u U P3). lia.
Qed.
Lemma open_sound f : forall s off val r, pos s off r -> str_loop f s off val = UB -> exists b t u, r = b ++ u /\ lchars b t /\ (u = [] \/ u = [BSL]).
Proof.
  induction f as [|f IH]; intros s off val r P E; [discriminate|]. cbn [str_loop] in E. pose proof (pos_len _ _ _ P) as PL.
  rewrite (pos_at_hd _ _ _ P) in E. cbn [bind] in E. destruct r as [|c r]; cbn [hd] in E.
  { exists [], [], []. split; [reflexivity|]. split; [constructor|now left]. }
  pose proof (pos_S _ _ _ _ P) as P1. destruct (Ascii.eqb_spec c DQ) as [->|N1]; [discriminate|]. destruct (Ascii.eqb_spec c BSL) as [->|N2].
  - rewrite (pos_at_hd _ _ _ P1) in E. cbn [bind] in E. destruct r as [|c2 r].
    { exists [], [], [BSL]. split; [reflexivity|]. split; [constructor|now right]. }
    cbn [hd] in E. pose proof (pos_S _ _ _ _ P1) as P2. cbn [length] in PL. destruct (Ascii.eqb_spec c2 "u") as [->|N3].
    + destruct (hex_out 4 s (S (S off)) (val ++ [BSL; "u"%char])) as [X|(h & X & A1 & A2 & A3 & r' & A4)]; [lia|rewrite X in E; discriminate|].
      rewrite X in E. cbn [bind] in E. pose proof (pos_det _ _ _ _ P2 A4) as ->.
      assert (P3 : pos s (off + 6) r') by (replace (off + 6) with (S (S off) + length h) by lia; now apply pos_app).
      destruct (IH _ _ _ _ P3 E) as (b & t & u & -> & C & U). exists (BSL :: "u"%char :: h ++ b), (BSL :: "u"%char :: h ++ t), u.
      split; [cbn [app]; now rewrite <- app_assoc|]. split; [|exact U]. apply lc_unicode; [lia| |exact C]. intros c I. apply hex_iff. rewrite forallb_forall in A2. now apply A2.
    + destruct (IH _ _ _ _ P2 E) as (b & t & u & -> & C & U). exists (BSL :: c2 :: b), (unescape c2 :: t), u. split; [reflexivity|]. split; [|exact U].
      destruct (known_dec c2) as [K|[K ->]]; [now apply lc_escape|now apply lc_unknown].
  - destruct (IH _ _ _ _ P1 E) as (b & t & u & -> & C & U). exists (c :: b), (c :: t), u. split; [reflexivity|]. split; [now apply lc_plain|exact U].
Qed.

(** * Numbers *)
Lemma wide_iff x ds : forallb is_digit ds = true -> (wide x ds <-> exp_value ((if Ascii.eqb x "-" then ["-"%char] else []) ++ ds) = UB).
Proof.
  intros A. unfold wide, exp_value, chk32. cbv zeta. assert (E : scan_Z ((if Ascii.eqb x "-" then ["-"%char] else []) ++ ds) = (if Ascii.eqb x "-" then - dec_value ds else dec_value ds)%Z).
  { destruct (Ascii.eqb x "-"); cbn [app]; [now apply scan_Z_neg|now apply scan_Z_digits]. }
  rewrite E. set (z := (if Ascii.eqb x "-" then - dec_value ds else dec_value ds)%Z). clearbody z. pose proof (in_int32_iff z) as I. unfold int32_min, int32_max in I. destruct (in_int32 z).
  - assert (X := proj1 I eq_refl). split; [intros [H|H]; exfalso; lia|discriminate].
  - split; [reflexivity|]. intros _. assert (X : ~ (- 2147483648 <= z <= 2147483647)%Z) by (intros H; apply I in H; discriminate). lia.
Qed.
Lemma exp_value_cases es : exp_value es = UB \/ exists z, exp_value es = Ok z.
Proof. unfold exp_value, chk32. destruct (in_int32 _); eauto. Qed.
Section P.
Context {F : Type} (D : doubles F).
Lemma number_lost s off c r : pos s off (c :: r) -> is_digit c || Ascii.eqb c "-" = true -> parse_number D s off = UB -> lost D (c :: r).
Proof.
  intros P C E. destruct (prefix_split number_char (c :: r) eq_refl) as (n & r' & En & W & N).
  assert (R : run n).
  { destruct n as [|c0 n]; [exfalso; cbn [app] in En; subst r'; cbn [hd] in N; unfold number_char in N; rewrite C in N; discriminate|]. injection En as <- _.
    exists c, n. cbn [forallb] in W. apply andb_true_iff in W. split; [reflexivity|]. split; [|apply W]. apply orb_true_iff in C. destruct C as [C|C]; [now left|right; now apply Ascii.eqb_eq]. }
  rewrite En in P |- *. pose proof (pos_len _ _ _ P) as L. rewrite app_length in L.
  destruct (delimiter (hd NUL r')) eqn:DL; [rewrite (number_plain D s off n r' P W N DL) in E; discriminate|].
  destruct (Ascii.eqb (hd NUL r') "E" || Ascii.eqb (hd NUL r') "e") eqn:EE.
  - destruct r' as [|e0 r']; [discriminate EE|]. cbn [hd] in EE. assert (He : e0 = "e"%char \/ e0 = "E"%char) by (apply orb_true_iff in EE; rewrite !Ascii.eqb_eq in EE; tauto).
    destruct r' as [|x r'].
    { exfalso. unfold parse_number in E. rewrite (num_loop_spec n _ s off [] false [e0] P W N) in E by lia. cbn [bind hd] in E. rewrite EE in E. cbn [length] in L.
      destruct (Nat.eqb_spec (S (off + length n)) (length s)); [discriminate|lia]. }
    destruct (prefix_split is_digit r' eq_refl) as (ds & r4 & -> & Wd & Nd).
    rewrite (number_exp D s off n e0 x ds r4 P W He Wd Nd) in E. destruct (delimiter (hd NUL r4)) eqn:D4; [|discriminate]. cbv zeta in E.
    apply bind_ub in E. destruct E as [E|(z & _ & E)]; [|discriminate]. apply (x_exp D n e0 x ds r4 R); [now apply e_iff|exact Wd|now apply wide_iff|].
    destruct (Ascii.eqb (hd NUL r4) NUL) eqn:Z; [right; now apply nul_or_end_iff|left; apply stops_iff; now split].
  - exfalso. unfold parse_number in E. rewrite (num_loop_spec n _ s off [] false r' P W N) in E by lia. cbn [bind] in E. rewrite EE, DL in E. discriminate.
Qed.
Lemma exp_lost s off n e0 x ds r : run n -> In e0 (str "eE") -> forallb is_digit ds = true -> wide x ds -> stops r \/ nul_or_end r -> pos s off (n ++ e0 :: x :: ds ++ r) ->
  parse_number D s off = UB.
Proof.
  intros R He Wd V H P. destruct (run_chars n R) as [W NE]. apply e_iff in He. assert (DL : delimiter (hd NUL r) = true).
  { destruct H as [H|H]; [apply stops_iff in H; apply H|]. apply nul_or_end_iff in H. apply Ascii.eqb_eq in H. now rewrite H. }
  rewrite (number_exp D s off n e0 x ds r P W He Wd (digit_delimiter _ DL)), DL. cbv zeta. apply wide_iff in V; [|exact Wd]. now rewrite V.
Qed.

(** * The parser *)
Scheme lost_mind := Minimality for lost Sort Prop
  with lost_items_mind := Minimality for lost_items Sort Prop
  with lost_entries_mind := Minimality for lost_entries Sort Prop.
Combined Scheme lost_mutind from lost_mind, lost_items_mind, lost_entries_mind.
Lemma lost_spaces w s : spaces w -> lost D s -> lost D (w ++ s).
Proof. induction 1 as [|c w C W IH]; intros L; [exact L|]. cbn [app]. apply x_space; auto. Qed.
Lemma lost_items_spaces w s : spaces w -> lost_items D s -> lost_items D (w ++ s).
Proof.
  intros W [s0 L|s0 v L|s0 v w0 s' L S0 I]; [apply xi_here; now apply lost_spaces|apply xi_end with v; now apply loose_spaces|].
  exact (xi_later D _ _ _ _ (loose_spaces D _ _ _ _ W L) S0 I).
Qed.
Lemma lost_entries_spaces w s : spaces w -> lost_entries D s -> lost_entries D (w ++ s).
Proof.
  intros W [s0 L|s0 k L|s0 k w0 s1 L S0 I|s0 k w0 s1 v L S0 I|s0 k w0 s1 v w' s2 L S0 L1 S1 I]; [apply xe_key; now apply lost_spaces|apply xe_key_end with k; now apply loose_spaces| | |].
  - exact (xe_value D _ _ _ _ (loose_spaces D _ _ _ _ W L) S0 I).
  - exact (xe_value_end D _ _ _ _ _ (loose_spaces D _ _ _ _ W L) S0 I).
  - exact (xe_later D _ _ _ _ _ _ _ (loose_spaces D _ _ _ _ W L) S0 L1 S1 I).
Qed.
Lemma lost_sound f : forall s,
  (forall off r, pos s off r -> parse_next D f s off = UB -> lost D r) /\
  (forall off r acc, pos s off r -> obj_loop D f s off acc = UB -> lost_entries D r) /\
  (forall off r acc, pos s off r -> arr_loop D f s off acc = UB -> lost_items D r).
Proof.
  induction f as [|f IH]; intros s; [split; [|split]; intros; discriminate|]. destruct (IH s) as (IN & IO & IA). clear IH. destruct (sound D f s) as (SN & _ & _). split; [|split].
  - intros off r P E. cbn [parse_next] in E. destruct (skip_pos s off r P) as (w & r1 & -> & W & _ & P1 & SK). rewrite SK in E. cbn [bind] in E.
    apply lost_spaces; [exact W|]. rewrite (pos_at_hd _ _ _ P1) in E. cbn [bind] in E.
    destruct (Ascii.eqb (hd NUL r1) "[") eqn:C1.
    { destruct (hd_is _ _ C1 eq_refl) as [r2 ->]. destruct (skip_pos s _ r2 (pos_S _ _ _ _ P1)) as (w2 & r3 & -> & W2 & _ & P3 & SK2). rewrite SK2 in E. cbn [bind] in E. rewrite (pos_at_hd _ _ _ P3) in E. cbn [bind] in E.
      destruct (Ascii.eqb (hd NUL r3) "]") eqn:C2; [discriminate|]. apply x_array. apply lost_items_spaces; [exact W2|]. exact (IA _ _ _ P3 E). }
    destruct (Ascii.eqb (hd NUL r1) "{") eqn:C2.
    { destruct (hd_is _ _ C2 eq_refl) as [r2 ->]. destruct (skip_pos s _ r2 (pos_S _ _ _ _ P1)) as (w2 & r3 & -> & W2 & _ & P3 & SK2). rewrite SK2 in E. cbn [bind] in E. rewrite (pos_at_hd _ _ _ P3) in E. cbn [bind] in E.
      destruct (Ascii.eqb (hd NUL r3) "}") eqn:C3; [discriminate|]. apply x_object. apply lost_entries_spaces; [exact W2|]. exact (IO _ _ _ P3 E). }
    destruct (Ascii.eqb (hd NUL r1) DQ) eqn:C3.
    { destruct (hd_is _ _ C3 eq_refl) as [r2 ->]. unfold parse_string in E. apply bind_ub in E. destruct E as [E|([t e2] & _ & E)]; [|discriminate].
      destruct (open_sound _ _ _ _ _ (pos_S _ _ _ _ P1) E) as (b & t & u & -> & L & U). exact (x_string D b t u L U). }
    destruct (Ascii.eqb (hd NUL r1) "t" || Ascii.eqb (hd NUL r1) "f") eqn:C4; [unfold parse_bool in E; destruct (beq _ _); [discriminate|]; destruct (beq _ _); discriminate|].
    destruct (Ascii.eqb (hd NUL r1) "n") eqn:C5; [unfold parse_null in E; destruct (beq _ _); discriminate|].
    destruct (is_digit (hd NUL r1) || Ascii.eqb (hd NUL r1) "-") eqn:C6; [|discriminate]. destruct r1 as [|c r1]; [discriminate C6|]. exact (number_lost s _ c r1 P1 C6 E).
  - intros off r acc P E. rewrite obj_loop_S in E. apply bind_ub in E. destruct E as [E|([k e1] & E1 & E)]; [apply xe_key; exact (IN _ _ P E)|].
    destruct (SN _ _ _ _ P E1) as (o & A & L). clear E1. destruct o as [r1|]; [|exact (xe_key_end D _ _ L)]. unfold after in A.
    destruct (skip_pos s e1 r1 A) as (w & r2 & -> & W & _ & P2 & SK). rewrite SK in E. cbn [bind] in E. rewrite (pos_at_hd _ _ _ P2) in E. cbn [bind] in E.
    destruct (Ascii.eqb (hd NUL r2) ":") eqn:C1; [|discriminate]. destruct (hd_is _ _ C1 eq_refl) as [r3 ->].
    destruct (skip_pos s _ r3 (pos_S _ _ _ _ P2)) as (w1 & r4 & -> & W1 & _ & P4 & SK1). rewrite SK1 in E. cbn [bind] in E.
    apply bind_ub in E. destruct E as [E|([v e4] & E4 & E)]; [exact (xe_value D _ _ _ _ L W (lost_spaces _ _ W1 (IN _ _ P4 E)))|].
    destruct (SN _ _ _ _ P4 E4) as (o' & A' & L'). clear E4. cbv zeta in E. pose proof (loose_spaces D _ _ _ _ W1 L') as L1. destruct o' as [r5|]; [|exact (xe_value_end D _ _ _ _ _ L W L1)]. unfold after in A'.
    destruct (skip_pos s e4 r5 A') as (w2 & r6 & -> & W2 & _ & P6 & SK2). rewrite SK2 in E. cbn [bind] in E. rewrite (pos_at_hd _ _ _ P6) in E. cbn [bind] in E.
    destruct (Ascii.eqb (hd NUL r6) ",") eqn:C2; [|destruct (Ascii.eqb (hd NUL r6) "}"); discriminate]. destruct (hd_is _ _ C2 eq_refl) as [r7 ->].
    exact (xe_later D _ _ _ _ _ _ _ L W L1 W2 (IO _ _ _ (pos_S _ _ _ _ P6) E)).
  - intros off r acc P E. rewrite arr_loop_S in E. apply bind_ub in E. destruct E as [E|([v e1] & E1 & E)]; [apply xi_here; exact (IN _ _ P E)|].
    destruct (SN _ _ _ _ P E1) as (o & A & L). clear E1. cbv zeta in E. destruct o as [r1|]; [|exact (xi_end D _ _ L)]. unfold after in A.
    destruct (skip_pos s e1 r1 A) as (w & r2 & -> & W & _ & P2 & SK). rewrite SK in E. cbn [bind] in E. rewrite (pos_at_hd _ _ _ P2) in E. cbn [bind] in E.
    destruct (Ascii.eqb (hd NUL r2) ",") eqn:C2; [|destruct (Ascii.eqb (hd NUL r2) "]"); discriminate]. destruct (hd_is _ _ C2 eq_refl) as [r3 ->].
    exact (xi_later D _ _ _ _ L W (IA _ _ _ (pos_S _ _ _ _ P2) E)).
Qed.

Lemma lost_first s : lost D s -> exists w c t, s = w ++ c :: t /\ spaces w /\ isspace c = false /\ c <> "]"%char /\ c <> "}"%char.
Proof.
  induction 1 as [c s C L (w & c0 & t & -> & W & R)|b t u L U|n e x ds r R He Wd V H|s I|s I].
  - exists (c :: w), c0, t. split; [reflexivity|]. split; [now constructor|exact R].
  - exists []; do 2 eexists; split; [reflexivity|]; split; [constructor|]; split; [reflexivity|split; discriminate].
  - destruct R as (c & t & -> & C & _). exists [], c, (t ++ e :: x :: ds ++ r). split; [reflexivity|]. split; [constructor|].
    assert (X : number_char c = true) by (unfold number_char; destruct C as [-> | ->]; reflexivity). split; [|split; intros ->; discriminate].
    destruct (isspace c) eqn:S0; [|reflexivity]. exfalso. assert (DL : delimiter c = true) by (unfold delimiter; now rewrite S0). apply number_char_delimiter in DL. congruence.
  - exists []; do 2 eexists; split; [reflexivity|]; split; [constructor|]; split; [reflexivity|split; discriminate].
  - exists []; do 2 eexists; split; [reflexivity|]; split; [constructor|]; split; [reflexivity|split; discriminate].
Qed.
Lemma lost_items_first s : lost_items D s -> exists w c t, s = w ++ c :: t /\ spaces w /\ isspace c = false /\ c <> "]"%char.
Proof. intros [s0 L|s0 v L|s0 v w s' L _ _]; [destruct (lost_first _ L) as (w0 & c & t & E & W & N & N1 & _)|destruct (loose_first D _ _ _ L) as (w0 & c & t & E & W & N & N1 & _)|destruct (loose_first D _ _ _ L) as (w0 & c & t & E & W & N & N1 & _)]; now exists w0, c, t. Qed.
Lemma lost_entries_first s : lost_entries D s -> exists w c t, s = w ++ c :: t /\ spaces w /\ isspace c = false /\ c <> "}"%char.
Proof.
  intros H. assert (G : lost D s \/ exists v o, loose D s v o) by (destruct H; eauto).
  destruct G as [L|(v & o & L)]; [destruct (lost_first _ L) as (w0 & c & t & E & W & N & _ & N1)|destruct (loose_first D _ _ _ L) as (w0 & c & t & E & W & N & _ & N1)]; now exists w0, c, t.
Qed.
Lemma next_mono_ub f g s off : parse_next D f s off = UB -> f <= g -> parse_next D g s off = UB.
Proof. intros E L. induction L as [|g L IH]; [assumption|]. destruct (proj1 (fuel_mono D g) s off) as [H|H]; congruence. Qed.
Lemma obj_mono_ub f g s off acc : obj_loop D f s off acc = UB -> f <= g -> obj_loop D g s off acc = UB.
Proof. intros E L. induction L as [|g L IH]; [assumption|]. destruct (proj1 (proj2 (fuel_mono D g)) s off acc) as [H|H]; congruence. Qed.
Lemma arr_mono_ub f g s off acc : arr_loop D f s off acc = UB -> f <= g -> arr_loop D g s off acc = UB.
Proof. intros E L. induction L as [|g L IH]; [assumption|]. destruct (proj2 (proj2 (fuel_mono D g)) s off acc) as [H|H]; congruence. Qed.

(** reading a key or an element and the separator behind it *)
Lemma arr_read s off r v w x r' : loose D r v (Some (w ++ x :: r')) -> spaces w -> isspace x = false -> pos s off r ->
  exists f e, pos s e (x :: r') /\ forall g, f <= g -> forall acc, arr_loop D (S g) s off acc =
    if Ascii.eqb x "," then arr_loop D g s (S e) (acc ++ [v]) else if Ascii.eqb x "]" then Ok (JArr (acc ++ [v]), S e) else Err.
Proof.
  intros L W X P. apply spaces_iff in W. destruct (proj1 (complete D) r v _ L s off P) as (f & e & A & E). unfold after in A. exists f, (e + length w). pose proof (pos_app _ _ _ _ A) as P1. split; [exact P1|].
  intros g G acc. rewrite arr_loop_S, (next_mono D f g s off _ E G). cbn [bind]. cbv zeta. rewrite (skip_spec w s e _ A W X). cbn [bind]. now rewrite (pos_at _ _ _ _ P1).
Qed.
Lemma arr_behind s off r v acc : loose D r v None -> pos s off r -> exists f, arr_loop D f s off acc = UB.
Proof.
  intros L P. destruct (proj1 (complete D) r v _ L s off P) as (f & e & A & E). exists (S f). rewrite arr_loop_S, E. cbn [bind]. cbv zeta. now rewrite (skip_behind s e A).
Qed.
Lemma obj_key s off r k w r1 : loose D r k (Some (w ++ ":"%char :: r1)) -> spaces w -> pos s off r ->
  exists f e, pos s e r1 /\ forall g, f <= g -> forall acc, obj_loop D (S g) s off acc =
    (off <- skip_whitespaces s e ;;
     ' (v, off) <- parse_next D g s off ;;
     let acc := map_set acc (toString k) v in
     off <- skip_whitespaces s off ;;
     c <- at_ s off ;;
     if Ascii.eqb c "," then obj_loop D g s (S off) acc else if Ascii.eqb c "}" then Ok (JObj acc, S off) else Err).
Proof.
  intros L W P. apply spaces_iff in W. destruct (proj1 (complete D) r k _ L s off P) as (f & e & A & E). unfold after in A. pose proof (pos_app _ _ _ _ A) as P1. exists f, (S (e + length w)). split; [exact (pos_S _ _ _ _ P1)|].
  intros g G acc. rewrite obj_loop_S, (next_mono D f g s off _ E G). cbn [bind]. rewrite (skip_spec w s e _ A W eq_refl). cbn [bind]. now rewrite (pos_at _ _ _ _ P1).
Qed.
Lemma lost_complete :
  (forall r, lost D r -> forall s off, pos s off r -> exists f, parse_next D f s off = UB) /\
  (forall r, lost_items D r -> forall s off acc, pos s off r -> exists f, arr_loop D f s off acc = UB) /\
  (forall r, lost_entries D r -> forall s off acc, pos s off r -> exists f, obj_loop D f s off acc = UB).
Proof.
  apply lost_mutind.
  - intros c r C L IH s off P. destruct (lost_first _ L) as (w & c0 & t & -> & W & N & _). destruct (skip_two s off c w (c0 :: t) P (Forall_cons _ C W) N) as (A1 & A2 & A3). destruct (IH s (S off) (pos_S _ _ _ _ P)) as (f & E). exists f.
    rewrite <- (next_skip D f s off _ A1 A3). rewrite (next_skip D f s (S off) _ A2 A3). exact E.
  - intros b t u L U s off P. exists 1. rewrite (next_one D s off "034"%char _ 0 P eq_refl). change (@parse_string F s off = UB). unfold parse_string. pose proof (pos_len _ _ _ P) as PL. cbn [length] in PL. rewrite app_length in PL.
    rewrite (open_body b t L _ s (S off) [] u U (pos_S _ _ _ _ P)) by lia. reflexivity.
  - intros n e x ds r R He Wd V H s off P. exists 1. rewrite (next_number D s off n _ R P). exact (exp_lost s off n e x ds r R He Wd V H P).
  - intros r I IH s off P. pose proof (pos_S _ _ _ _ P) as P1. destruct (lost_items_first _ I) as (w & c & t & -> & W & N & N1). apply spaces_iff in W. destruct (IH s (S off) [] P1) as (f & E). exists (S f).
    rewrite (next_one D s off "["%char _ f P eq_refl). change (Ascii.eqb "[" "[") with true. cbv iota. rewrite (skip_spec w s _ (c :: t) P1 W N). cbn [bind]. pose proof (pos_app _ _ _ _ P1) as P2. rewrite (pos_at _ _ _ _ P2). cbn [bind].
    destruct (Ascii.eqb_spec c "]") as [->|]; [contradiction|]. rewrite (proj1 (loop_skip D f s (S off) _ (skip_spec w s _ (c :: t) P1 W N) (skip_none s _ _ P2 N))). exact E.
  - intros r I IH s off P. pose proof (pos_S _ _ _ _ P) as P1. destruct (lost_entries_first _ I) as (w & c & t & -> & W & N & N1). apply spaces_iff in W. destruct (IH s (S off) [] P1) as (f & E). exists (S f).
    rewrite (next_one D s off "{"%char _ f P eq_refl). change (Ascii.eqb "{" "[") with false. change (Ascii.eqb "{" "{") with true. cbv iota. rewrite (skip_spec w s _ (c :: t) P1 W N). cbn [bind]. pose proof (pos_app _ _ _ _ P1) as P2. rewrite (pos_at _ _ _ _ P2). cbn [bind].
    destruct (Ascii.eqb_spec c "}") as [->|]; [contradiction|]. rewrite (proj2 (loop_skip D f s (S off) _ (skip_spec w s _ (c :: t) P1 W N) (skip_none s _ _ P2 N))). exact E.
  - intros r L IH s off acc P. destruct (IH s off P) as (f & E). exists (S f). now rewrite arr_loop_S, E.
  - intros r v L s off acc P. exact (arr_behind s off r v acc L P).
  - intros r v w r' L W I IH s off acc P. destruct (arr_read s off r v w _ r' L W eq_refl P) as (f & e & P1 & G). destruct (IH s (S e) (acc ++ [v]) (pos_S _ _ _ _ P1)) as (f2 & E). exists (S (f + f2)).
    rewrite G by lia. change (Ascii.eqb "," ",") with true. cbv iota. apply (arr_mono_ub f2); [exact E|lia].
  - intros r L IH s off acc P. destruct (IH s off P) as (f & E). exists (S f). now rewrite obj_loop_S, E.
  - intros r k L s off acc P. destruct (proj1 (complete D) r k _ L s off P) as (f & e & A & E). exists (S f). rewrite obj_loop_S, E. cbn [bind]. now rewrite (skip_behind s e A).
  - intros r k w r1 L W L1 IH s off acc P. destruct (obj_key s off r k w r1 L W P) as (f & e & P1 & G). destruct (lost_first _ L1) as (w1 & c & t & -> & W1 & N & _). apply spaces_iff in W1.
    destruct (IH s e P1) as (f2 & E). exists (S (f + f2)). rewrite G by lia. rewrite (skip_spec w1 s _ (c :: t) P1 W1 N). cbn [bind].
    rewrite (next_skip D (f + f2) s _ _ (skip_spec w1 s _ (c :: t) P1 W1 N) (skip_none s _ _ (pos_app _ _ _ _ P1) N)). rewrite (next_mono_ub f2 (f + f2) s _ E) by lia. reflexivity.
  - intros r k w r1 v L W L1 s off acc P. destruct (obj_key s off r k w r1 L W P) as (f & e & P1 & G). destruct (proj1 (complete D) _ v _ L1 s e P1) as (f2 & e2 & A & E). destruct (loose_first D _ _ _ L1) as (w1 & c & t & -> & W1 & N & _). apply spaces_iff in W1.
    exists (S (f + f2)). rewrite G by lia. rewrite (skip_spec w1 s _ (c :: t) P1 W1 N). cbn [bind].
    rewrite (next_skip D (f + f2) s _ _ (skip_spec w1 s _ (c :: t) P1 W1 N) (skip_none s _ _ (pos_app _ _ _ _ P1) N)). rewrite (next_mono D f2 (f + f2) s _ _ E) by lia. cbn [bind]. cbv zeta. now rewrite (skip_behind s e2 A).
  - intros r k w r1 v w' r2 L W L1 W' I IH s off acc P. destruct (obj_key s off r k w r1 L W P) as (f & e & P1 & G). destruct (proj1 (complete D) _ v _ L1 s e P1) as (f2 & e2 & A & E). unfold after in A.
    destruct (loose_first D _ _ _ L1) as (w1 & c & t & -> & W1 & N & _). apply spaces_iff in W1, W'. pose proof (pos_app _ _ _ _ A) as P2.
    destruct (IH s _ (map_set acc (toString k) v) (pos_S _ _ _ _ P2)) as (f3 & E3).
    exists (S (f + f2 + f3)). rewrite G by lia. rewrite (skip_spec w1 s _ (c :: t) P1 W1 N). cbn [bind].
    rewrite (next_skip D (f + f2 + f3) s _ _ (skip_spec w1 s _ (c :: t) P1 W1 N) (skip_none s _ _ (pos_app _ _ _ _ P1) N)). rewrite (next_mono D f2 (f + f2 + f3) s _ _ E) by lia. cbn [bind]. cbv zeta.
    rewrite (skip_spec w' s e2 _ A W' eq_refl). cbn [bind]. rewrite (pos_at _ _ _ _ P2). cbn [bind]. change (Ascii.eqb "," ",") with true. cbv iota. apply (obj_mono_ub f3); [exact E3|lia].
Qed.
Lemma lost_iff s : loadJSON D s = UB <-> lost D s.
Proof.
  split.
  - intros E. unfold loadJSON, omap in E. apply bind_ub in E. destruct E as [E|([v e] & _ & E)]; [|discriminate]. exact (proj1 (lost_sound _ s) 0 s (pos_0 s) E).
  - intros L. destruct (proj1 lost_complete s L s 0 (pos_0 s)) as (f & E). rewrite (load_agree D f s) by congruence. now rewrite E.
Qed.
End P.
