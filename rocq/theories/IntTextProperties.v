(** C130: integers of every standard type as text: stringCast and the stream operators of Vector. *)
From Verif Require Import Base DecModel DecProofs ContModel VecIOModel VecIOSpec VecIOProofs CastModel CastSpec CastProofs VecAnyModel VecAnySpec VecAnyProofs VecAnyProperties IntTyModel IntTextModel IntTextSpec IntTextProofs.
Local Open Scope Z_scope.

(** stringCast at every type of 16 bits or more, for every text; UB: the uninitialised
    variable is returned *)
Theorem C130_cast :
  forall t g x o, bits t <> 8 -> (cast_integer t g x = o <-> casts t x o).
Proof. intros t g x o W. now apply cast_casts. Qed.
Print Assumptions C130_cast.
(** the value of a printed number is found again, whatever surrounds it *)
Theorem C130_cast_round_trip :
  forall t g z w u, bits t <> 8 -> value_of t z -> ws w -> no_digit u -> cast_integer t g (w ++ to_string_Z z ++ u) = Ok z.
Proof.
  intros t g z w u B V W N. apply cast_casts; [exact B|]. destruct (value_item t z V) as (z' & S & A & E).
  apply (casts_number t w _ z' u z W S N). left. auto.
Qed.
Print Assumptions C130_cast_round_trip.
(** the printed vector *)
Theorem C130_print :
  forall t v, bits t <> 8 -> Z.of_nat (length v) < 2 ^ 31 -> print_integers t v = Ok (str "{" ++ joined (map to_string_Z v) ++ str "}").
Proof. intros t v W. now apply print_num. Qed.
Print Assumptions C130_print.
(** what was printed is read back, whatever the uninitialised variables hold, whatever stands
    before and whatever follows *)
Theorem C130_round_trip :
  forall t gv gc v, bits t <> 8 -> Z.of_nat (length v) < 2 ^ 31 -> Forall (value_of t) v ->
    exists x, print_integers t v = Ok x /\
      forall b u f, (length v <= f)%nat -> read_integers t gv gc f (Stream b (x ++ u) false false) = Ok (Stream (rev x ++ b) u false false, v).
Proof.
  intros t gv gc v W L F. eexists. split; [now apply print_num|]. intros b u f Lf. rewrite read_integers2 by exact W. apply read_text; [|exact Lf]. now apply print_vector_of.
Qed.
Print Assumptions C130_round_trip.
(** every text denoting a vector of the type is read, and nothing else is *)
Theorem C130_exact :
  forall t gv gc r v u, bits t <> 8 ->
    ((exists f b, read_integers t gv gc f (Stream [] r false false) = Ok (Stream b u false false, v)) <-> (exists x, r = x ++ u /\ vector_of t x v)).
Proof. intros t gv gc r v u W. now apply exact. Qed.
Print Assumptions C130_exact.
(** reading never ends exactly on these texts; a number the type does not accept is one cause *)
Theorem C130_diverges :
  forall t gv gc r, bits t <> 8 -> ((forall f, read_integers t gv gc f (Stream [] r false false) = Fuel) <-> hangs t r).
Proof. intros t gv gc r W. now apply diverges. Qed.
Print Assumptions C130_diverges.
(** the types of 8 bits are read and printed as characters: stringCast returns the code of the
    first character that is not white space *)
Theorem C130_byte_cast :
  forall t g w c u, bits t = 8 -> ws w -> ~ blank c ->
    exists y, cast_integer t g (w ++ c :: u) = Ok y /\ value_of t y /\ char_of y = c /\ cast_integer t g w = UB.
Proof.
  intros t g w c u B W N. eexists. split; [now apply cast_byte_at|]. split; [now apply conv8_value|]. split; [now apply char_k|now apply cast_byte_blank].
Qed.
Print Assumptions C130_byte_cast.
(** a vector of them is printed as characters and read back exactly if none is white space and
    the first is not a closing brace *)
Theorem C130_bytes :
  forall t gv gc v u, bits t = 8 -> Z.of_nat (length v) < 2 ^ 31 -> Forall (value_of t) v ->
    print_integers t v = Ok (str "{" ++ joined (map (fun z => [char_of z]) v) ++ str "}") /\
    ((exists f s, read_integers t gv gc f (Stream [] (str "{" ++ joined (map (fun z => [char_of z]) v) ++ str "}" ++ u) false false) = Ok (s, v)) <->
     Forall (fun z => ~ blank (char_of z)) v /\ forall w, v <> 125 :: w).
Proof.
  intros t gv gc v u W L F.
  assert (E : str "{" ++ joined (map (fun z => [char_of z]) v) ++ str "}" = text (EVec EChar) (map char_of v)) by (cbn [text]; now rewrite map_map).
  split; [rewrite E; now apply print_bytes|].
  assert (E' : str "{" ++ joined (map (fun z => [char_of z]) v) ++ str "}" ++ u = text (EVec EChar) (map char_of v) ++ u) by (rewrite <- E, <- !app_assoc; reflexivity).
  rewrite E'. clear E E'.
  assert (L' : Z.of_nat (length (map char_of v)) < 2 ^ 31) by now rewrite map_length.
  pose proof (C124_chars gv (fun n => char_of (gv n)) gc (map char_of v) 0 [] u L') as C.
  assert (H : Forall (fun c => ~ blank c) (map char_of v) /\ (forall w, map char_of v <> "}"%char :: w) <-> Forall (fun z => ~ blank (char_of z)) v /\ forall w, v <> 125 :: w).
  { rewrite Forall_map. split; intros [A B]; (split; [exact A|]).
    - intros w ->. apply (B (map char_of w)). reflexivity.
    - intros w Q. destruct v as [|z v]; [discriminate|]. injection Q as Q _. apply (B v). f_equal. inversion F as [|? ? V _]; subst.
      rewrite <- (k_char t W z V), Q. clear - W. destruct t as [sg []]; try discriminate. destruct sg; reflexivity. }
  rewrite <- H, <- C. clear C H. split.
  - intros (f & s & R). exists f, s. rewrite (bytes_read t gv gc W f _ 0%nat) in R.
    destruct (VecAnyModel.get _ _ gc f (EVec EChar) 0 _) as [[s' v']| | |]; try discriminate. injection R as <- R. f_equal. f_equal. rewrite <- R. symmetry. now apply map_char_k.
  - intros (f & s & R). exists f, s. rewrite (bytes_read t gv gc W f _ 0%nat), R. cbn [omap bind]. unfold keep. cbn [fst snd]. f_equal. f_equal. now apply map_k_char.
Qed.
Print Assumptions C130_bytes.
(** at int and unsigned this is what C67 and C89 are about *)
Lemma castv_i32 z : castv i32 z = clamped (- 2 ^ 31) (2 ^ 31 - 1) z.
Proof.
  unfold castv, acc, has, over, becomes, clamped. change (sgn i32) with true. change (tmin i32) with (- 2 ^ 31). change (tmax i32) with (2 ^ 31 - 1). cbn [andb].
  destruct ((- 2 ^ 31 <=? z) && (z <=? 2 ^ 31 - 1)) eqn:A; destruct (Z.ltb_spec z 0); lia.
Qed.
Lemma castv_u32 z : castv u32 z = unsigned_of z.
Proof.
  unfold castv, acc, over, becomes, unsigned_of. change (sgn u32) with false. change (tmax u32) with (2 ^ 32 - 1). change (bits u32) with 32. cbn [andb].
  destruct (Z.leb_spec (Z.abs z) (2 ^ 32 - 1)), (Z.leb_spec (2 ^ 32) (Z.abs z)); try lia. destruct (Z.ltb_spec z 0).
  - apply (Z.mod_unique_pos _ _ (-1)); lia.
  - symmetry. apply Z.mod_small. lia.
Qed.
Theorem C130_int :
  (forall s g, get_integer i32 s g = get_int s g) /\
  (forall g x, cast TInt x = omap VInt (cast_integer i32 g x)) /\ (forall g x, cast TUnsigned x = omap VUnsigned (cast_integer u32 g x)).
Proof.
  assert (C : forall g ty x, ty = TInt \/ ty = TUnsigned -> cast ty x = match ty with TInt => omap VInt (cast_integer i32 g x) | _ => omap VUnsigned (cast_integer u32 g x) end).
  { intros g ty x H. destruct (skip_spec is_space x (good [] x) eq_refl) as (w & u & -> & F & Hu & _). apply ws_spec in F. destruct u as [|c r].
    - rewrite app_nil_r, cast_blank by exact F. destruct H as [-> | ->]; rewrite cast_num_blank by exact F; reflexivity.
    - assert (B : ~ blank c). { destruct Hu as [Hu|(c' & y & Hu & P)]; [discriminate|]. injection Hu as -> ->. now apply not_space. }
      rewrite cast_at by assumption. destruct H as [-> | ->]; rewrite cast_num_at by (assumption || discriminate); cbn [omap bind]; f_equal; f_equal.
      + symmetry. apply castv_i32.
      + symmetry. apply castv_u32. }
  split; [|split; intros g x; [exact (C g TInt x (or_introl eq_refl))|exact (C g TUnsigned x (or_intror eq_refl))]].
  intros s g. rewrite integer2 by discriminate. unfold get_num2, get_int. destruct (sentry s) as [s1 ok]. destruct (negb ok); [reflexivity|].
  destruct (match rest s1 with [] => _ | _ => _ end) as [sg s2]. pose proof (dec_value_nonneg _ (span_is_digits (rest s2))) as P.
  destruct (span (rest s2)) as [|d ds]; [reflexivity|]. set (m := dec_value (d :: ds)) in *. clearbody m.
  assert (A : forall v, acc i32 v = in_int32 v) by reflexivity. rewrite A. destruct (in_int32 (if sg =? 45 then - m else m)) eqn:I.
  - f_equal. unfold becomes. change (sgn i32) with true. now destruct (_ <? 0).
  - f_equal. unfold over. change (sgn i32) with true. change (tmin i32) with int32_min. change (tmax i32) with int32_max. cbn [andb].
    assert (N : ~ (- 2 ^ 31 <= (if sg =? 45 then - m else m) < 2 ^ 31)) by (rewrite <- in32; congruence). destruct (sg =? 45), (Z.ltb_spec (if sg =? 45 then - m else m) 0); try reflexivity; destruct (Z.ltb_spec (- m) 0), (Z.ltb_spec m 0); try reflexivity; lia.
Qed.
Print Assumptions C130_int.
(** two expectations that fail: that a vector of small integers comes back, and that a
    negative number is refused or clamped by an unsigned type as too large ones are *)
Theorem C130_small_refuted :
  exists t v, Forall (value_of t) v /\ forall gv gc x, print_integers t v = Ok x -> forall f s, read_integers t gv gc f (Stream [] x false false) <> Ok (s, v).
Proof.
  exists (Ty false W8), [1; 32]. split; [repeat constructor; cbn; lia|]. intros gv gc x E f s R.
  destruct (C130_bytes (Ty false W8) gv gc [1; 32] [] eq_refl ltac:(cbn; lia) ltac:(repeat constructor; cbn; lia)) as [E' C]. rewrite E' in E. injection E as <-.
  assert (X : Forall (fun z => ~ blank (char_of z)) [1; 32] /\ forall w, [1; 32] <> 125 :: w).
  { apply C. exists f, s. exact R. }
  destruct X as [X _]. inversion X as [|? ? _ Y]; subst. inversion Y as [|? ? Z _]; subst. apply Z. left. reflexivity.
Qed.
Print Assumptions C130_small_refuted.
Theorem C130_negative_refuted :
  exists t r y, sgn t = false /\ 0 < y /\ (forall g, cast_integer t g r = Ok y) /\ signed r (- 5) /\
    forall gv gc, exists s, read_integers t gv gc 1 (Stream [] (str "{" ++ r ++ str "}") false false) = Ok (s, [y]) /\ fail s = false.
Proof.
  exists u16, (str "-5"), 65531. split; [reflexivity|]. split; [lia|]. split; [intros g; vm_compute; reflexivity|]. split.
  - apply (signed_minus (str "5")); [discriminate|repeat constructor].
  - intros gv gc. eexists. split; vm_compute; reflexivity.
Qed.
Print Assumptions C130_negative_refuted.
Example C130_example :
  cast_integer i16 99 (str " -40000x") = Ok (-32768) /\ cast_integer u16 99 (str "70000") = Ok 65535 /\ cast_integer u16 99 (str "-65535") = Ok 1 /\
  cast_integer u16 99 (str "-65536") = Ok 65535 /\ cast_integer i64 99 (str "-9223372036854775808") = Ok (- 2 ^ 63) /\
  cast_integer u64 99 (str "18446744073709551615") = Ok (2 ^ 64 - 1) /\ cast_integer (Ty true W8) 99 (str "65") = Ok 54 /\ cast_integer (Ty true W8) 99 (str " ") = UB /\
  cast_integer i64 99 (str "x1") = Ok 0 /\
  print_integers i64 [9000000000; -1; 0] = Ok (str "{9000000000, -1, 0}") /\
  read_integers i64 (fun _ => 77) "x" 5 (Stream [] (str " { 9000000000 ,-1,+007 }; 4") false false)
    = Ok (Stream (rev (str " { 9000000000 ,-1,+007 }")) (str "; 4") false false, [9000000000; -1; 7]) /\
  read_integers i16 (fun _ => 77) "x" 100 (Stream [] (str "{1, 40000, 2}") false false) = Fuel /\
  read_integers i16 (fun _ => 77) "x" 100 (Stream [] (str "{40000}") false false) = Err /\
  print_integers (Ty false W8) [65; 66] = Ok (str "{A, B}") /\
  read_integers (Ty false W8) (fun _ => 77) "x" 5 (Stream [] (str "{65, 66}") false false) = Err.
Proof. repeat split; vm_compute; reflexivity. Qed.
