From Verif Require Import Base UrlModel UrlSpec.
Ltac Zify.zify_post_hook ::= Z.div_mod_to_equations.

(** Suffix version of the loop. *)
Fixpoint dec (n : nat) (l : bytes) : outcome bytes :=
  match n, l with
  | _, [] => Ok []
  | O, _ => Fuel
  | S k, c :: t =>
      if Ascii.eqb c "+" then omap (cons " "%char) (dec k t)
      else if Ascii.eqb c "%" then
        match t with
        | [] => UB
        | [h] => high <- hexToInt h ;; Ok [ascii_of_N (Z.to_N ((high * 16) mod 256))]
        | h :: lo :: t' =>
            high <- hexToInt h ;; low <- hexToInt lo ;;
            omap (cons (ascii_of_N (Z.to_N ((high * 16 + low) mod 256)))) (dec k t')
        end
      else omap (cons c) (dec k t)
  end.

Lemma char_at_app p c t : char_at (p ++ c :: t) (length p) = Ok c.
Proof.
  unfold char_at. rewrite <- app_assoc. rewrite nth_error_app2 by lia.
  now rewrite Nat.sub_diag.
Qed.
Lemma char_at_app1 p a c t : char_at (p ++ a :: c :: t) (length p + 1) = Ok c.
Proof.
  replace (p ++ a :: c :: t) with ((p ++ [a]) ++ c :: t) by (rewrite <- app_assoc; reflexivity).
  replace (length p + 1) with (length (p ++ [a])) by (rewrite app_length; reflexivity).
  apply char_at_app.
Qed.
Lemma char_at_app2 p a b c t : char_at (p ++ a :: b :: c :: t) (length p + 2) = Ok c.
Proof.
  replace (p ++ a :: b :: c :: t) with ((p ++ [a; b]) ++ c :: t) by (rewrite <- app_assoc; reflexivity).
  replace (length p + 2) with (length (p ++ [a; b])) by (rewrite app_length; reflexivity).
  apply char_at_app.
Qed.
Lemma char_at_end s : char_at s (length s) = Ok NUL.
Proof. unfold char_at. rewrite nth_error_app2, Nat.sub_diag by lia. reflexivity. Qed.
Lemma char_at_oob s i : length s < i -> char_at s i = UB.
Proof.
  intros H. unfold char_at. rewrite (proj2 (nth_error_None _ _)); [reflexivity|].
  rewrite app_length. simpl. lia.
Qed.

Lemma hexToInt_NUL : hexToInt NUL = Ok 0%Z.
Proof. reflexivity. Qed.

Lemma loop_dec fuel : forall p l out, length l <= fuel ->
  decode_loop fuel (p ++ l) (length p) out = omap (fun r => rev out ++ r) (dec fuel l).
Proof.
  induction fuel as [|f IH]; intros p l out Hl.
  - destruct l; [|simpl in Hl; lia]. cbn [decode_loop dec].
    rewrite app_nil_r, Nat.ltb_irrefl. cbn. now rewrite app_nil_r.
  - destruct l as [|c t].
    { cbn [decode_loop dec]. rewrite app_nil_r, Nat.ltb_irrefl. cbn. now rewrite app_nil_r. }
    cbn [decode_loop dec].
    destruct (Nat.ltb_spec (length p) (length (p ++ c :: t))) as [_|H];
      [|rewrite app_length in H; cbn [length] in H; lia].
    rewrite char_at_app. cbn [bind].
    assert (G1 : forall x, decode_loop f (p ++ c :: t) (length p + 1) (x :: out)
                 = omap (fun r => rev out ++ r) (omap (cons x) (dec f t))).
    { intros x. replace (p ++ c :: t) with ((p ++ [c]) ++ t) by (rewrite <- app_assoc; reflexivity).
      replace (length p + 1) with (length (p ++ [c])) by (rewrite app_length; reflexivity).
      rewrite IH by (simpl in Hl; lia).
      destruct (dec f t); cbn; try reflexivity. now rewrite <- app_assoc. }
    destruct (Ascii.eqb c "+"); [apply G1|].
    destruct (Ascii.eqb c "%"); [|apply G1].
    destruct t as [|h [|lo t']].
    + replace (length p + 1) with (length (p ++ [c])) by (rewrite app_length; reflexivity).
      rewrite char_at_end. cbn [bind]. rewrite hexToInt_NUL. cbn [bind].
      rewrite char_at_oob by (rewrite app_length; simpl; lia). reflexivity.
    + rewrite char_at_app1. cbn [bind].
      destruct (hexToInt h) as [hv| | |]; try reflexivity. cbn [bind].
      replace (length p + 2) with (length (p ++ [c; h])) by (rewrite app_length; reflexivity).
      rewrite char_at_end. cbn [bind]. rewrite hexToInt_NUL. cbn [bind].
      rewrite Z.add_0_r.
      destruct f; cbn [decode_loop];
        (destruct (Nat.ltb_spec (length p + 3) (length (p ++ [c; h]))) as [H|_];
         [rewrite app_length in H; cbn [length] in H; lia|]); cbn; now rewrite ?app_nil_r.
    + rewrite char_at_app1. cbn [bind].
      destruct (hexToInt h) as [hv| | |]; try reflexivity. cbn [bind].
      rewrite char_at_app2. cbn [bind].
      destruct (hexToInt lo) as [lv| | |]; try reflexivity. cbn [bind].
      replace (p ++ c :: h :: lo :: t') with ((p ++ [c; h; lo]) ++ t')
        by (rewrite <- app_assoc; reflexivity).
      replace (length p + 3) with (length (p ++ [c; h; lo])) by (rewrite app_length; reflexivity).
      rewrite IH by (simpl in Hl; lia).
      destruct (dec f t'); cbn; try reflexivity. now rewrite <- app_assoc.
Qed.

Lemma urlDecode_dec s : urlDecode s = dec (length s) s.
Proof.
  unfold urlDecode. change s with ([] ++ s) at 2. change 0 with (length (@nil ascii)).
  rewrite loop_dec by lia. destruct (dec (length s) s); reflexivity.
Qed.

Lemma dec_fuel n : forall m l, length l <= n -> length l <= m -> dec n l = dec m l.
Proof.
  induction n as [|n IH]; intros m l Hn Hm.
  - destruct l; [destruct m; reflexivity|simpl in Hn; lia].
  - destruct l as [|c t]; [destruct m; reflexivity|].
    destruct m as [|m]; [simpl in Hm; lia|]. cbn [dec]. simpl in Hn, Hm.
    rewrite (IH m t) by lia.
    destruct t as [|h [|lo t']]; try reflexivity.
    rewrite (IH m t') by (simpl in Hn, Hm; lia). reflexivity.
Qed.

Definition d (l : bytes) := dec (length l) l.
Lemma d_nil : d [] = Ok [].
Proof. reflexivity. Qed.
Lemma d_plus t : d ("+"%char :: t) = omap (cons " "%char) (d t).
Proof. reflexivity. Qed.
Lemma d_plain c t : c <> "+"%char -> c <> "%"%char -> d (c :: t) = omap (cons c) (d t).
Proof.
  intros H1 H2. unfold d. cbn [length dec].
  destruct (Ascii.eqb_spec c "+"); [contradiction|].
  destruct (Ascii.eqb_spec c "%"); [contradiction|]. reflexivity.
Qed.
Lemma d_esc h lo t : d ("%"%char :: h :: lo :: t) =
  (high <- hexToInt h ;; low <- hexToInt lo ;;
   omap (cons (ascii_of_N (Z.to_N ((high * 16 + low) mod 256)))) (d t)).
Proof.
  unfold d. rewrite <- (dec_fuel (S (S (length t))) (length t)) by lia. reflexivity.
Qed.

Lemma encode_char_cases c :
  (encode_char c = [c] /\ c <> "+"%char /\ c <> "%"%char) \/
  (exists h lo, encode_char c = ["%"%char; h; lo] /\
     exists vh vl, hexToInt h = Ok vh /\ hexToInt lo = Ok vl /\
       ascii_of_N (Z.to_N ((vh * 16 + vl) mod 256)) = c).
Proof.
  destruct c as [b0 b1 b2 b3 b4 b5 b6 b7].
  destruct b0, b1, b2, b3, b4, b5, b6, b7;
  first [ left; split; [reflexivity|split; discriminate]
        | right; do 2 eexists; split; [reflexivity|];
          do 2 eexists; split; [reflexivity|split; reflexivity] ].
Qed.

Lemma decode_encode s : urlDecode (urlEncode s) = Ok s.
Proof.
  rewrite urlDecode_dec. fold (d (urlEncode s)).
  unfold urlEncode. induction s as [|c s IH]; [reflexivity|].
  cbn [flat_map].
  destruct (encode_char_cases c) as [[-> [H1 H2]] | (h & lo & -> & vh & vl & Hh & Hl & Hc)].
  - cbn [app]. rewrite d_plain by assumption. rewrite IH. reflexivity.
  - cbn [app]. rewrite d_esc, Hh, Hl. cbn [bind]. rewrite Hc, IH. reflexivity.
Qed.

Definition unreservedb (c : ascii) : bool :=
  ((48 <=? byteZ c) && (byteZ c <=? 57) || (65 <=? byteZ c) && (byteZ c <=? 90)
   || (97 <=? byteZ c) && (byteZ c <=? 122))%Z || existsb (Ascii.eqb c) (str "-_.~").
Lemma unreservedb_spec c : unreservedb c = true <-> unreserved c.
Proof.
  unfold unreservedb, unreserved. rewrite !orb_true_iff, !andb_true_iff, existsb_exists.
  assert (E : (exists x, In x (str "-_.~") /\ Ascii.eqb c x = true) <-> In c (str "-_.~")).
  { split.
    - intros (x & Hx & H). apply Ascii.eqb_eq in H. now subst.
    - intros H. exists c. split; [assumption|apply Ascii.eqb_refl]. }
  rewrite E, !Z.leb_le. tauto.
Qed.

Definition hexvb (c : ascii) : option Z :=
  (if (48 <=? byteZ c) && (byteZ c <=? 57) then Some (byteZ c - 48)
   else if (65 <=? byteZ c) && (byteZ c <=? 70) then Some (byteZ c - 55) else None)%Z.
Lemma hexvb_spec c v : hexvb c = Some v -> hex_value c v.
Proof.
  unfold hexvb, hex_value. intros H.
  destruct ((48 <=? byteZ c) && (byteZ c <=? 57))%Z eqn:E; [injection H as <-; lia|].
  destruct ((65 <=? byteZ c) && (byteZ c <=? 70))%Z eqn:E2; [injection H as <-; lia|discriminate].
Qed.

Definition enc_check (c : ascii) : bool :=
  if unreservedb c then match encode_char c with [x] => Ascii.eqb x c | _ => false end
  else match encode_char c with
       | [p; h; l] => Ascii.eqb p "%" &&
          match hexvb h, hexvb l with
          | Some vh, Some vl => (byteZ c =? 16 * vh + vl)%Z
          | _, _ => false end
       | _ => false end.
Lemma enc_check_all c : enc_check c = true.
Proof.
  destruct c as [b0 b1 b2 b3 b4 b5 b6 b7].
  destruct b0, b1, b2, b3, b4, b5, b6, b7; vm_compute; reflexivity.
Qed.

Lemma encode_spec s : pct_encoded s (urlEncode s).
Proof.
  induction s as [|c s IH]; [constructor|].
  unfold urlEncode in *. cbn [flat_map].
  pose proof (enc_check_all c) as H. unfold enc_check in H.
  destruct (unreservedb c) eqn:E.
  - destruct (encode_char c) as [|x [|y z]]; try discriminate.
    apply Ascii.eqb_eq in H. subst x. cbn [app]. constructor; [|assumption].
    now apply unreservedb_spec.
  - destruct (encode_char c) as [|p [|h [|l [|y z]]]]; try discriminate.
    destruct (Ascii.eqb_spec p "%"%char) as [->|]; [|discriminate].
    destruct (hexvb h) as [vh|] eqn:Eh; [|discriminate].
    destruct (hexvb l) as [vl|] eqn:El; [|discriminate].
    cbn [app]. apply pe_escape with (vh := vh) (vl := vl); auto using hexvb_spec.
    + intros Hu. apply unreservedb_spec in Hu. congruence.
    + cbn [andb] in H. lia.
Qed.

Lemma hex_inj c c' v : hex_value c v -> hex_value c' v -> c = c'.
Proof. unfold hex_value. intros H H'. apply byteZ_inj. lia. Qed.
Lemma hex_range c v : hex_value c v -> (0 <= v < 16)%Z.
Proof. unfold hex_value. lia. Qed.

(** The specification determines the encoding. *)
Lemma pct_functional s t t' : pct_encoded s t -> pct_encoded s t' -> t = t'.
Proof.
  intros H. revert t'. induction H as [|c s t Hu H IH|c h l vh vl s t Hu Hh Hl Hc H IH];
    intros t' H'; inversion H'; subst; try contradiction.
  - reflexivity.
  - f_equal; auto.
  - match goal with
    | H1 : hex_value ?h' ?vh', H2 : hex_value ?l' ?vl', E : byteZ c = (16 * ?vh' + ?vl')%Z |- _ =>
      lazymatch h' with h => fail | _ =>
      pose proof (hex_range _ _ H1); pose proof (hex_range _ _ H2);
      assert (vh' = vh) by (pose proof (hex_range _ _ Hh); pose proof (hex_range _ _ Hl); lia);
      assert (vl' = vl) by (pose proof (hex_range _ _ Hh); pose proof (hex_range _ _ Hl); lia)
      end end.
    subst. f_equal. f_equal; [eapply hex_inj; eassumption|].
    f_equal; [eapply hex_inj; eassumption|]. auto.
Qed.

Lemma hexToInt_cases h : (ascii7 h /\ exists v, hexToInt h = Ok v) \/ (~ ascii7 h /\ hexToInt h = UB).
Proof.
  unfold ascii7, hexToInt, charZ. pose proof (byteZ_range h).
  destruct (Z.ltb_spec (byteZ h) 128).
  - left. split; [assumption|].
    repeat match goal with |- context [if ?b then _ else _] => destruct b eqn:? end; eauto; lia.
  - right. split; [lia|].
    repeat match goal with |- context [if ?b then _ else _] => destruct b eqn:? end; auto; lia.
Qed.

Lemma d_scannable t :
  (scannable t -> exists r, d t = Ok r /\ length r <= length t) /\
  (~ scannable t -> d t = UB).
Proof.
  remember (length t) as n eqn:E. assert (Hn : length t <= n) by lia. clear E.
  revert t Hn; induction n as [|n IH]; intros t Hn.
  - destruct t; [|simpl in Hn; lia]. split; [exists []; split; [reflexivity|simpl; lia]|].
    intros H. exfalso. apply H. constructor.
  - destruct t as [|c t].
    + split; [exists []; split; [reflexivity|simpl; lia]|].
      intros H. exfalso. apply H. constructor.
    + destruct (ascii_dec c "%"%char) as [->|Hp].
      * destruct t as [|h [|lo t]].
        -- split; [intros H; inversion H; congruence|]. intros _. reflexivity.
        -- unfold d. cbn [length dec]. cbn [Ascii.eqb Bool.eqb].
           split; intros H.
           ++ inversion H; subst; [congruence|].
              destruct (hexToInt_cases h) as [[_ [v ->]]|[? _]]; [|contradiction].
              cbn. eexists; split; [reflexivity|simpl in *; lia].
           ++ destruct (hexToInt_cases h) as [[? _]|[_ ->]]; [|reflexivity].
              exfalso; apply H; now constructor.
        -- rewrite d_esc. simpl in Hn. destruct (IH t ltac:(lia)) as [I1 I2].
           split; intros H.
           ++ inversion H; subst; [congruence|].
              destruct (hexToInt_cases h) as [[_ [v ->]]|[? _]]; [|contradiction].
              destruct (hexToInt_cases lo) as [[_ [w ->]]|[? _]]; [|contradiction].
              cbn [bind]. destruct I1 as [r [-> Hr]]; [assumption|].
              cbn. eexists; split; [reflexivity|simpl; lia].
           ++ destruct (hexToInt_cases h) as [[Hh [v ->]]|[_ ->]]; [|reflexivity].
              destruct (hexToInt_cases lo) as [[Hlo [w ->]]|[_ ->]]; [|reflexivity].
              cbn [bind]. rewrite I2; [reflexivity|].
              intros Hs; apply H; now constructor.
      * simpl in Hn. destruct (IH t ltac:(lia)) as [I1 I2].
        assert (G : exists x, d (c :: t) = omap (cons x) (d t)).
        { destruct (ascii_dec c "+"%char) as [->|]; [exists " "%char; reflexivity|].
          exists c. now apply d_plain. }
        destruct G as [x ->].
        split; intros H.
        -- inversion H; subst; try congruence.
           destruct I1 as [r [-> Hr]]; [assumption|].
           cbn. eexists; split; [reflexivity|simpl; lia].
        -- rewrite I2; [reflexivity|]. intros Hs; apply H; now constructor.
Qed.

Lemma scannable_dec t : {scannable t} + {~ scannable t}.
Proof.
  destruct (d t) as [r| | |] eqn:E.
  - left. destruct (d_scannable t) as [_ H].
    (* decidable because the computation is *)
    revert E. remember (length t) as n eqn:En. assert (Hn : length t <= n) by lia. clear En H.
    revert t r Hn. induction n as [|n IH]; intros t r Hn Ht.
    + destruct t; [constructor|simpl in Hn; lia].
    + destruct t as [|c t]; [constructor|]. simpl in Hn.
      destruct (ascii_dec c "%"%char) as [->|Hp].
      * destruct t as [|h [|lo t]]; [discriminate| |].
        -- unfold d in Ht. cbn [length dec] in Ht. cbn [Ascii.eqb Bool.eqb] in Ht.
           destruct (hexToInt_cases h) as [[? _]|[_ Eh]]; [now constructor|].
           rewrite Eh in Ht. discriminate.
        -- rewrite d_esc in Ht.
           destruct (hexToInt_cases h) as [[Hh [v Eh]]|[_ Eh]]; rewrite Eh in Ht; [|discriminate].
           destruct (hexToInt_cases lo) as [[Hlo [w El]]|[_ El]]; rewrite El in Ht; [|discriminate].
           cbn [bind] in Ht. destruct (d t) as [r'| | |] eqn:E'; try discriminate.
           apply sc_escape; auto. eapply IH; [simpl in Hn; lia|exact E'].
      * constructor; [assumption|].
        destruct (ascii_dec c "+"%char) as [->|Hq].
        -- rewrite d_plus in Ht. destruct (d t) as [r'| | |] eqn:E'; try discriminate.
           eapply IH; [lia|exact E'].
        -- rewrite d_plain in Ht by assumption.
           destruct (d t) as [r'| | |] eqn:E'; try discriminate.
           eapply IH; [lia|exact E'].
  - right. intros H. destruct (d_scannable t) as [G _]. destruct (G H) as [r [G' _]]. congruence.
  - right. intros H. destruct (d_scannable t) as [G _]. destruct (G H) as [r [G' _]]. congruence.
  - right. intros H. destruct (d_scannable t) as [G _]. destruct (G H) as [r [G' _]]. congruence.
Qed.

Lemma urlDecode_safe_iff t :
  (scannable t <-> exists r, urlDecode t = Ok r /\ length r <= length t) /\
  (~ scannable t <-> urlDecode t = UB).
Proof.
  rewrite urlDecode_dec. fold (d t). destruct (d_scannable t) as [H1 H2].
  destruct (scannable_dec t) as [Hs|Hs].
  - destruct (H1 Hs) as [r [E Hr]]. split; [split; [eauto|auto]|].
    split; [tauto|]. rewrite E. discriminate.
  - rewrite (H2 Hs). split; [split; [tauto|intros [r [? _]]; discriminate]|]. tauto.
Qed.

Lemma hexToInt_lenient h v : lenient_digit h v -> hexToInt h = Ok v.
Proof.
  unfold lenient_digit, hex_digit, hex_value, hexToInt, charZ. pose proof (byteZ_range h).
  intros H0.
  assert (Hz : (byteZ h < 128 /\ ((48 <= byteZ h <= 57 /\ v = byteZ h - 48) \/ (65 <= byteZ h <= 90 /\ v = byteZ h - 55) \/ (97 <= byteZ h <= 122 /\ v = byteZ h - 87) \/
    (v = 0 /\ ~ (48 <= byteZ h <= 57) /\ ~ (65 <= byteZ h <= 90) /\ ~ (97 <= byteZ h <= 122))))%Z).
  { destruct H0 as [[[G|G]|G]|[G|[G|(G & N & A & B & ->)]]]; try lia.
    split; [assumption|]. right; right; right. split; [reflexivity|].
    split; [intros X; apply (N (byteZ h - 48)%Z); lia|].
    split; intros X; [apply (N (byteZ h - 55)%Z); lia|apply (N (byteZ h - 87)%Z); lia]. }
  clear H0. destruct Hz as [L Hz]. rewrite (proj2 (Z.ltb_lt _ _) L).
  repeat match goal with |- context [if ?b then _ else _] => destruct b eqn:? end; try (f_equal; lia); lia.
Qed.
Lemma byte_of z b : byteZ b = (z mod 256)%Z -> ascii_of_N (Z.to_N (z mod 256)) = b.
Proof.
  intros E. rewrite <- E. unfold byteZ. rewrite N2Z.id. apply ascii_N_embedding.
Qed.
Lemma decoded_lenient t s : decoded lenient_digit t s -> urlDecode t = Ok s.
Proof.
  rewrite urlDecode_dec. fold (d t). induction 1 as [|t s H IH|c t s N1 N2 H IH|h l vh vl b t s Hh Hl Hb H IH].
  - reflexivity.
  - rewrite d_plus, IH. reflexivity.
  - rewrite d_plain, IH by assumption. reflexivity.
  - rewrite d_esc, (hexToInt_lenient h vh), (hexToInt_lenient l vl) by assumption. cbn [bind]. rewrite IH, (byte_of _ b) by (rewrite Hb; f_equal; lia). reflexivity.
Qed.
Lemma decoded_mono (P Q : ascii -> Z -> Prop) t s : (forall c v, P c v -> Q c v) -> decoded P t s -> decoded Q t s.
Proof. intros H D. induction D; econstructor; eauto. Qed.
Lemma lenient_total c : ascii7 c -> exists v, lenient_digit c v.
Proof.
  unfold ascii7. intros H. pose proof (byteZ_range c). unfold lenient_digit, hex_digit, hex_value.
  assert (D : (48 <= byteZ c <= 57 \/ 65 <= byteZ c <= 70 \/ 97 <= byteZ c <= 102 \/ 71 <= byteZ c <= 90 \/ 103 <= byteZ c <= 122 \/
    (~ 48 <= byteZ c <= 57 /\ ~ 65 <= byteZ c <= 70 /\ ~ 97 <= byteZ c <= 102 /\ ~ 71 <= byteZ c <= 90 /\ ~ 103 <= byteZ c <= 122))%Z) by lia.
  destruct D as [D|[D|[D|[D|[D|D]]]]]; [exists (byteZ c - 48)%Z|exists (byteZ c - 55)%Z|exists (byteZ c - 87)%Z|exists (byteZ c - 55)%Z|exists (byteZ c - 87)%Z|exists 0%Z]; try lia.
  right; right; right. repeat split; try lia. 
Qed.
Lemma byte_exists z : exists b, byteZ b = (z mod 256)%Z.
Proof.
  exists (ascii_of_N (Z.to_N (z mod 256))). unfold byteZ. rewrite N_ascii_embedding; [|lia]. lia.
Qed.
(** whatever a scannable text ends with, [decoded] describes it, up to a last truncated escape *)
Lemma scannable_decoded t : scannable t ->
  (exists s, decoded lenient_digit t s) \/
  (exists t' h s v b, t = t' ++ ["%"%char; h] /\ decoded lenient_digit t' s /\ lenient_digit h v /\ byteZ b = ((16 * v) mod 256)%Z /\ urlDecode t = Ok (s ++ [b])).
Proof.
  induction 1 as [|c t N H IH|h Hh|h l t Hh Hl H IH].
  - left. exists []. constructor.
  - destruct IH as [[s D]|(t' & h & s & v & b & -> & D & V & B & E)].
    + left. destruct (ascii_dec c "+"%char) as [->|]; eexists; constructor; eauto.
    + right. rewrite urlDecode_dec in E. fold (d (t' ++ ["%"%char; h])) in E.
      destruct (ascii_dec c "+"%char) as [->|N'].
      * exists ("+"%char :: t'), h, (" "%char :: s), v, b. repeat split; try assumption; [now constructor|].
        rewrite urlDecode_dec. change (d ("+"%char :: t' ++ ["%"%char; h]) = Ok ((" "%char :: s) ++ [b])). rewrite d_plus, E. reflexivity.
      * exists (c :: t'), h, (c :: s), v, b. repeat split; try assumption; [now constructor|].
        rewrite urlDecode_dec. change (d (c :: t' ++ ["%"%char; h]) = Ok ((c :: s) ++ [b])). rewrite d_plain, E by assumption. reflexivity.
  - right. destruct (lenient_total h Hh) as [v V]. destruct (byte_exists (16 * v)) as [b B]. exists [], h, [], v, b.
    repeat split; try assumption; [constructor|].
    rewrite urlDecode_dec. cbn [length dec]. cbn [Ascii.eqb Bool.eqb]. rewrite (hexToInt_lenient h v V). cbn [bind].
    rewrite (byte_of _ b) by (rewrite B; f_equal; lia). reflexivity.
  - destruct (lenient_total h Hh) as [vh Vh]. destruct (lenient_total l Hl) as [vl Vl]. destruct (byte_exists (16 * vh + vl)) as [b0 B0].
    destruct IH as [[s D]|(t' & h' & s & v & b & -> & D & V & B & E)].
    + left. exists (b0 :: s). econstructor; eauto.
    + right. exists ("%"%char :: h :: l :: t'), h', (b0 :: s), v, b. repeat split; try assumption; [econstructor; eauto|].
      rewrite urlDecode_dec in E |- *. fold (d (t' ++ ["%"%char; h'])) in E.
      change (d ("%"%char :: h :: l :: t' ++ ["%"%char; h']) = Ok ((b0 :: s) ++ [b])).
      rewrite d_esc, (hexToInt_lenient h vh Vh), (hexToInt_lenient l vl Vl). cbn [bind]. rewrite E.
      rewrite (byte_of _ b0) by (rewrite B0; f_equal; lia). reflexivity.
Qed.
