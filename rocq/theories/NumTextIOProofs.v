(** Proofs about reading and printing doubles on streams: the texts. *)
From Coq Require Import Reals Lra Psatz Floats.SpecFloat.
From Flocq Require Import Core IEEE754.BinarySingleNaN.
From Verif Require JsonModel JsonSpec JsonLooseProofs OutSpec OutProofs.
From Verif Require Import Base DecModel DecProofs ContModel ContProofs Float FloatProofs VecIOModel VecIOSpec VecIOProofs VecAnyModel VecAnyProofs JsonFloatModel JsonFloatSpec JsonFloatProofs NumTextModel NumTextSpec NumTextProofs.
Local Open Scope R_scope.
Notation good b r := (Stream b r false false).

(** ** reading *)
Lemma overflows_spec s n d : (0 <= n)%Z -> (0 < d)%Z -> overflows s n d = negb (Rlt_bool (Rabs (rnd (IZR n / IZR d))) big).
Proof.
  intros N D. unfold overflows. destruct (Z.eqb_spec n 0) as [-> |Nz].
  - replace (0 / IZR d) with 0 by (field; apply IZR_lt in D; lra). rewrite rnd_0, Rabs_R0. rewrite Rlt_bool_true by apply bpow_gt_0. reflexivity.
  - pose proof (Bdiv_correct_aux 53 1024 Hprec Hmax mode_NE s (Z.to_pos n) 0 false (Z.to_pos d) 0) as H. cbv zeta in H.
    unfold SFdiv. destruct (SFdiv_core_binary 53 1024 _ _ _ _) as [[mz ez] lz]. rewrite round_aux_equiv. rewrite xorb_false_r in *.
    destruct H as [V H]. assert (E : forall p, F2R (Float radix2 p 0) = IZR p) by (intros p; unfold F2R; cbn [Fnum Fexp bpow]; ring).
    rewrite !E, sgn_cond, !Z2Pos.id in H by lia. cbn [cond_Zopp] in H. change (round_mode mode_NE) with ZnearestE in H.
    replace (sgn s * IZR n / IZR d) with (sgn s * (IZR n / IZR d)) in H by (unfold Rdiv; ring).
    fold (rnd (sgn s * (IZR n / IZR d))) in H. rewrite rnd_sgn, abs_sgn in H. fold big in H. destruct (Rlt_bool _ _).
    + destruct H as (Hr & Hf & Hs). destruct (binary_round_aux 53 1024 mode_NE s mz ez lz); try discriminate; reflexivity.
    + rewrite H, overflow_inf. reflexivity.
Qed.
Definition is_sign (c : ascii) : bool := Ascii.eqb c "+" || Ascii.eqb c "-".
Lemma digit_no_sign c : is_digit c = true -> is_sign c = false.
Proof. unfold is_sign. destruct (Ascii.eqb_spec c "+") as [-> |_]; [discriminate|]. destruct (Ascii.eqb_spec c "-") as [-> |_]; [discriminate|reflexivity]. Qed.
Lemma sign_here sg neg r : sign_text sg neg -> (forall c t, r = c :: t -> is_sign c = false) -> sign_of (sg ++ r) = sg.
Proof.
  intros S H. destruct S as [[-> _]|[[-> _]|[-> _]]]; try reflexivity. cbn [app]. destruct r as [|c r]; [reflexivity|]. cbn [sign_of].
  specialize (H c r eq_refl). unfold is_sign in H. now rewrite H.
Qed.
Lemma sign_minus sg neg : sign_text sg neg -> minus sg = neg.
Proof. intros [[-> ->]|[[-> ->]|[-> ->]]]; reflexivity. Qed.
Lemma span_stop d u : digits d -> (forall c t, u = c :: t -> is_digit c = false) -> span (d ++ u) = d.
Proof.
  intros D H. destruct u as [|c u]; [|apply span_at; [assumption|now apply (H c u)]]. rewrite app_nil_r.
  induction D as [|x d X D IH]; cbn [span]; [reflexivity|]. now rewrite X, IH.
Qed.
Lemma exponent_head x q u : exponent_part x q -> ends u -> forall c t, x ++ u = c :: t -> is_digit c = false /\ c <> "."%char.
Proof.
  intros [[-> _]|(e & es & neg & d & E & _ & _ & _ & -> & _)] C c t.
  - cbn [app]. intros ->. destruct C as (C1 & C2 & _). auto.
  - intros H. injection H as <- _. destruct E as [-> | ->]; (split; [reflexivity|discriminate]).
Qed.
Lemma exponent_here x q u : exponent_part x q -> ends u -> exponent_of (x ++ u) = x.
Proof.
  intros [[-> _]|(e & es & neg & d & E & S & NE & D & -> & _)] C.
  - destruct u as [|c u]; [reflexivity|]. destruct C as (C1 & C2 & C3 & C4).
    cbn [app exponent_of]. destruct (Ascii.eqb_spec c "e"); [congruence|]. destruct (Ascii.eqb_spec c "E"); [congruence|reflexivity].
  - cbn [app exponent_of]. replace (Ascii.eqb e "e" || Ascii.eqb e "E") with true by (destruct E as [-> | ->]; reflexivity).
    rewrite <- app_assoc. rewrite (sign_here es neg).
    + rewrite skipn_app_len, span_stop; [reflexivity|assumption|]. intros c t ->. apply C.
    + exact S.
    + intros c0 t H. destruct d as [|d0 d]; [congruence|]. injection H as <- _. inversion D; subst. now apply digit_no_sign.
Qed.
Lemma exponent_value x q : exponent_part x q ->
  let es := sign_of (skipn 1 x) in let c := skipn (length es) (skipn 1 x) in
  (if minus es then - dec_value c else dec_value c)%Z = q /\ (x = [] \/ c <> []).
Proof.
  intros [[-> ->]|(e & es & neg & d & E & S & NE & D & -> & ->)]; [split; [reflexivity|now left]|]. cbn [skipn]. cbv zeta.
  rewrite (sign_here es neg).
  - rewrite skipn_app_len, (sign_minus es neg S). split; [reflexivity|now right].
  - exact S.
  - intros c0 t H. destruct d as [|d0 d]; [congruence|]. injection H as <- _. inversion D; subst. now apply digit_no_sign.
Qed.
Lemma digits_forallb l : digits l <-> forallb is_digit l = true.
Proof. unfold digits. rewrite Forall_forall, forallb_forall. reflexivity. Qed.
Lemma quotient z q : (0 <= z)%Z ->
  let n := (if 0 <=? q then z * 10 ^ q else z)%Z in let d := (if 0 <=? q then 1 else 10 ^ (- q))%Z in
  (0 <= n)%Z /\ (0 < d)%Z /\ IZR n / IZR d = IZR z * bpow radix10 q.
Proof.
  intros Hz. cbv zeta. destruct (Z.leb_spec 0 q) as [H|H].
  - split; [apply Z.mul_nonneg_nonneg; [assumption|apply Z.pow_nonneg; lia]|]. split; [reflexivity|]. rewrite mult_IZR, ten_Z by assumption. field.
  - split; [assumption|]. split; [apply Z.pow_pos_nonneg; lia|]. rewrite ten_Z by lia. rewrite bpow_opp. unfold Rdiv. now rewrite Rinv_inv.
Qed.
(** a number followed by something else *)
Definition at_end (u : bytes) : bool := match u with [] => true | _ => false end.
Lemma get_number b w t neg r u g : ws w -> number_text t neg r -> ends u ->
  exists y, get_double (good b (w ++ t ++ u)) g = (Stream (rev t ++ rev w ++ b) u (at_end u) (negb (Rlt_bool (Rabs (rnd r)) big)), y) /\
    snd (sentry (good b (w ++ t ++ u))) = true /\
    (Rabs (rnd r) < big -> is_nearest neg r y) /\ (big <= Rabs (rnd r) -> y = S754_finite neg 9007199254740991 971).
Proof.
  intros W (sg & a & p & d & x & q & -> & S & A & D & NE & Pp & X & ->) C. fold (sgn neg).
  pose proof (exponent_head x q u X C) as EH.
  assert (PD : forall c t, p ++ x ++ u = c :: t -> is_digit c = false).
  { intros c t. destruct Pp as [[-> _]| ->]; [intros E; now apply (EH c t)|]. intros E. injection E as <- _. reflexivity. }
  assert (Head : a ++ p <> [] /\ forall c0 t, a ++ p ++ x ++ u = c0 :: t -> is_sign c0 = false /\ ~ blank c0).
  { destruct a as [|a0 a].
    - destruct Pp as [[-> ->]| ->]; [now elim NE|]. split; [discriminate|]. intros c0 t E. injection E as <- _. split; [reflexivity|]. now apply not_space.
    - split; [discriminate|]. intros c0 t E. injection E as <- _. inversion A; subst. split; [now apply digit_no_sign|]. apply not_space. now apply digit_not_space. }
  destruct Head as [Hn Head].
  assert (T : exists c0 t0, sg ++ a ++ p ++ x ++ u = c0 :: t0 /\ ~ blank c0).
  { destruct S as [[-> _]|[[-> _]|[-> _]]].
    - cbn [app]. destruct (a ++ p ++ x ++ u) as [|c0 t0] eqn:E0; [rewrite app_assoc in E0; apply app_eq_nil in E0; now destruct E0|].
      exists c0, t0. split; [reflexivity|]. now apply (Head c0 t0).
    - eexists _, _. split; [reflexivity|]. now apply not_space.
    - eexists _, _. split; [reflexivity|]. now apply not_space. }
  destruct T as (c0 & t0 & Et & Nb).
  unfold get_double. rewrite <- !app_assoc. rewrite Et, sentry_at by assumption. cbn [negb rest snd]. rewrite <- Et.
  rewrite (sign_here sg neg) by (exact S || (intros c1 t1 E1; apply (Head c1 t1 E1))). rewrite skipn_app_len.
  rewrite (span_stop a) by assumption. rewrite skipn_app_len.
  assert (PO : point_of (p ++ x ++ u) = p).
  { destruct Pp as [[-> _]| ->].
    - cbn [app]. destruct (x ++ u) as [|h tl]; [reflexivity|]. destruct (EH h tl eq_refl) as [_ H]. cbn [point_of]. destruct (Ascii.eqb_spec h "."); [congruence|reflexivity].
    - cbn [app point_of]. change (Ascii.eqb "." ".") with true. cbv iota. rewrite span_stop; [reflexivity|assumption|]. intros c t E. now apply (EH c t). }
  rewrite PO, skipn_app_len. assert (PB : skipn 1 p = d) by (destruct Pp as [[-> ->]| ->]; reflexivity). rewrite PB.
  replace (match a ++ d with [] => [] | _ => exponent_of (x ++ u) end) with x by (destruct (a ++ d); [congruence|]; symmetry; exact (exponent_here x q u X C)).
  assert (AD : advance (good (rev w ++ b) (sg ++ a ++ p ++ x ++ u)) (sg ++ a ++ p ++ x) = Stream (rev (sg ++ a ++ p ++ x) ++ rev w ++ b) u (at_end u) false).
  { unfold advance. cbn [rest before fail]. replace (sg ++ a ++ p ++ x ++ u) with ((sg ++ a ++ p ++ x) ++ u) by now rewrite <- !app_assoc.
    rewrite skipn_app_len. reflexivity. }
  cbv zeta. rewrite AD. cbn [before rest eof fail].
  pose proof (exponent_value x q X) as [EV EC]. cbv zeta in EV, EC. set (es := sign_of (skipn 1 x)) in *. set (cc := skipn (length es) (skipn 1 x)) in *. clearbody es cc.
  assert (DV : (0 <= dec_value (a ++ d))%Z).
  { apply dec_value_bound. apply digits_forallb. apply Forall_app. auto. }
  destruct (quotient (dec_value (a ++ d)) (q - Z.of_nat (length d)) DV) as (Qn & Qd & Qv). cbv zeta in Qn, Qd, Qv.
  rewrite EV. set (n := (if (0 <=? q - Z.of_nat (length d))%Z then _ else _)) in *. set (e := (if (0 <=? q - Z.of_nat (length d))%Z then 1%Z else _)) in *.
  exists (nearest (minus sg) n e). rewrite (sign_minus sg neg S).
  pose proof (nearest_spec neg n e Qn Qd) as NS. pose proof (overflows_spec neg n e Qn Qd) as OS. rewrite Qv in NS, OS.
  rewrite rnd_sgn, abs_sgn. split; [|split; [reflexivity|split]].
  - transitivity (if overflows neg n e then Stream (rev (sg ++ a ++ p ++ x) ++ rev w ++ b) u (at_end u) true else Stream (rev (sg ++ a ++ p ++ x) ++ rev w ++ b) u (at_end u) false, nearest neg n e).
    + destruct (a ++ d) as [|z zs]; [congruence|]. destruct x as [|x0 x]; [reflexivity|]. destruct cc; [destruct EC; congruence|reflexivity].
    + rewrite OS. now destruct (Rlt_bool _ _).
  - intros L. rewrite Rlt_bool_true in NS by exact L. exact NS.
  - intros L. rewrite Rlt_bool_false in NS by exact L. exact NS.
Qed.

(** ** printing *)
Lemma strip_spec b : exists j, b = strip b ++ repeat "0"%char j /\ (forall t, strip b <> t ++ ["0"%char]).
Proof.
  induction b as [|c b (j & E & H)]; [exists O; split; [reflexivity|intros [|? ?]; discriminate]|]. cbn [strip]. destruct (strip b) as [|s0 s] eqn:S.
  - destruct (Ascii.eqb_spec c "0") as [-> |N].
    + exists (Datatypes.S j). split; [cbn in *; now rewrite <- E|intros [|? ?]; discriminate].
    + exists j. split; [cbn in *; now rewrite <- E|]. intros [|t0 [|t1 t]] X; [|discriminate|discriminate]. injection X as ->. congruence.
  - exists j. split; [rewrite E at 1; reflexivity|]. intros [|t0 t] X; [discriminate|]. injection X as _ X. exact (H t X).
Qed.
Lemma zeros_value j : dec_value (repeat "0"%char j) = 0%Z.
Proof.
  unfold dec_value. induction j as [|j IH]; [reflexivity|]. cbn [repeat fold_left]. exact IH.
Qed.
Lemma strip_value a b q : IZR (dec_value (a ++ strip b)) * bpow radix10 (q - Z.of_nat (length (strip b))) = IZR (dec_value (a ++ b)) * bpow radix10 (q - Z.of_nat (length b)).
Proof.
  destruct (strip_spec b) as (j & E & _). set (s := strip b) in *. clearbody s. subst b. rewrite app_assoc, (dec_value_app (a ++ s)), zeros_value, repeat_length, app_length, repeat_length, Z.add_0_r, mult_IZR, ten_Z by lia.
  rewrite Rmult_assoc, <- bpow_plus. do 2 f_equal. lia.
Qed.
Lemma strip_digits b : digits b -> digits (strip b).
Proof.
  intros D. destruct (strip_spec b) as (j & E & _). rewrite E in D. apply Forall_app in D. apply D.
Qed.
Lemma behind_spec b : behind b = match strip b with [] => [] | _ => "."%char :: strip b end.
Proof. unfold behind. now destruct (strip b). Qed.
Lemma exponent_text_spec k : exponent_form (exponent_text k) k.
Proof.
  right. destruct (dec_nat_spec (Z.abs k) (Z.abs_nonneg k)) as [(NE & D & C) V].
  exists (k <? 0)%Z, ((if (Z.abs k <? 10)%Z then ["0"%char] else []) ++ dec_nat (Z.abs k)).
  split; [reflexivity|]. split; [apply Forall_app; split; [destruct (Z.abs k <? 10)%Z; repeat constructor|now apply digits_forallb]|].
  assert (LL : (length ((if (Z.abs k <? 10)%Z then ["0"%char] else []) ++ dec_nat (Z.abs k)) = 2%nat \/
    (2 <= length ((if (Z.abs k <? 10)%Z then ["0"%char] else []) ++ dec_nat (Z.abs k)))%nat /\ hd_error ((if (Z.abs k <? 10)%Z then ["0"%char] else []) ++ dec_nat (Z.abs k)) <> Some "0"%char)).
  { pose proof (dec_value_bound _ D) as B. rewrite V in B. destruct (Z.ltb_spec (Z.abs k) 10) as [L|L].
    - left. cbn [app length]. f_equal. destruct C as [C|C]; [exact C|]. destruct (dec_nat (Z.abs k)) as [|c0 [|c1 t]]; [congruence|reflexivity|]. exfalso.
      cbn [forallb] in D. apply andb_true_iff in D. destruct D as [D0 D1]. change (c0 :: c1 :: t) with ([c0] ++ c1 :: t) in V. rewrite dec_value_app in V.
      destruct (dec_value_bound (c1 :: t) D1) as [B1 _]. cbn [length] in V. rewrite Nat2Z.inj_succ, Z.pow_succ_r in V by lia.
      pose proof (Z.pow_pos_nonneg 10 (Z.of_nat (length t)) ltac:(lia) ltac:(lia)) as PP. assert (1 <= dec_value [c0])%Z.
      { unfold dec_value. cbn [fold_left]. assert (R0 : (48 <= byteZ c0)%Z) by (unfold is_digit in D0; lia). assert (byteZ c0 <> 48)%Z; [|lia]. intros X. apply C. cbn [hd_error]. f_equal. apply byteZ_inj. exact X. }
      nia.
    - destruct C as [C|C]; [rewrite C in B; cbn in B; lia|]. destruct (dec_nat (Z.abs k)) as [|c0 [|c1 t]] eqn:E; [congruence|cbn in B; lia|].
      right. cbn [app length]. split; [lia|exact C]. }
  split; [destruct LL as [-> |[? _]]; auto|]. split; [destruct LL as [? |[_ ?]]; auto|].
  rewrite dec_value_app, V. destruct (Z.abs k <? 10)%Z; cbn [dec_value fold_left]; change (byteZ "0") with 48%Z; destruct (Z.ltb_spec k 0); lia.
Qed.
Lemma digits_text_spec N k : (100000 <= N <= 999999)%Z ->
  exists a b x q, digits_text N k = a ++ pointed b ++ x /\ canon_digits a /\ digits b /\ (forall t, b <> t ++ ["0"%char]) /\ exponent_form x q /\
    (x = [] <-> (-4 <= k < 6)%Z) /\ (x <> [] -> length a = 1%nat /\ a <> ["0"%char]) /\ IZR (dec_value (a ++ b)) * bpow radix10 (q - Z.of_nat (length b)) = IZR N * bpow radix10 (k - 5).
Proof.
  intros B. destruct (six_digits N ltac:(lia)) as (D & V & L). unfold digits_text.
  assert (Hd : hd_error (six N) <> Some "0"%char).
  { unfold six. cbn [hd_error]. intros H. injection H as H. apply (f_equal byteZ) in H. rewrite byteZ_digit_char in H.
    - change (byteZ "0") with 48%Z in H. pose proof (Z.div_le_lower_bound N 100000 1 ltac:(lia) ltac:(lia)). lia.
    - split; [apply Z.div_pos; lia|]. assert (N / 100000 < 10)%Z; [|lia]. apply Z.div_lt_upper_bound; lia. }
  set (s := six N) in *. clearbody s.
  assert (CP : forall i, (1 <= i <= 6)%nat -> canon_digits (firstn i s) /\ digits (skipn i s) /\ length (skipn i s) = (6 - i)%nat).
  { intros i I. assert (DA : forallb is_digit (firstn i s ++ skipn i s) = true) by now rewrite firstn_skipn. rewrite forallb_app in DA. apply andb_true_iff in DA. destruct DA as [D1 D2].
    split; [|split; [now apply digits_forallb|rewrite skipn_length, L; reflexivity]]. destruct i as [|i]; [lia|]. destruct s as [|s0 s]; [discriminate|]. cbn [firstn].
    split; [discriminate|]. split; [exact D1|]. right. exact Hd. }
  destruct ((k <? -4) || (6 <=? k))%Z eqn:E.
  - destruct (CP 1%nat ltac:(lia)) as (Ca & Db & Lb). exists (firstn 1 s), (strip (skipn 1 s)), (exponent_text k), k. rewrite behind_spec. split; [reflexivity|]. split; [exact Ca|].
    split; [now apply strip_digits|]. split; [now destruct (strip_spec (skipn 1 s)) as (_ & _ & X)|]. split; [apply exponent_text_spec|].
    split; [split; [discriminate|intros K; exfalso; apply orb_true_iff in E; destruct E as [E|E]; [apply Z.ltb_lt in E|apply Z.leb_le in E]; lia]|].
    split; [|rewrite strip_value, firstn_skipn, V, Lb; reflexivity]. intros _. destruct s as [|s0 s]; [discriminate|]. split; [reflexivity|]. cbn [firstn]. intros X. injection X as ->. now apply Hd.
  - assert (K : (-4 <= k < 6)%Z) by (apply orb_false_iff in E; destruct E as [E1 E2]; apply Z.ltb_ge in E1; apply Z.leb_gt in E2; lia). destruct (Z.leb_spec 0 k) as [Kp|Kn].
    + destruct (CP (Z.to_nat (k + 1)) ltac:(lia)) as (Ca & Db & Lb). exists (firstn (Z.to_nat (k + 1)) s), (strip (skipn (Z.to_nat (k + 1)) s)), [], 0%Z.
      rewrite behind_spec, app_nil_r. split; [reflexivity|]. split; [exact Ca|]. split; [now apply strip_digits|].
      split; [now destruct (strip_spec (skipn (Z.to_nat (k + 1)) s)) as (_ & _ & X)|]. split; [now left|]. split; [split; auto|]. split; [congruence|].
      rewrite strip_value, firstn_skipn, V, Lb. do 2 f_equal. lia.
    + set (z := repeat "0"%char (Z.to_nat (- k - 1)) ++ s). exists ["0"%char], (strip z), [], 0%Z.
      rewrite behind_spec, app_nil_r. split; [reflexivity|]. split; [split; [discriminate|]; split; [reflexivity|now left]|].
      assert (Dz : digits z).
      { apply Forall_app. split; [|now apply digits_forallb]. apply Forall_forall. intros y Y. apply repeat_spec in Y. now subst y. }
      split; [now apply strip_digits|]. split; [now destruct (strip_spec z) as (_ & _ & X)|]. split; [now left|]. split; [split; auto|]. split; [congruence|].
      rewrite strip_value. rewrite dec_value_app. change (dec_value ["0"%char]) with 0%Z. rewrite Z.mul_0_l, Z.add_0_l.
      unfold z. rewrite dec_value_app, zeros_value, V, app_length, repeat_length, L. do 2 f_equal. lia.
Qed.
Lemma form_part x q : exponent_form x q -> exponent_part x q.
Proof.
  intros [H|(neg & c & -> & D & L & _ & ->)]; [now left|]. right. exists "e"%char, [if neg then "-"%char else "+"%char], neg, c.
  split; [now left|]. split; [unfold sign_text; destruct neg; auto|]. split; [intros ->; cbn in L; lia|]. auto.
Qed.
Lemma text_number t neg r : six_text t neg r -> number_text t neg r.
Proof.
  intros (a & b & x & q & -> & (NE & A & _) & D & _ & X & _ & _ & ->). exists (if neg then ["-"%char] else []), a, (pointed b), b, x, q.
  split; [reflexivity|]. split; [unfold sign_text; destruct neg; auto|]. split; [now apply digits_forallb|]. split; [assumption|].
  split; [intros H; apply app_eq_nil in H; now destruct H|]. split; [destruct b; [now left|now right]|]. split; [now apply form_part|reflexivity].
Qed.
Lemma decade_range N k : (100000 <= N <= 999999)%Z -> bpow radix10 k <= IZR N * bpow radix10 (k - 5) < bpow radix10 (k + 1).
Proof.
  intros [B1 B2]. apply IZR_le in B1. apply IZR_le in B2. pose proof (ten_pos (k - 5)) as P.
  replace (bpow radix10 k) with (100000 * bpow radix10 (k - 5)).
  - replace (bpow radix10 (k + 1)) with (1000000 * bpow radix10 (k - 5)).
    + split; [apply Rmult_le_compat_r; lra|apply Rmult_lt_compat_r; lra].
    + change 1000000 with (bpow radix10 6). rewrite <- bpow_plus. f_equal. lia.
  - change 100000 with (bpow radix10 5). rewrite <- bpow_plus. f_equal. lia.
Qed.
Lemma show_spec ns x : proper x -> six_text (show_double ns x) (sign_SF x) (to_six (real x)).
Proof.
  intros P. destruct x as [s|s| |s m e]; [| destruct P; discriminate | destruct P; discriminate |].
  - exists ["0"%char], [], [], 0%Z. change (real (S754_zero s)) with 0. rewrite to_six_0. split; [now destruct s|]. split; [split; [discriminate|split; [reflexivity|now left]]|].
    split; [constructor|]. split; [intros [|? ?]; discriminate|]. split; [now left|]. split; [split; auto|]. split; [congruence|].
    change (dec_value (["0"%char] ++ [])) with 0%Z. destruct s; ring.
  - pose proof (significant_spec s m e P) as S. unfold show_double. destruct (significant m e) as [N k]. destruct S as [B V].
    destruct (digits_text_spec N k B) as (a & b & x & q & -> & A & D & T & X & Ex & L & W). rewrite real_split, to_six_sgn, <- V. exists a, b, x, q.
    split; [reflexivity|]. split; [assumption|]. split; [assumption|]. split; [assumption|]. split; [assumption|].
    rewrite abs_sgn. pose proof (decade_range N k B) as G. pose proof (ten_pos k) as Pk. split; [|split; [assumption|now rewrite W]].
    rewrite Ex. rewrite Rabs_pos_eq by lra. split.
    + intros K. right. split.
      * apply Rle_trans with (bpow radix10 k); [apply bpow_le; lia|lra].
      * apply Rlt_le_trans with (bpow radix10 (k + 1)); [lra|apply bpow_le; lia].
    + intros [Z|[G1 G2]].
      * exfalso. apply Rmult_integral in Z. destruct Z as [Z|Z]; [destruct s; cbn in Z; lra|lra].
      * assert (-4 < k + 1)%Z by (apply (lt_bpow radix10); lra). assert (k < 6)%Z by (apply (lt_bpow radix10); lra). lia.
Qed.
(** the text depends on the sign and the six digits only *)
Lemma significant_one N N' k k' : (100000 <= N <= 999999)%Z -> (100000 <= N' <= 999999)%Z -> IZR N * bpow radix10 (k - 5) = IZR N' * bpow radix10 (k' - 5) -> N = N' /\ k = k'.
Proof.
  intros B B' E. pose proof (decade_range N k B) as G. pose proof (decade_range N' k' B') as G'. rewrite <- E in G'.
  assert (k < k' + 1)%Z by (apply (lt_bpow radix10); lra). assert (k' < k + 1)%Z by (apply (lt_bpow radix10); lra). assert (k = k') by lia. subst k'.
  split; [|reflexivity]. apply eq_IZR. apply Rmult_eq_reg_r with (bpow radix10 (k - 5)); [exact E|]. pose proof (ten_pos (k - 5)). lra.
Qed.
Lemma six_nonzero s m e : proper (S754_finite s m e) -> 0 < to_six (mag_of m e).
Proof.
  intros P. pose proof (significant_spec s m e P) as S. destruct (significant m e) as [N k]. destruct S as [B <-].
  pose proof (decade_range N k B). pose proof (ten_pos k). lra.
Qed.
Lemma same_show ns x y : proper x -> proper y -> sign_SF x = sign_SF y -> to_six (real x) = to_six (real y) -> show_double ns x = show_double ns y.
Proof.
  intros P Q S E. destruct x as [s|s| |s m e]; try (destruct P; discriminate); destruct y as [s'|s'| |s' m' e']; try (destruct Q; discriminate).
  - cbn in S. now subst.
  - exfalso. change (real (S754_zero s)) with 0 in E. rewrite to_six_0, real_split, to_six_sgn in E. pose proof (six_nonzero _ _ _ Q). destruct s'; cbn in E; lra.
  - exfalso. change (real (S754_zero s')) with 0 in E. rewrite to_six_0, real_split, to_six_sgn in E. pose proof (six_nonzero _ _ _ P). destruct s; cbn in E; lra.
  - cbn in S. subst s'. rewrite !real_split, !to_six_sgn in E. assert (E' : to_six (mag_of m e) = to_six (mag_of m' e')) by (destruct s; cbn in E; lra).
    pose proof (significant_spec s m e P) as S. pose proof (significant_spec s m' e' Q) as S'. unfold show_double.
    destruct (significant m e) as [N k]. destruct (significant m' e') as [N' k']. destruct S as [B V]. destruct S' as [B' V'].
    rewrite E', <- V' in V. destruct (significant_one _ _ _ _ B B' V) as [-> ->]. reflexivity.
Qed.

(** ** vectors *)
Lemma comma_stops : stops ",". Proof. repeat split; discriminate. Qed.
Lemma brace_stops : stops "}". Proof. repeat split; discriminate. Qed.
Lemma loop_pairs {A} (g : nat -> stream -> outcome (stream * A)) : forall l : list (bytes * A), l <> [] ->
  (forall t y n b w c u, In (t, y) l -> ws w -> stops c -> g n (good b (w ++ t ++ c :: u)) = Ok (good (rev t ++ rev w ++ b) (c :: u), y)) ->
  forall f n b w u ch acc, (length l <= f)%nat -> ws w ->
  loop_of g f n (good b (w ++ joined (map fst l) ++ "}"%char :: u)) ch acc
  = Ok (good ("}"%char :: rev (joined (map fst l)) ++ rev w ++ b) u, acc ++ map snd l).
Proof.
  induction l as [|[t y] l IH]; intros NE H f n b w u ch acc L W; [congruence|]. destruct f as [|f]; [cbn in L; lia|]. cbn [loop_of].
  destruct l as [|[t' y'] l].
  - cbn [map fst snd joined]. rewrite (H t y) by (auto using brace_stops; now left). cbn [bind].
    rewrite get_char_now by now apply not_space. reflexivity.
  - change (joined (map fst ((t, y) :: (t', y') :: l))) with (t ++ [","%char; " "%char] ++ joined (map fst ((t', y') :: l))).
    rewrite <- !app_assoc. cbn [app]. rewrite (H t y) by (auto using comma_stops; now left). cbn [bind].
    rewrite get_char_now by now apply not_space. cbn [eof].
    change (Ascii.eqb "," "}") with false. change (negb (Ascii.eqb "," ",")) with false. cbn iota.
    change (" "%char :: joined (map fst ((t', y') :: l)) ++ "}"%char :: u) with ([" "%char] ++ joined (map fst ((t', y') :: l)) ++ "}"%char :: u).
    rewrite IH.
    + unfold seq_push. rewrite <- app_assoc. cbn [rev app map snd]. rewrite !rev_app_distr. cbn [rev app]. rewrite <- !app_assoc. reflexivity.
    + discriminate.
    + intros. apply H; auto. now right.
    + cbn [length] in *. lia.
    + constructor; [now left|constructor].
Qed.
Lemma get_shown ns b w x c u g : proper x -> ws w -> stops c -> exists y, back x y /\
  get_double (good b (w ++ show_double ns x ++ c :: u)) g = (good (rev (show_double ns x) ++ rev w ++ b) (c :: u), y).
Proof.
  intros P W C. destruct (get_number b w _ _ _ (c :: u) g W (text_number _ _ _ (show_spec ns x P)) C) as (y & E & _ & H & _).
  pose proof (no_overflow x P) as O. rewrite Rlt_bool_true in E by exact O. exists y. split; [now apply H|exact E].
Qed.
Lemma back_exists v : Forall proper v -> exists w, Forall2 back v w.
Proof.
  induction 1 as [|x v P _ (w & IH)]; [exists []; constructor|].
  destruct (get_shown false [] [] x "," [] dzero P (Forall_nil _) comma_stops) as (y & B & _). exists (y :: w). now constructor.
Qed.
Lemma shown_head ns x : proper x -> exists c t, show_double ns x = c :: t /\ ~ blank c /\ c <> "}"%char.
Proof.
  intros P. destruct (show_spec ns x P) as (a & b & e & q & -> & (NE & A & _) & _). destruct (sign_SF x).
  - eexists _, _. split; [reflexivity|]. split; [now apply not_space|discriminate].
  - destruct a as [|c a]; [congruence|]. eexists _, _. split; [reflexivity|]. cbn [forallb] in A. apply andb_true_iff in A. destruct A as [A _].
    split; [apply not_space; now apply digit_not_space|]. intros ->. discriminate.
Qed.
Lemma pair_in {A B C} (f : A -> C) (R : A -> B -> Prop) v w t y : Forall2 R v w -> In (t, y) (combine (map f v) w) -> exists x, In x v /\ t = f x /\ R x y.
Proof.
  induction 1 as [|a b v w H _ IH]; cbn [map combine]; intros I; [contradiction|]. destruct I as [I|I].
  - injection I as <- <-. exists a. split; [now left|auto].
  - destruct (IH I) as (x & X & Y). exists x. split; [now right|assumption].
Qed.
Lemma pair_fst {A B C} (f : A -> C) (R : A -> B -> Prop) v w : Forall2 R v w -> map fst (combine (map f v) w) = map f v /\ map snd (combine (map f v) w) = w /\ length (combine (map f v) w) = length v.
Proof.
  induction 1 as [|a b v w _ _ (I1 & I2 & I3)]; [auto|]. cbn [map combine fst snd length]. now rewrite I1, I2, I3.
Qed.
Lemma read_back ns gd gc v w f b u : Forall proper v -> Forall2 back v w -> (length v <= f)%nat ->
  read_doubles gd gc f (good b (vector_text (map (show_double ns) v) ++ u)) = Ok (good (rev (vector_text (map (show_double ns) v)) ++ b) u, w).
Proof.
  intros P R L. unfold read_doubles, vector_text. change (str "{") with ["{"%char]. change (str "}") with ["}"%char]. cbn [app].
  destruct v as [|x v].
  - inversion R. cbn [map joined app]. rewrite read_of_here by now apply not_space. reflexivity.
  - destruct (shown_head ns x (Forall_inv P)) as (c & r & E & Nb & Nc). rewrite <- app_assoc. cbn [app].
    assert (Ej : exists z, joined (map (show_double ns) (x :: v)) = c :: z) by (cbn [map]; rewrite joined_head, E; eexists; reflexivity).
    destruct Ej as [z Ej]. rewrite Ej. cbn [app]. rewrite read_of_here by assumption. destruct (Ascii.eqb_spec c "}") as [-> |_]; [congruence|]. cbn [rev app].
    change (c :: z ++ "}"%char :: u) with ([] ++ (c :: z) ++ "}"%char :: u). rewrite <- Ej.
    destruct (pair_fst (show_double ns) back _ _ R) as (F1 & F2 & F3).
    rewrite <- F1. rewrite (loop_pairs _ (combine (map (show_double ns) (x :: v)) w)).
    + rewrite F2, F1, Ej. cbn [rev app]. rewrite ?rev_app_distr. cbn [rev app]. now rewrite <- ?app_assoc.
    + intros X. rewrite X in F3. discriminate.
    + intros t y n b' w' c' u' I W' C'. destruct (pair_in _ _ _ _ _ _ R I) as (x' & I' & -> & B). cbv beta.
      destruct (get_shown ns b' w' x' c' u' (gd n) (proj1 (Forall_forall _ _) P x' I') W' C') as (y' & B' & ->).
      rewrite (nearest_one _ _ _ _ B' B). reflexivity.
    + lia.
    + constructor.
Qed.
Lemma print_vector ns v : (Z.of_nat (length v) < 2 ^ 31)%Z -> print_doubles ns v = Ok (vector_text (map (show_double ns) v)).
Proof. intros L. apply print_of_spec; [assumption|reflexivity]. Qed.

(** ** infinities and NaN *)
Lemma get_nothing b w c u g : ws w -> ~ blank c -> is_digit c = false -> is_sign c = false -> c <> "."%char ->
  get_double (good b (w ++ c :: u)) g = (Stream (rev w ++ b) (c :: u) false true, dzero).
Proof.
  intros W Nb D S N. unfold get_double. rewrite sentry_at by assumption. cbn [negb rest]. unfold is_sign in S.
  cbn [sign_of]. rewrite S. cbn [length skipn span]. rewrite D. cbn [length skipn point_of]. destruct (Ascii.eqb_spec c "."); [congruence|]. reflexivity.
Qed.
Lemma get_minus_nothing b w c u g : ws w -> is_digit c = false -> c <> "."%char ->
  get_double (good b (w ++ "-"%char :: c :: u)) g = (Stream ("-"%char :: rev w ++ b) (c :: u) false true, dzero).
Proof.
  intros W D N. unfold get_double. rewrite sentry_at by (assumption || now apply not_space). cbn [negb rest].
  change (sign_of ("-"%char :: c :: u)) with ["-"%char]. cbn [length skipn span]. rewrite D. cbn [length skipn point_of]. destruct (Ascii.eqb_spec c "."); [congruence|]. reflexivity.
Qed.
Lemma get_nonfinite ns x b w u g : dfinite x = false -> ws w -> exists b' c r,
  get_double (good b (w ++ show_double ns x ++ u)) g = (Stream b' (c :: r) false true, dzero).
Proof.
  intros H W. destruct x as [s|s| |s m e]; try discriminate.
  - destruct s; cbn [show_double]; [change (str "-inf" ++ u) with ("-"%char :: "i"%char :: "n"%char :: "f"%char :: u); rewrite get_minus_nothing by (assumption || reflexivity || discriminate)
      |change (str "inf" ++ u) with ("i"%char :: "n"%char :: "f"%char :: u); rewrite get_nothing by (assumption || reflexivity || discriminate || now apply not_space)]; eauto.
  - destruct ns; cbn [show_double]; [change (str "-nan" ++ u) with ("-"%char :: "n"%char :: "a"%char :: "n"%char :: u); rewrite get_minus_nothing by (assumption || reflexivity || discriminate)
      |change (str "nan" ++ u) with ("n"%char :: "a"%char :: "n"%char :: u); rewrite get_nothing by (assumption || reflexivity || discriminate || now apply not_space)]; eauto.
Qed.
Lemma nonfinite_head ns x : dfinite x = false -> exists c t, show_double ns x = c :: t /\ ~ blank c /\ c <> "}"%char /\ c <> ","%char.
Proof.
  intros H. destruct x as [s|s| |s m e]; try discriminate; [destruct s|destruct ns]; (eexists _, _; split; [reflexivity|]; split; [now apply not_space|split; discriminate]).
Qed.
Lemma get_double_failed b r g : get_double (Stream b r false true) g = (Stream b r false true, g).
Proof. reflexivity. Qed.
Lemma loop_failed gd : forall f n b r acc, loop_of (fun n s => Ok (get_double s (gd n))) f n (Stream b r false true) "," acc = Fuel.
Proof.
  induction f as [|f IH]; intros n b r acc; cbn [loop_of]; [reflexivity|]. rewrite get_double_failed. cbn [bind]. rewrite get_char_failed. cbn. apply IH.
Qed.
Lemma joined_more a b l : joined (a :: b :: l) = a ++ ","%char :: " "%char :: joined (b :: l).
Proof. reflexivity. Qed.
Lemma loop_nonfinite gd ns x t u : dfinite x = false -> forall p f n b w acc ch, Forall proper p -> p <> [] -> ws w ->
  loop_of (fun n s => Ok (get_double s (gd n))) f n (good b (w ++ joined (map (show_double ns) (p ++ x :: t)) ++ u)) ch acc = Fuel.
Proof.
  intros X. induction p as [|y p IH]; intros f n b w acc ch P NE W; [congruence|]. destruct f as [|f]; [reflexivity|]. cbn [loop_of].
  assert (E : exists z l, map (show_double ns) ((y :: p) ++ x :: t) = show_double ns y :: z :: l /\ z :: l = map (show_double ns) (p ++ x :: t)).
  { destruct p as [|y' p]; cbn [map app]; eexists _, _; split; reflexivity. }
  destruct E as (z & l & -> & E2). rewrite joined_more, E2. rewrite <- app_assoc. cbn [app].
  destruct (get_shown ns b w y "," (" "%char :: joined (map (show_double ns) (p ++ x :: t)) ++ u) (gd n) (Forall_inv P) W comma_stops) as (y' & _ & ->). cbn [bind].
  rewrite get_char_now by now apply not_space. cbn [eof]. change (Ascii.eqb "," "}") with false. change (negb (Ascii.eqb "," ",")) with false. cbn iota.
  change (" "%char :: joined (map (show_double ns) (p ++ x :: t)) ++ u) with ([" "%char] ++ joined (map (show_double ns) (p ++ x :: t)) ++ u).
  assert (W1 : ws [" "%char]) by (constructor; [now left|constructor]). destruct p as [|y2 p].
  - destruct f as [|f]; [reflexivity|]. cbn [loop_of]. cbn [app map]. rewrite joined_head. rewrite <- app_assoc.
    destruct (get_nonfinite ns x (","%char :: rev (show_double ns y) ++ rev w ++ b) [" "%char] (match map (show_double ns) t with [] => [] | _ => str ", " ++ joined (map (show_double ns) t) end ++ u) (gd (S n)) X W1) as (b' & c & r & G).
    cbn [app] in G. rewrite G. cbn [bind]. rewrite get_char_failed. cbn [eof]. apply loop_failed.
  - apply IH; [now inversion P|discriminate|assumption].
Qed.
Lemma read_nonfinite ns gd gc p x t f b u : dfinite x = false -> Forall proper p -> 
  read_doubles gd gc (S f) (good b (vector_text (map (show_double ns) (p ++ x :: t)) ++ u)) = match p with [] => Err | _ => Fuel end.
Proof.
  intros X P. unfold read_doubles, vector_text. change (str "{") with ["{"%char]. change (str "}") with ["}"%char]. cbn [app]. rewrite <- app_assoc.
  destruct p as [|y p].
  - destruct (nonfinite_head ns x X) as (c & r & E & Nb & Nc & Nd). cbn [app].
    assert (J : exists z, joined (map (show_double ns) (x :: t)) = show_double ns x ++ z) by (cbn [map]; rewrite joined_head; eexists; reflexivity).
    destruct J as [z J]. rewrite J, E. cbn [app]. rewrite read_of_here by assumption. destruct (Ascii.eqb_spec c "}") as [-> |_]; [congruence|].
    replace (c :: (r ++ z) ++ "}"%char :: u) with ([] ++ show_double ns x ++ z ++ "}"%char :: u) by (rewrite E; cbn [app]; now rewrite <- app_assoc).
    destruct (get_nonfinite ns x ("{"%char :: b) [] (z ++ "}"%char :: u) (gd 0%nat) X (Forall_nil _)) as (b' & c' & r' & G). cbn [loop_of].
    rewrite G. cbn [bind]. rewrite get_char_failed. cbn [eof]. destruct (Ascii.eqb_spec c "}") as [-> |_]; [congruence|]. destruct (Ascii.eqb_spec c ",") as [-> |_]; [congruence|reflexivity].
  - destruct (shown_head ns y (Forall_inv P)) as (c & r & E & Nb & Nc).
    assert (Ej : exists z, joined (map (show_double ns) ((y :: p) ++ x :: t)) = c :: z) by (cbn [map app]; rewrite joined_head, E; eexists; reflexivity).
    destruct Ej as [z Ej]. rewrite Ej. cbn [app]. rewrite read_of_here by assumption. destruct (Ascii.eqb_spec c "}") as [-> |_]; [congruence|].
    change (c :: z ++ "}"%char :: u) with ([] ++ (c :: z) ++ "}"%char :: u). rewrite <- Ej.
    apply (loop_nonfinite gd ns x t ("}"%char :: u) X (y :: p) (S f)); [assumption|discriminate|constructor].
Qed.

(** ** what survives *)
Lemma ten_two : bpow radix2 (-1000) <= bpow radix10 (-300).
Proof.
  apply Rmult_le_reg_r with (bpow radix10 300); [apply bpow_gt_0|]. rewrite <- bpow_plus. change (bpow radix10 (-300 + 300)) with 1.
  apply Rmult_le_reg_l with (bpow radix2 1000); [apply bpow_gt_0|]. rewrite <- Rmult_assoc, <- bpow_plus. change (bpow radix2 (1000 + -1000)) with 1.
  rewrite Rmult_1_l, Rmult_1_r. rewrite <- ten_Z, <- IZR_Zpower by lia. apply IZR_le. vm_compute. discriminate.
Qed.
Lemma to_six_fixed r : of_six r -> to_six r = r.
Proof. intros H. apply of_six_format in H. apply round_generic; [typeclasses eauto|exact H]. Qed.
Lemma to_six_of r : of_six (to_six r).
Proof. apply of_six_format, to_six_format. Qed.
Lemma to_six_abs r : Rabs (to_six r) = to_six (Rabs r).
Proof.
  unfold Rabs. destruct (Rcase_abs r) as [H|H].
  - rewrite to_six_opp. assert (to_six r <= 0) by (rewrite <- to_six_0; apply to_six_le; lra). destruct (Rcase_abs (to_six r)); lra.
  - assert (0 <= to_six r) by (rewrite <- to_six_0; apply to_six_le; lra). destruct (Rcase_abs (to_six r)); lra.
Qed.
Lemma six_large r k : bpow radix10 k <= Rabs r -> bpow radix10 k <= Rabs (to_six r).
Proof.
  intros H. rewrite to_six_abs. rewrite <- (to_six_fixed (bpow radix10 k)); [now apply to_six_le|]. exists 1%Z, k. split; [reflexivity|ring].
Qed.
Lemma back_six x y : ordinary x -> back x y -> to_six (real y) = to_six (real x).
Proof.
  intros O (_ & E & _). rewrite E. destruct O as [Z|O].
  - rewrite Z, to_six_0, rnd_0. apply to_six_0.
  - apply recovered; [apply to_six_of|]. apply Rle_trans with (1 := ten_two). now apply six_large.
Qed.
Lemma back_same x y : proper x -> ordinary x -> back x y -> (y = x <-> exists r, of_six r /\ real x = rnd r).
Proof.
  intros P O B. split.
  - intros ->. exists (to_six (real x)). split; [apply to_six_of|]. apply B.
  - intros (r & S & E). destruct B as (Q & E2 & E3). apply proper_unique; try assumption. rewrite E2. destruct O as [Z|O].
    + now rewrite Z, to_six_0, rnd_0.
    + rewrite E, recovered; [reflexivity|assumption|]. destruct (Rle_lt_dec (bpow radix2 (-1000)) (Rabs r)) as [H|H]; [exact H|exfalso].
      assert (A : Rabs (rnd r) <= bpow radix2 (-1000)).
      { apply Rabs_le. apply Rabs_lt_inv in H. rewrite <- (rnd_pow (-1000)) by lia. rewrite <- rnd_opp. split; apply rnd_le; lra. }
      assert (X : bpow radix2 (-1000) < bpow radix10 (-300)).
      { pose proof ten_two as T. assert (bpow radix2 (-1000) <> bpow radix10 (-300)); [|lra]. intros W.
        assert (V : bpow radix2 (-1000) * bpow radix10 300 * bpow radix2 1000 = bpow radix2 1000) by (rewrite W, <- bpow_plus; change (bpow radix10 (-300 + 300)) with 1; ring).
        rewrite (Rmult_comm (bpow radix2 (-1000))), Rmult_assoc, <- bpow_plus in V. change (bpow radix2 (-1000 + 1000)) with 1 in V. rewrite Rmult_1_r in V.
        rewrite <- ten_Z, <- IZR_Zpower in V by lia. apply eq_IZR in V. vm_compute in V. discriminate. }
      rewrite <- E in A. lra.
Qed.
Lemma back_error x y : proper x -> ordinary x -> back x y -> Rabs (real y - real x) <= 501 / 100000000 * Rabs (real x).
Proof.
  intros P O (_ & E & _). rewrite E. destruct O as [Z|O].
  - rewrite Z, to_six_0, rnd_0, Rminus_0_r, Rabs_R0. lra.
  - pose proof (to_six_error (real x)) as H1. pose proof (rnd_close (to_six (real x)) (Rle_trans _ _ _ ten_two (six_large _ _ O))) as H2.
    assert (H3 : bpow radix2 (-53) <= / 1000000000) by (change (bpow radix2 (-53)) with (/ 9007199254740992); apply Rinv_le; lra).
    pose proof (Rabs_pos (real x)) as H4. pose proof (Rabs_pos (to_six (real x))) as H5.
    assert (H6 : Rabs (to_six (real x)) <= 2 * Rabs (real x)).
    { replace (to_six (real x)) with (to_six (real x) - real x + real x) by ring. eapply Rle_trans; [apply Rabs_triang|]. lra. }
    replace (rnd (to_six (real x)) - real x) with ((rnd (to_six (real x)) - to_six (real x)) + (to_six (real x) - real x)) by ring.
    eapply Rle_trans; [apply Rabs_triang|]. assert (bpow radix2 (-53) * Rabs (to_six (real x)) <= / 1000000000 * (2 * Rabs (real x))); [|lra].
    apply Rmult_le_compat; try assumption. apply bpow_ge_0.
Qed.

(** ** stringCast<double> *)
Lemma cast_number w t neg r u : ws w -> number_text t neg r -> ends u -> exists y, cast_double (w ++ t ++ u) = Ok y /\
  (Rabs (rnd r) < big -> is_nearest neg r y) /\ (big <= Rabs (rnd r) -> y = S754_finite neg 9007199254740991 971).
Proof.
  intros W T U. destruct (get_number [] w t neg r u dzero W T U) as (y & E & S & H). exists y. unfold cast_double. rewrite S, E. auto.
Qed.
Lemma cast_shown ns x w u : proper x -> ws w -> ends u -> exists y, cast_double (w ++ show_double ns x ++ u) = Ok y /\ back x y.
Proof.
  intros P W U. destruct (cast_number w _ _ _ u W (text_number _ _ _ (show_spec ns x P)) U) as (y & E & H & _). exists y. split; [exact E|]. apply H. now apply no_overflow.
Qed.
Lemma cast_blank w : cast_double w = UB <-> ws w.
Proof.
  unfold cast_double. destruct (sentry_spec [] w) as (a & u & -> & A & [[-> E]|(c & t & -> & Nb & E)]); rewrite E; cbn [snd]; rewrite ?app_nil_r.
  - now split.
  - split; [discriminate|]. intros W. apply Forall_app in W. destruct W as [_ W]. inversion W; subst. contradiction.
Qed.
Lemma cast_other w c u : ws w -> ~ blank c -> is_digit c = false -> is_sign c = false -> c <> "."%char -> cast_double (w ++ c :: u) = Ok dzero.
Proof.
  intros W Nb D S N. unfold cast_double. rewrite get_nothing by assumption. rewrite sentry_at by assumption. reflexivity.
Qed.
Lemma span_prefix t : span t = JsonModel.digit_prefix t.
Proof. induction t as [|c t IH]; [reflexivity|]. cbn. now rewrite IH. Qed.
Lemma span_in t c : In c (skipn (length (span t)) t) -> In c t.
Proof. intros H. rewrite <- (firstn_skipn (length (span t)) t). apply in_or_app. now right. Qed.
(** the conversion used by the JSON reader *)
Lemma json_tail (sg t : bytes) s : (forall c, In c t -> c <> "e"%char /\ c <> "E"%char) ->
  snd (let a := span t in
    let r := skipn (length a) t in
    let p := point_of r in
    let r := skipn (length p) r in
    let b := skipn 1 p in
    let x := match a ++ b with [] => [] | _ => exponent_of r end in
    let s := advance s (sg ++ a ++ p ++ x) in
    let failed := Stream (before s) (VecIOModel.rest s) (eof s) true in
    let es := sign_of (skipn 1 x) in
    let c := skipn (length es) (skipn 1 x) in
    match a ++ b, x, c with
    | [], _, _ => (failed, dzero)
    | _, _ :: _, [] => (failed, dzero)
    | ds, _, _ =>
        let q := ((if minus es then - dec_value c else dec_value c) - Z.of_nat (length b))%Z in
        let n := (if 0 <=? q then dec_value ds * 10 ^ q else dec_value ds)%Z in
        let d := (if 0 <=? q then 1 else 10 ^ (- q))%Z in
        (if overflows (minus sg) n d then failed else s, nearest (minus sg) n d)
    end) =
  (let a := JsonModel.digit_prefix t in
    let b := match skipn (length a) t with c :: t => if Ascii.eqb c "." then JsonModel.digit_prefix t else [] | [] => [] end in
    match a ++ b with
    | [] => dzero
    | ds => nearest (minus sg) (dec_value ds) (10 ^ Z.of_nat (length b))
    end).
Proof.
  intros Ft. cbv zeta. change (JsonModel.digit_prefix t) with (span t). pose proof (span_in t) as SI. remember (skipn (length (span t)) t) as r eqn:Er. clear Er.
  assert (Fr : forall c, In c r -> c <> "e"%char /\ c <> "E"%char) by (intros c I; apply Ft; now apply SI).
  assert (PB : match r with c :: t => if Ascii.eqb c "." then JsonModel.digit_prefix t else [] | [] => [] end = skipn 1 (point_of r)).
  { destruct r as [|c r']; [reflexivity|]. cbn [point_of]. destruct (Ascii.eqb c "."); [|reflexivity]. reflexivity. }
  rewrite PB. assert (EX : exponent_of (skipn (length (point_of r)) r) = []).
  { assert (Fk : forall c, In c (skipn (length (point_of r)) r) -> c <> "e"%char /\ c <> "E"%char) by (intros c I; apply Fr; rewrite <- (firstn_skipn (length (point_of r)) r); apply in_or_app; now right).
    destruct (skipn (length (point_of r)) r) as [|c k]; [reflexivity|]. destruct (Fk c (or_introl eq_refl)) as [N1 N2]. cbn [exponent_of].
    destruct (Ascii.eqb_spec c "e"); [congruence|]. destruct (Ascii.eqb_spec c "E"); [congruence|reflexivity]. }
  rewrite EX. clear PB EX. generalize (skipn 1 (point_of r)) as b. intros b. destruct (span t ++ b) as [|z zs]; [reflexivity|]. cbn [skipn sign_of length minus snd].
  change (dec_value []) with 0%Z. rewrite Z.sub_0_l. destruct b as [|b0 b].
  - change (0 <=? - Z.of_nat (@length ascii []))%Z with true. cbv iota. change (10 ^ (- Z.of_nat (@length ascii [])))%Z with 1%Z. now rewrite Z.mul_1_r.
  - replace (0 <=? - Z.of_nat (length (b0 :: b)))%Z with false by (symmetry; apply Z.leb_gt; cbn [length]; lia). rewrite Z.opp_involutive. reflexivity.
Qed.
Lemma cast_json s : s <> [] -> forallb JsonSpec.number_char s = true -> cast_double s = Ok (float_read s).
Proof.
  intros NE F. assert (Fc : forall c, In c s -> ~ blank c /\ c <> "e"%char /\ c <> "E"%char /\ c <> "+"%char).
  { intros c I. apply (proj1 (forallb_forall _ _) F) in I. split.
    - apply not_space. pose proof (JsonLooseProofs.all_ascii (fun c => implb (JsonSpec.number_char c) (negb (is_space c))) eq_refl c) as X. cbv beta in X. rewrite I in X. now destruct (is_space c).
    - split; [|split]; intros ->; discriminate. }
  destruct s as [|c0 s0]; [congruence|]. pose proof (sentry_at [] [] c0 s0 (Forall_nil _) (proj1 (Fc c0 (or_introl eq_refl)))) as SE. cbn [app rev] in SE.
  unfold cast_double, get_double, float_read. rewrite SE. cbn [snd negb rest]. f_equal.
  assert (SG : sign_of (c0 :: s0) = if Ascii.eqb c0 "-" then [c0] else []).
  { cbn [sign_of]. destruct (Ascii.eqb_spec c0 "+") as [-> |_]; [now elim (proj2 (proj2 (proj2 (Fc "+"%char (or_introl eq_refl)))))|reflexivity]. }
  rewrite SG. destruct (Ascii.eqb_spec c0 "-") as [-> |N].
  - apply (json_tail ["-"%char] s0). intros c I. destruct (Fc c (or_intror I)); tauto.
  - apply (json_tail [] (c0 :: s0)). intros c I. destruct (Fc c I); tauto.
Qed.

(** ** a text denotes one number only *)
Lemma number_parts t neg r : number_text t neg r ->
  let sg := sign_of t in let r0 := skipn (length sg) t in let a := span r0 in let r1 := skipn (length a) r0 in let p := point_of r1 in
  let x := skipn (length p) r1 in let es := sign_of (skipn 1 x) in let c := skipn (length es) (skipn 1 x) in
  neg = minus sg /\ r = sgn neg * (IZR (dec_value (a ++ skipn 1 p)) * bpow radix10 ((if minus es then - dec_value c else dec_value c) - Z.of_nat (length (skipn 1 p)))).
Proof.
  intros (sg & a & p & d & x & q & -> & S & A & D & NE & Pp & X & ->). fold (sgn neg).
  assert (EH : forall c t, x = c :: t -> is_digit c = false /\ c <> "."%char).
  { intros c t E. apply (exponent_head x q [] X I c t). now rewrite app_nil_r. }
  assert (PD : forall c t, p ++ x = c :: t -> is_digit c = false).
  { intros c t. destruct Pp as [[-> _]| ->]; [intros E; now apply (EH c t)|]. intros E. injection E as <- _. reflexivity. }
  assert (Head : forall c0 t, a ++ p ++ x = c0 :: t -> is_sign c0 = false).
  { intros c0 t E. destruct a as [|a0 a].
    - destruct Pp as [[-> ->]| ->]; [now elim NE|]. injection E as <- _. reflexivity.
    - injection E as <- _. inversion A; subst. now apply digit_no_sign. }
  cbv zeta. rewrite (sign_here sg neg) by (exact S || exact Head). rewrite skipn_app_len, (span_stop a) by assumption. rewrite skipn_app_len.
  assert (PO : point_of (p ++ x) = p).
  { destruct Pp as [[-> _]| ->].
    - cbn [app]. destruct x as [|h tl]; [reflexivity|]. destruct (EH h tl eq_refl) as [_ H]. cbn [point_of]. destruct (Ascii.eqb_spec h "."); [congruence|reflexivity].
    - cbn [app point_of]. change (Ascii.eqb "." ".") with true. cbv iota. rewrite span_stop; [reflexivity|assumption|]. intros c t E. now apply (EH c t). }
  rewrite PO, skipn_app_len. assert (PB : skipn 1 p = d) by (destruct Pp as [[-> ->]| ->]; reflexivity). rewrite PB.
  destruct (exponent_value x q X) as [EV _]. cbv zeta in EV. rewrite EV. split; [symmetry; exact (sign_minus sg neg S)|reflexivity].
Qed.
Lemma number_one t neg r neg' r' : number_text t neg r -> number_text t neg' r' -> neg = neg' /\ r = r'.
Proof.
  intros H H'. apply number_parts in H. apply number_parts in H'. cbv zeta in H, H'. destruct H as [N ->]. destruct H' as [N' ->].
  rewrite N, N'. auto.
Qed.
Lemma show_alike ns x y : proper x -> proper y -> (show_double ns x = show_double ns y <-> sign_SF x = sign_SF y /\ to_six (real x) = to_six (real y)).
Proof.
  intros P Q. split; [|intros [S E]; now apply same_show]. intros E.
  pose proof (text_number _ _ _ (show_spec ns x P)) as X. pose proof (text_number _ _ _ (show_spec ns y Q)) as Y. rewrite E in X. exact (number_one _ _ _ _ _ X Y).
Qed.
Lemma number_chars t neg r c : number_text t neg r -> In c t -> is_digit c = true \/ In c ["+"; "-"; "."; "e"; "E"]%char.
Proof.
  intros (sg & a & p & d & x & q & -> & S & A & D & _ & Pp & X & _) I. apply in_app_or in I. destruct I as [I|I].
  { right. destruct S as [[-> _]|[[-> _]|[-> _]]]; cbn in I |- *; tauto. }
  apply in_app_or in I. destruct I as [I|I]; [left; now apply (proj1 (Forall_forall _ _) A)|]. apply in_app_or in I. destruct I as [I|I].
  - destruct Pp as [[-> _]| ->]; [destruct I|]. destruct I as [<-|I]; [right; cbn; tauto|left; now apply (proj1 (Forall_forall _ _) D)].
  - destruct X as [[-> _]|(e & es & n & z & E & S' & _ & Z & -> & _)]; [destruct I|]. destruct I as [<-|I]; [right; destruct E as [-> | ->]; cbn; tauto|].
    apply in_app_or in I. destruct I as [I|I]; [|left; now apply (proj1 (Forall_forall _ _) Z)]. right. destruct S' as [[-> _]|[[-> _]|[-> _]]]; cbn in I |- *; tauto.
Qed.
Lemma shown_without ns c x : proper x -> is_digit c = false -> ~ In c ["+"; "-"; "."; "e"; "E"]%char -> OutSpec.without c (show_double ns x).
Proof.
  intros P D N I. destruct (number_chars _ _ _ c (text_number _ _ _ (show_spec ns x P)) I); [congruence|contradiction].
Qed.
Lemma map_alike ns p : forall q, Forall proper p -> Forall proper q ->
  (map (show_double ns) p = map (show_double ns) q <-> Forall2 (fun x y => sign_SF x = sign_SF y /\ to_six (real x) = to_six (real y)) p q).
Proof.
  induction p as [|x p IH]; intros [|y q] P Q; cbn [map]; try (split; [discriminate|intros H; inversion H]).
  - split; [constructor|reflexivity].
  - inversion P; subst. inversion Q; subst. split.
    + intros E. injection E as E1 E2. constructor; [now apply (show_alike ns)|now apply IH].
    + intros H. inversion H; subst. f_equal; [now apply show_alike|now apply IH].
Qed.
Lemma points_alike ns p q : p <> [] -> q <> [] -> Forall proper p -> Forall proper q ->
  (print_coordinates ns p = print_coordinates ns q <-> Forall2 (fun x y => sign_SF x = sign_SF y /\ to_six (real x) = to_six (real y)) p q).
Proof.
  intros Np Nq P Q. rewrite <- (map_alike ns p q P Q). unfold print_coordinates. rewrite !OutProofs.point_text by assumption. split; [|now intros ->]. intros E.
  change (str ")") with [")"%char] in E. change (str "(") with ["("%char] in E.
  assert (F : forall v, Forall proper v -> Forall (OutSpec.without ","%char) (map (show_double ns) v) /\ Forall (OutSpec.without ")"%char) (map (show_double ns) v)).
  { intros v V. split; apply Forall_map; refine (Forall_impl _ _ V); intros x X; (apply shown_without; [exact X|reflexivity|intros I; cbn in I; intuition discriminate]). }
  injection E as E. apply OutProofs.split_unique in E; [|apply OutProofs.joined_without; [discriminate|discriminate|now apply F]..]. destruct E as [E _].
  apply OutProofs.joined_inj; try (now apply F); [| |exact E]; intros Z0; apply map_eq_nil in Z0; contradiction.
Qed.
