(** C125: doubles in JSON texts. *)
From Coq Require Import Reals Lra Psatz Floats.SpecFloat.
From Flocq Require Import Core IEEE754.BinarySingleNaN.
From Verif Require Import Base DecModel DecProofs Float FloatProofs JsonModel JsonSpec JsonProofs JsonRoundProofs JsonProperties JsonFloatModel JsonFloatSpec JsonFloatProofs.
Local Open Scope R_scope.

(** what dump prints: sign, digits, point, six digits, denoting the number rounded to
    the nearest multiple of 10^-6 *)
Theorem C125_text ns p10 depth tab x : proper x ->
  exists a b, dump (binary64 ns p10) depth tab (JFlt x) = (if sign_SF x then ["-"%char] else []) ++ a ++ "."%char :: b /\
    canon_digits a /\ forallb is_digit b = true /\ length b = 6%nat /\
    decimal (sign_SF x) a b = to_micro (real x).
Proof.
  intros P. cbn [dump f_text binary64]. rewrite (text_fixed ns x P). unfold fixed. pose proof (micro_of_nonneg x) as N.
  destruct (dec_nat_spec (micro_of x / 1000000) (Z.div_pos _ 1000000 N eq_refl)) as [C V].
  destruct (six_digits (micro_of x mod 1000000) (Z.mod_pos_bound _ 1000000 eq_refl)) as (B & Vb & Lb).
  exists (dec_nat (micro_of x / 1000000)), (six (micro_of x mod 1000000)). split; [reflexivity|]. split; [exact C|]. split; [exact B|]. split; [exact Lb|].
  rewrite (to_micro_once x P). unfold decimal. rewrite dec_value_app, V, Vb, Lb. change (10 ^ Z.of_nat 6)%Z with 1000000%Z.
  replace (micro_of x / 1000000 * 1000000 + micro_of x mod 1000000)%Z with (micro_of x) by (pose proof (Z.div_mod (micro_of x) 1000000 ltac:(lia)); lia).
  replace (10 ^ 6) with 1000000 by (cbn; lra). unfold sgn. reflexivity.
Qed.
(** what loadJSON makes of a number with a point: the nearest double; beyond the range of
    doubles the greatest one *)
Theorem C125_read ns p10 (neg : bool) a b : p10 0%Z = done -> forallb is_digit a = true -> forallb is_digit b = true -> a <> [] \/ neg = true /\ b <> [] ->
  exists x, loadJSON (binary64 ns p10) ((if neg then ["-"%char] else []) ++ a ++ "."%char :: b) = Ok (JFlt x) /\
    (Rabs (rnd (decimal neg a b)) < bpow radix2 1024 -> is_nearest neg (decimal neg a b) x) /\
    (bpow radix2 1024 <= Rabs (rnd (decimal neg a b)) -> proper x /\ sign_SF x = neg /\ Rabs (real x) = bpow radix2 1024 - bpow radix2 971).
Proof.
  intros Hp A B NE. assert (NE' : a ++ b <> []) by (intros H; apply app_eq_nil in H; destruct H, NE as [?|[_ ?]]; congruence).
  exists (nearest neg (dec_value (a ++ b)) (10 ^ Z.of_nat (length b))).
  assert (DG : forallb is_digit (a ++ b) = true) by now rewrite forallb_app, A, B.
  pose proof (dec_value_bound _ DG) as [N _]. pose proof (Z.pow_pos_nonneg 10 (Z.of_nat (length b)) eq_refl ltac:(lia)) as D.
  pose proof (nearest_spec neg _ _ N D) as H. set (y := nearest _ _ _) in *.
  assert (Q : decimal neg a b = sgn neg * (IZR (dec_value (a ++ b)) / IZR (10 ^ Z.of_nat (length b)))).
  { unfold decimal. now rewrite <- pow_IZR. }
  assert (PY : proper y).
  { destruct (Rlt_bool _ _) in H; [apply H|]. rewrite H. split; destruct neg; reflexivity. }
  split; [|rewrite Q, rnd_sgn, abs_sgn; split; intros L].
  - rewrite C55_fraction.
    + cbn [f_scale f_read binary64]. rewrite Hp, read_text by assumption. fold y. now rewrite times_one.
    + assert (NC : forall l, forallb is_digit l = true -> forallb number_char l = true).
      { intros l. rewrite !forallb_forall. intros X c I. unfold number_char. now rewrite (X c I). }
      destruct neg.
      * exists "-"%char, (a ++ "."%char :: b). split; [reflexivity|]. split; [now right|]. rewrite forallb_app. cbn [forallb]. now rewrite (NC _ A), (NC _ B).
      * destruct a as [|c a]; [destruct NE as [?|[? _]]; congruence|]. cbn [forallb] in A. apply andb_true_iff in A. destruct A as [A1 A2].
        exists c, (a ++ "."%char :: b). split; [reflexivity|]. split; [now left|]. rewrite forallb_app. cbn [forallb]. now rewrite (NC _ A2), (NC _ B).
    + apply in_or_app. right. apply in_or_app. right. now left.
  - rewrite Rlt_bool_true in H by assumption. exact H.
  - rewrite Rlt_bool_false in H by assumption. split; [exact PY|]. rewrite H. split; [reflexivity|]. rewrite abs_real, mag_of_val.
    replace (bpow radix2 1024) with (bpow radix2 53 * bpow radix2 971) by (rewrite <- bpow_plus; reflexivity).
    replace (bpow radix2 53) with 9007199254740992 by (cbn; lra). ring.
Qed.
(** a double printed and read back *)
Theorem C125_round_trip ns p10 depth tab x : p10 0%Z = done -> proper x ->
  exists y, loadJSON (binary64 ns p10) (dump (binary64 ns p10) depth tab (JFlt x)) = Ok (JFlt y) /\
    is_nearest (sign_SF x) (to_micro (real x)) y /\ Rabs (real y - real x) <= / 1000000.
Proof.
  intros Hp P. exists (once x). split; [|split; [now apply once_micros|now apply once_close]]. cbn [dump].
  destruct (text_shape ns p10 x P) as (c & t & E & C & T & I). rewrite <- (reread ns p10 Hp x P), E. apply C55_fraction; [exists c, t; auto|now right].
Qed.
(** documents: every double is replaced by the one its six decimals denote, nothing else changes *)
Theorem C125_document ns p10 depth tab v : p10 0%Z = done -> value escaped proper v -> forallb isspace tab = true ->
  exists h, (forall x, proper x -> is_nearest (sign_SF x) (to_micro (real x)) (h x)) /\
    loadJSON (binary64 ns p10) (dump (binary64 ns p10) depth tab v) = Ok (map_floats h v).
Proof.
  intros Hp V T. exists once. split; [exact once_micros|].
  rewrite <- (map_dump (binary64 ns p10) once proper escaped (same_text ns p10) v V). apply C53_round_trip; [|assumption].
  apply (map_value once proper (float_stable (binary64 ns p10)) escaped); [intros f P; exact (once_stable ns p10 Hp f P)|exact V].
Qed.
(** dumping and loading once settles a document for good *)
Theorem C125_settles ns p10 depth tab v : p10 0%Z = done -> value escaped proper v -> forallb isspace tab = true ->
  exists w, loadJSON (binary64 ns p10) (dump (binary64 ns p10) depth tab v) = Ok w /\
    (forall depth tab, dump (binary64 ns p10) depth tab w = dump (binary64 ns p10) depth tab v) /\
    (forall depth tab, forallb isspace tab = true -> loadJSON (binary64 ns p10) (dump (binary64 ns p10) depth tab w) = Ok w).
Proof.
  intros Hp V T. exists (map_floats once v).
  assert (S : value escaped (float_stable (binary64 ns p10)) (map_floats once v)).
  { apply (map_value once proper (float_stable (binary64 ns p10)) escaped); [intros f P; exact (once_stable ns p10 Hp f P)|exact V]. }
  pose proof (map_dump (binary64 ns p10) once proper escaped (same_text ns p10) v V) as M.
  split; [rewrite <- M; now apply C53_round_trip|]. split; [exact M|]. intros d t Ht. now apply C53_round_trip.
Qed.
(** exactly the documents survive whose doubles are nearest to some multiple of 10^-6 *)
Definition six_decimals (x : double) : Prop := proper x /\ exists n : Z, real x = rnd (IZR n / 1000000).
Theorem C125_exact ns p10 depth tab v : p10 0%Z = done -> value escaped proper v -> forallb isspace tab = true ->
  (loadJSON (binary64 ns p10) (dump (binary64 ns p10) depth tab v) = Ok v <-> value escaped six_decimals v).
Proof.
  intros Hp V T. split; intros H.
  - assert (E : map_floats once v = v).
    { rewrite <- (map_dump (binary64 ns p10) once proper escaped (same_text ns p10) v V) in H. rewrite C53_round_trip in H; [congruence| |assumption].
      apply (map_value once proper (float_stable (binary64 ns p10)) escaped); [intros f P; exact (once_stable ns p10 Hp f P)|exact V]. }
    eapply value_impl; [| |exact (map_fixed once proper v E V)]; [auto|]. intros x [P X]. split; [assumption|]. now apply once_exact.
  - apply C53_round_trip; [|assumption]. eapply value_impl; [| |exact H]; [auto|]. intros x [P X]. apply (stable_iff ns p10 Hp x P). now apply once_exact.
Qed.
(** among them all doubles from 2^33 on and all integers *)
Theorem C125_large x : proper x -> bpow radix2 33 <= Rabs (real x) -> six_decimals x.
Proof. intros P L. split; [assumption|]. apply once_exact; [assumption|]. apply once_eq; [assumption|]. symmetry. now apply large. Qed.
Theorem C125_integers x z : proper x -> real x = IZR z -> six_decimals x.
Proof.
  intros P E. split; [assumption|]. exists (z * 1000000)%Z. rewrite mult_IZR. replace (IZR z * 1000000 / 1000000) with (IZR z) by field.
  rewrite <- E. symmetry. apply rnd_real. apply P.
Qed.
(** small numbers are lost: up to half of 10^-6 becomes zero, with the sign kept *)
Theorem C125_small ns p10 depth tab x : p10 0%Z = done -> proper x -> Rabs (real x) <= / 2000000 ->
  loadJSON (binary64 ns p10) (dump (binary64 ns p10) depth tab (JFlt x)) = Ok (JFlt (S754_zero (sign_SF x))).
Proof.
  intros Hp P S. destruct (C125_round_trip ns p10 depth tab x Hp P) as (y & -> & N & _). do 2 f_equal.
  apply (nearest_one _ _ _ _ N). split; [split; reflexivity|]. split; [|reflexivity]. change (real (S754_zero (sign_SF x))) with 0.
  rewrite (to_micro_once x P). replace (micro_of x) with 0%Z; [unfold Rdiv; rewrite Rmult_0_l, Rmult_0_r; now rewrite rnd_0|].
  apply Z.le_antisymm; [apply micro_of_nonneg|]. rewrite (micro_of_spec x P). replace 0%Z with (ZnearestE (/ 2)).
  - apply nearest_mono. lra.
  - unfold Znearest. replace (Zfloor (/ 2)) with 0%Z by (symmetry; apply Zfloor_imp; cbn; lra). rewrite Rminus_0_r, Rcompare_Eq by reflexivity. reflexivity.
Qed.
(** what dump prints for infinities and NaN is refused by loadJSON *)
Theorem C125_nonfinite ns p10 depth tab x : dfinite x = false ->
  loadJSON (binary64 ns p10) (dump (binary64 ns p10) depth tab (JFlt x)) = Err.
Proof. intros F. destruct x as [s|[|]| |s m e]; try discriminate; cbn [dump f_text binary64 float_text]; [| |destruct ns]; vm_compute; reflexivity. Qed.
(** so not every double survives *)
Theorem C125_survive_refuted ns p10 depth tab : p10 0%Z = done ->
  let x := nearest false 1 10000000 in
  proper x /\ is_nearest false (1 / 10000000) x /\
  loadJSON (binary64 ns p10) (dump (binary64 ns p10) depth tab (JFlt x)) = Ok (JFlt dzero) /\ real x <> 0.
Proof.
  intros Hp x. assert (P : proper x) by (split; vm_compute; reflexivity).
  pose proof (nearest_spec false 1 10000000 ltac:(lia) eq_refl) as H. fold x in H.
  assert (R : Rabs (rnd (1 / 10000000)) <= / 2000000).
  { rewrite Rabs_pos_eq by (rewrite <- rnd_0; apply rnd_le; lra). apply Rle_trans with (bpow radix2 (-21)); [|cbn; lra].
    rewrite <- (rnd_pow (-21)) by lia. apply rnd_le. cbn. lra. }
  rewrite Rlt_bool_true in H by (apply Rle_lt_trans with (1 := R); apply Rlt_trans with (bpow radix2 0); [cbn; lra|apply bpow_lt; lia]).
  cbn [sgn] in H. rewrite Rmult_1_l in H. split; [exact P|]. split; [exact H|]. destruct H as (_ & E & _). split.
  - rewrite C125_small; auto. now rewrite E.
  - rewrite <- (Rabs_pos_eq (real x)); [|rewrite E, <- rnd_0; apply rnd_le; lra].
    change x with (S754_finite false 7555786372591432 (-76)). rewrite abs_real. pose proof (mag_pos 7555786372591432 (-76)). lra.
Qed.
(** and with an exponent the nearest double need not be read, even if std::pow rounds correctly *)
Theorem C125_exponent_refuted ns p10 : is_nearest false (1 / 10) (p10 (-1)%Z) ->
  exists x, loadJSON (binary64 ns p10) (str "3e-1") = Ok (JFlt x) /\ ~ is_nearest false (3 / 10) x.
Proof.
  intros H. assert (E : p10 (-1)%Z = nearest false 1 10).
  { apply (nearest_one _ _ _ _ H). pose proof (nearest_spec false 1 10 ltac:(lia) eq_refl) as G.
    rewrite Rlt_bool_true in G. - cbn [sgn] in G. now rewrite Rmult_1_l in G.
    - rewrite Rabs_pos_eq by (rewrite <- rnd_0; apply rnd_le; lra). apply Rle_lt_trans with (bpow radix2 0); [|apply bpow_lt; lia].
      rewrite <- (rnd_pow 0) by lia. apply rnd_le. cbn. lra. }
  pose proof (C55_exponent_signed double (binary64 ns p10) (str "3") "e" true (str "1")) as L. cbn [f_scale f_read binary64] in L.
  change (dec_value (str "1")) with 1%Z in L. change (- (1))%Z with (-1)%Z in L. rewrite E in L.
  eexists. split; [apply L|].
  - exists "3"%char, []. auto.
  - now left.
  - discriminate.
  - reflexivity.
  - lia.
  - intros G. assert (X : dmul (float_read (str "3")) (nearest false 1 10) = nearest false 3 10).
    { apply (nearest_one _ _ _ _ G). pose proof (nearest_spec false 3 10 ltac:(lia) eq_refl) as K.
      rewrite Rlt_bool_true in K. - cbn [sgn] in K. now rewrite Rmult_1_l in K.
      - rewrite Rabs_pos_eq by (rewrite <- rnd_0; apply rnd_le; lra). apply Rle_lt_trans with (bpow radix2 0); [|apply bpow_lt; lia].
        rewrite <- (rnd_pow 0) by lia. apply rnd_le. cbn. lra. }
    vm_compute in X. discriminate.
Qed.
(** 2.5 and 1/3 in an array *)
Definition C125_pow (e : Z) : double := if (e =? 0)%Z then done else nearest false 1 10.
Definition C125_third : double := nearest false 1 3.
Definition C125_value : json double := JObj [(str "a", JArr [JFlt (nearest true 5 2); JFlt C125_third]); (str "b", JInt 7)].
Example C125_example :
  C125_pow 0 = done /\ value escaped proper C125_value /\ forallb isspace [" "%char] = true /\
  float_text false C125_third = str "0.333333" /\ float_text false (nearest true 5 2) = str "-2.500000" /\
  float_text false (nearest false 1 128) = str "0.007812" /\ float_text true (nearest false 3 128) = str "0.023438" /\
  loadJSON (binary64 false C125_pow) (dump (binary64 false C125_pow) 1 [" "%char] C125_value) =
    Ok (JObj [(str "a", JArr [JFlt (nearest true 5 2); JFlt (nearest false 333333 1000000)]); (str "b", JInt 7)]) /\
  float_read (str "0.1") = nearest false 1 10 /\ dfinite (S754_infinity true) = false.
Proof.
  split; [reflexivity|]. split.
  { cbn [C125_value value map fst snd fold_right increasing]. assert (E : forall k, plain k -> escaped k) by (intros k K; exists k; symmetry; now apply escape_plain).
    split; [split; [apply lex_lt; reflexivity|exact I]|]. split; [apply E; intros c [<-|[]] S; cbn in S; intuition discriminate|].
    split; [split; [split; vm_compute; reflexivity|]; split; [split; vm_compute; reflexivity|exact I]|].
    split; [apply E; intros c [<-|[]] S; cbn in S; intuition discriminate|]. split; [reflexivity|exact I]. }
  do 2 (split; [vm_compute; reflexivity|]). split; [vm_compute; reflexivity|]. split; [vm_compute; reflexivity|].
  split; [vm_compute; reflexivity|]. split; [vm_compute; reflexivity|]. split; vm_compute; reflexivity.
Qed.
Print Assumptions C125_text.
Print Assumptions C125_read.
Print Assumptions C125_round_trip.
Print Assumptions C125_document.
Print Assumptions C125_settles.
Print Assumptions C125_exact.
Print Assumptions C125_large.
Print Assumptions C125_integers.
Print Assumptions C125_small.
Print Assumptions C125_nonfinite.
Print Assumptions C125_survive_refuted.
Print Assumptions C125_exponent_refuted.
