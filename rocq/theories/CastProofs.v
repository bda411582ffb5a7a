From Verif Require Import Base DecModel DecProofs ContModel ContProofs VecIOModel VecIOSpec VecIOProofs CastModel CastSpec.
Local Open Scope Z_scope.

Lemma span_digits ds u : digits ds -> no_digit u -> span (ds ++ u) = ds.
Proof.
  intros D N. destruct u as [|c u]; [|apply span_at; [exact D|now apply (N c u)]].
  rewrite app_nil_r. induction D as [|x ds X D IH]; cbn [span]; [reflexivity|]. now rewrite X, IH.
Qed.
Lemma span_none u : no_digit u -> span u = [].
Proof. intros N. exact (span_digits [] u (Forall_nil _) N). Qed.
Lemma dec_value_nonneg ds : digits ds -> 0 <= dec_value ds.
Proof.
  unfold dec_value. assert (G : forall acc, 0 <= acc -> digits ds -> 0 <= fold_left (fun a c => 10 * a + (byteZ c - 48)) ds acc).
  { induction ds as [|c ds IH]; intros acc A D; [exact A|]. inversion D as [|? ? C D']; subst. cbn [fold_left]. apply IH; [|exact D']. unfold is_digit in C. lia. }
  apply G. lia.
Qed.
Definition num (x : bool * bytes) : Z := if fst x then - dec_value (snd x) else dec_value (snd x).
Lemma split_signed t z u : signed t z -> no_digit u -> z = num (split_number (t ++ u)) /\ digits (snd (split_number (t ++ u))).
Proof.
  intros S N. destruct S as [ds NE D|ds NE D|ds NE D]; unfold split_number, num.
  - destruct ds as [|c ds]; [congruence|]. cbn [app]. assert (C : is_digit c = true) by (inversion D; assumption). pose proof (digit_not_sign c C) as Q. apply orb_false_iff in Q. destruct Q as [Q1 Q2]. rewrite Q1, Q2.
    change (c :: ds ++ u) with ((c :: ds) ++ u). rewrite span_digits by assumption. split; [reflexivity|exact D].
  - cbn [app]. change (byteZ "+"%char =? 45) with false. change (byteZ "+"%char =? 43) with true. cbn [fst snd]. rewrite span_digits by assumption. split; [reflexivity|exact D].
  - cbn [app]. change (byteZ "-"%char =? 45) with true. cbn [fst snd]. rewrite span_digits by assumption. split; [reflexivity|exact D].
Qed.
Lemma byte_minus c : (byteZ c =? 45) = true <-> c = "-"%char.
Proof. split; [destruct c as [[] [] [] [] [] [] [] []]; vm_compute; congruence|intros ->; reflexivity]. Qed.
Lemma byte_plus c : (byteZ c =? 43) = true <-> c = "+"%char.
Proof. split; [destruct c as [[] [] [] [] [] [] [] []]; vm_compute; congruence|intros ->; reflexivity]. Qed.
Lemma split_none u : no_number u -> snd (split_number u) = [].
Proof.
  intros [N S]. unfold split_number. destruct u as [|c r]; [reflexivity|]. destruct (byteZ c =? 45) eqn:Q1; [|destruct (byteZ c =? 43) eqn:Q2]; cbn [snd].
  - apply byte_minus in Q1 as ->. apply span_none. apply S. auto.
  - apply byte_plus in Q2 as ->. apply span_none. apply S. auto.
  - now apply span_none.
Qed.
Lemma clamped_in z : in_int32 z = true -> clamped (- 2 ^ 31) (2 ^ 31 - 1) z = z.
Proof. rewrite in32. unfold clamped. lia. Qed.
Lemma span_is_digits r : digits (span r).
Proof. destruct (span_spec r) as (ds & u & _ & D & _ & ->). exact D. Qed.
Lemma int_read w c r : ws w -> ~ blank c -> snd (get_int (good [] (w ++ c :: r)) 0) = clamped (- 2 ^ 31) (2 ^ 31 - 1) (num (split_number (c :: r))).
Proof.
  intros W B. unfold get_int. rewrite sentry_at by assumption. cbn [negb rest before eof fail]. unfold split_number, num.
  assert (G : forall (neg : bool) (s1 s s3 : stream) (ds : bytes), digits ds -> snd (match ds with [] => (s1, 0) | _ :: _ => if in_int32 (if neg then - dec_value ds else dec_value ds) then (s, if neg then - dec_value ds else dec_value ds) else (s3, if neg then int32_min else int32_max) end)
    = clamped (- 2 ^ 31) (2 ^ 31 - 1) (if neg then - dec_value ds else dec_value ds)).
  { intros neg s1 s s3 ds D. pose proof (dec_value_nonneg ds D) as P. destruct ds as [|x ds]; [destruct neg; reflexivity|]. set (v := dec_value (x :: ds)) in *. destruct (in_int32 _) eqn:I; cbn [snd].
    - symmetry. now apply clamped_in.
    - assert (I' : ~ (- 2 ^ 31 <= (if neg then - v else v) < 2 ^ 31)) by (rewrite <- in32; congruence). unfold clamped, int32_min, int32_max. destruct neg; lia. }
  destruct (byteZ c =? 45) eqn:Q1; [|destruct (byteZ c =? 43) eqn:Q2]; cbn [orb].
  - rewrite orb_true_r. cbn [rest before eof fail fst snd]. rewrite Q1. exact (G true _ _ _ (span r) (span_is_digits r)).
  - cbn [rest before eof fail fst snd]. rewrite Q1. exact (G false _ _ _ (span r) (span_is_digits r)).
  - cbn [rest before eof fail fst snd]. change (43 =? 45) with false. exact (G false _ _ _ (span (c :: r)) (span_is_digits (c :: r))).
Qed.
Lemma unsigned_read u : digits (snd (split_number u)) -> read_unsigned u = unsigned_of (num (split_number u)).
Proof.
  unfold read_unsigned, unsigned_of, num. destruct (split_number u) as [neg ds]. cbn [fst snd]. intros D. pose proof (dec_value_nonneg ds D) as P.
  destruct (Z.leb_spec (2 ^ 32) (dec_value ds)), (Z.leb_spec (2 ^ 32) (Z.abs (if neg then - dec_value ds else dec_value ds))); destruct neg; try lia; try reflexivity.
Qed.
Lemma bool_read u : digits (snd (split_number u)) -> read_bool u = negb (num (split_number u) =? 0).
Proof.
  unfold read_bool, num. destruct (split_number u) as [neg ds]. cbn [fst snd]. intros D. pose proof (dec_value_nonneg ds D) as P. f_equal.
  destruct neg; destruct (Z.eqb_spec (dec_value ds) 0) as [E|E]; [rewrite E; reflexivity| |rewrite E; reflexivity|]; apply Bool.eq_iff_eq_true; rewrite !Z.eqb_eq; lia.
Qed.
Lemma split_digits u : digits (snd (split_number u)).
Proof.
  unfold split_number. destruct u as [|c r]; [constructor|]. destruct (byteZ c =? 45); [apply span_is_digits|]. destruct (byteZ c =? 43); apply span_is_digits.
Qed.
(** [cast] on a text that is not blank *)
Lemma cast_at ty w c r : ws w -> ~ blank c -> cast ty (w ++ c :: r) =
  Ok (match ty with
      | TInt => VInt (clamped (- 2 ^ 31) (2 ^ 31 - 1) (num (split_number (c :: r))))
      | TUnsigned => VUnsigned (unsigned_of (num (split_number (c :: r))))
      | TBool => VBool (negb (num (split_number (c :: r)) =? 0))
      | TChar => VChar c
      | TString => VString (word (c :: r))
      end).
Proof.
  intros W B. unfold cast. rewrite sentry_at by assumption. cbn [negb rest]. destruct ty; try reflexivity.
  - now rewrite int_read.
  - now rewrite unsigned_read by apply split_digits.
  - now rewrite bool_read by apply split_digits.
  - now rewrite get_char_at.
Qed.
Lemma cast_blank ty w : ws w -> cast ty w = match ty with TString => Ok (VString []) | _ => UB end.
Proof.
  intros W. unfold cast. destruct (sentry_spec [] w) as (w' & u & E & W' & [[-> S]|(c & t & -> & N & S)]).
  - rewrite S. destruct ty; reflexivity.
  - exfalso. subst w. unfold ws in W. rewrite Forall_app in W. destruct W as [_ W]. inversion W; subst. contradiction.
Qed.
Lemma signed_cons t z : signed t z -> exists c t', t = c :: t' /\ ~ blank c.
Proof. intros S. destruct (signed_shape t z S) as (c & t' & E & N & _). eauto. Qed.
Lemma word_spec t u : Forall (fun c => ~ blank c) t -> (forall c r, u = c :: r -> blank c) -> word (t ++ u) = t.
Proof.
  intros F. induction F as [|c t C F IH]; intros U.
  - destruct u as [|c r]; [reflexivity|]. cbn. assert (S : is_space c = true) by (apply is_space_spec; now apply (U c r)). now rewrite S.
  - cbn [app word]. apply not_space in C. rewrite C. f_equal. now apply IH.
Qed.
Lemma denotes_cast ty t o : denotes ty t o -> cast ty t = o.
Proof.
  intros H. destruct H as [w t z u W S N|w u W U B N|w t z u W S N|w u W U B N|w t z u W S N|w u W U B N|w c u W C|w t u W F E U|ty w W T].
  1, 3, 5: destruct (signed_cons t z S) as (c & t' & -> & C); cbn [app]; rewrite cast_at by assumption; change (c :: t' ++ u) with ((c :: t') ++ u);
    destruct (split_signed _ _ u S N) as [<- _]; reflexivity.
  1, 2, 3: destruct u as [|c r]; [congruence|]; rewrite cast_at by (try assumption; now apply (B c r)); unfold num; rewrite (split_none _ N); destruct (fst _); reflexivity.
  - now rewrite cast_at.
  - destruct t as [|c t].
    + rewrite (E eq_refl). cbn [app]. rewrite app_nil_r. now rewrite cast_blank.
    + cbn [app]. inversion F; subst. rewrite cast_at by assumption. change (c :: t ++ u) with ((c :: t) ++ u). now rewrite word_spec.
  - rewrite cast_blank by assumption. destruct ty; try reflexivity. congruence.
Qed.
Lemma number_cases u : u <> [] -> (exists t z v, u = t ++ v /\ signed t z /\ no_digit v) \/ no_number u.
Proof.
  intros NE. assert (SP : forall r, exists ds v, r = ds ++ v /\ digits ds /\ no_digit v).
  { intros r. destruct (span_spec r) as (ds & v & -> & D & H & _). exists ds, v. split; [reflexivity|]. split; [exact D|]. intros c x ->. destruct H as [H|(c' & x' & H & P)]; [discriminate|]. now injection H as -> ->. }
  destruct u as [|c r]; [congruence|]. destruct (SP (c :: r)) as (ds & v & E & D & N). destruct ds as [|d ds].
  - cbn [app] in E. subst v. destruct (SP r) as (ds & v & -> & D' & N'). destruct ds as [|d ds].
    + right. split; [exact N|]. cbn [app]. intros r' [H|H]; injection H as _ <-; exact N'.
    + destruct (byteZ c =? 45) eqn:Q1; [|destruct (byteZ c =? 43) eqn:Q2].
      * apply byte_minus in Q1 as ->. left. exists ("-"%char :: d :: ds), (- dec_value (d :: ds)), v. split; [reflexivity|]. split; [now constructor|exact N'].
      * apply byte_plus in Q2 as ->. left. exists ("+"%char :: d :: ds), (dec_value (d :: ds)), v. split; [reflexivity|]. split; [now constructor|exact N'].
      * right. split; [exact N|]. intros r' [H|H]; injection H as -> _; discriminate.
  - left. exists (d :: ds), (dec_value (d :: ds)), v. split; [exact E|]. split; [now constructor|exact N].
Qed.
Lemma denotes_total ty t : exists o, denotes ty t o.
Proof.
  destruct (skip_spec is_space t (good [] t) eq_refl) as (w & u & -> & F & Hu & _). apply ws_spec in F.
  destruct u as [|c r].
  - rewrite app_nil_r. destruct ty; try (eexists; apply den_blank; [exact F|discriminate]).
    exists (Ok (VString [])). rewrite <- (app_nil_r w). apply (den_string w [] []); [exact F|constructor|reflexivity|discriminate].
  - assert (B : ~ blank c). { destruct Hu as [Hu|(c' & x & Hu & P)]; [discriminate|]. injection Hu as -> ->. now apply not_space. }
    assert (NB : no_blank (c :: r)) by (intros c' r' H; injection H as <- <-; exact B).
    destruct ty.
    1, 2, 3: destruct (number_cases (c :: r) ltac:(discriminate)) as [(t & z & v & -> & S & N)|N]; eexists; [econstructor; eassumption|constructor; (assumption || discriminate)].
    + eexists. now constructor.
    + assert (SP : exists t u, c :: r = t ++ u /\ Forall (fun c => ~ blank c) t /\ (forall c r, u = c :: r -> blank c)).
      { generalize (c :: r) as l. induction l as [|x l (t & u & E & F1 & F2)].
        - exists [], []. repeat split; [constructor|discriminate].
        - destruct (is_space x) eqn:X.
          + exists [], (x :: l). repeat split; [constructor|]. intros c' r' H. injection H as <- <-. now apply is_space_spec.
          + exists (x :: t), u. split; [now rewrite E|]. split; [|exact F2]. constructor; [now apply not_space|exact F1]. }
      destruct SP as (t & u & E & F1 & F2). rewrite E. eexists. apply den_string; try assumption. intros ->. cbn in E. subst u. elim B. now apply (F2 c r).
Qed.
Lemma cast_spec ty t o : cast ty t = o <-> denotes ty t o.
Proof. split; [|apply denotes_cast]. intros <-. destruct (denotes_total ty t) as [o H]. now rewrite (denotes_cast _ _ _ H). Qed.

(** objects *)
Lemma cput_length {A} (l : list A) : forall i x, length (cput l i x) = length l.
Proof. induction l as [|y l IH]; intros [|i] x; cbn; auto. Qed.
Lemma cput_nth {A} (l : list A) : forall i j x, nth_error (cput l i x) j = if Nat.eqb i j then (if Nat.ltb i (length l) then Some x else None) else nth_error l j.
Proof.
  induction l as [|y l IH]; intros [|i] [|j] x; cbn; try reflexivity; try (destruct (Nat.eqb i j); reflexivity). rewrite IH. reflexivity.
Qed.
Definition Inv (past : list cop) (w : cworld) : Prop :=
  casts w = flat_map referred (rev past) /\ length (texts w) = list_sum (map declared past) /\
  forall i, last_text i past = match nth_error (texts w) i with Some x => x | None => None end.
Lemma step_inv past w o w' r : Inv past w -> cstep w o = Ok (w', r) -> Inv (o :: past) w'.
Proof.
  intros (C & L & T) H. assert (TA : forall i t, text_at w i = Ok t -> (i < length (texts w))%nat).
  { intros i t X. unfold text_at in X. apply nth_error_Some. destruct (nth_error (texts w) i); congruence. }
  unfold Inv. cbn [rev map]. rewrite flat_map_app. destruct o as [t|i t|i|ty i|ty t|c|ty t]; cbn [cstep] in H; cbn [flat_map referred declared list_sum fold_right app last_text].
  - injection H as <- <-. cbn [texts casts]. rewrite app_nil_r, app_length. cbn [length]. repeat split; [exact C|unfold list_sum in *; lia|]. intros i. change (fold_right Nat.add 0%nat (map declared past)) with (list_sum (map declared past)). rewrite <- L. destruct (Nat.eqb_spec (length (texts w)) i) as [<-|N].
    + now rewrite nth_error_app2, Nat.sub_diag by lia.
    + rewrite T. destruct (Nat.lt_ge_cases i (length (texts w))) as [Q|Q]; [now rewrite nth_error_app1 by lia|]. rewrite !(proj2 (nth_error_None _ _)); [reflexivity| |lia]. rewrite app_length. cbn. lia.
  - destruct (text_at w i) as [x| | |] eqn:X; try discriminate. cbn [bind] in H. injection H as <- <-. cbn [texts casts]. rewrite app_nil_r, cput_length. repeat split; [exact C|exact L|]. intros j. rewrite cput_nth.
    specialize (TA i x X). destruct (Nat.ltb_spec i (length (texts w))); [|lia]. destruct (Nat.eqb_spec i j); [reflexivity|apply T].
  - destruct (text_at w i) as [x| | |] eqn:X; try discriminate. cbn [bind] in H. injection H as <- <-. cbn [texts casts]. rewrite app_nil_r, cput_length. repeat split; [exact C|exact L|]. intros j. rewrite cput_nth.
    specialize (TA i x X). destruct (Nat.ltb_spec i (length (texts w))); [|lia]. destruct (Nat.eqb_spec i j); [reflexivity|apply T].
  - destruct (text_at w i) as [x| | |] eqn:X; try discriminate. cbn [bind] in H. injection H as <- <-. cbn [texts casts]. rewrite C. auto.
  - injection H as <- <-. cbn [texts casts]. rewrite C. auto.
  - destruct (nth_error (casts w) c) as [[ty [i|]]|]; try discriminate. destruct (text_at w i); try discriminate. cbn [bind] in H. destruct (cast ty a); try discriminate. injection H as <- <-. rewrite app_nil_r. auto.
  - destruct (cast ty t); try discriminate. injection H as <- <-. rewrite app_nil_r. auto.
Qed.
Lemma run_inv os : forall past w w' rs, Inv past w -> crun w os = Ok (w', rs) -> Inv (rev os ++ past) w'.
Proof.
  induction os as [|o os IH]; intros past w w' rs I H; cbn [crun] in H; [injection H as <- <-; exact I|].
  destruct (cstep w o) as [[w1 r]| | |] eqn:S; try discriminate. cbn [bind] in H. destruct (crun w1 os) as [[w2 rs']| | |] eqn:R; try discriminate. injection H as <- <-.
  cbn [rev]. rewrite <- app_assoc. exact (IH (o :: past) w1 w2 rs' (step_inv past w o w1 r I S) R).
Qed.
Lemma call_spec os w rs c : crun (CWorld [] []) os = Ok (w, rs) ->
  cstep w (CCall c) = match nth_error (flat_map referred os) c with
                      | Some (ty, Some i) => match last_text i (rev os) with Some t => v <- cast ty t ;; Ok (w, Some v) | None => UB end
                      | _ => UB
                      end.
Proof.
  intros H. assert (I : Inv [] (CWorld [] [])) by (split; [reflexivity|split; [reflexivity|intros [|i]; reflexivity]]).
  destruct (run_inv os [] _ w rs I H) as (C & _ & T). rewrite app_nil_r in *. rewrite rev_involutive in C. cbn [cstep]. rewrite C. destruct (nth_error (flat_map referred os) c) as [[ty [i|]]|]; try reflexivity.
  rewrite T. unfold text_at. destruct (nth_error (texts w) i) as [[t|]|]; reflexivity.
Qed.
