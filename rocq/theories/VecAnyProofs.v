(** Proofs about the stream operators of Vector at any element type. *)
From Verif Require Import Base DecModel DecProofs ContModel ContProofs VecIOModel VecIOSpec VecIOProofs VecAnyModel VecAnySpec.
Local Open Scope Z_scope.

Notation good b r := (Stream b r false false).
Lemma show_all_spec {A} (sh : A -> outcome bytes) (tx : A -> bytes) l : (forall x, In x l -> sh x = Ok (tx x)) ->
  show_all sh l = Ok (flat_map (fun t => t ++ str ", ") (map tx l)).
Proof.
  induction l as [|x l IH]; intros H; [reflexivity|]. cbn [show_all flat_map map]. rewrite H by now left. cbn [bind].
  rewrite IH by (intros; apply H; now right). cbn [bind]. now rewrite <- app_assoc.
Qed.
Lemma print_of_spec {A} (sh : A -> outcome bytes) (tx : A -> bytes) v : Z.of_nat (length v) < 2 ^ 31 ->
  (forall x, In x v -> sh x = Ok (tx x)) -> print_of sh v = Ok (str "{" ++ joined (map tx v) ++ str "}").
Proof.
  intros L H. unfold print_of. rewrite size_spec by (unfold int32_max; lia). destruct (back_split v) as [-> |(t & x & ->)]; [reflexivity|].
  pose proof (last_spec (t ++ [x])) as HL. destruct (seq_last (t ++ [x])) as [y| | |]; try contradiction; [|now destruct t].
  destruct HL as [t' HL]. apply app_inj_tail in HL. destruct HL as [<- <-]. rewrite app_length in *. cbn [length] in *.
  destruct (Z.eqb_spec (Z.of_nat (length t + 1)) 0); [lia|].
  rewrite map_app. cbn [map]. rewrite joined_last, removelast_last.
  rewrite (show_all_spec sh tx) by (intros; apply H; apply in_or_app; now left). cbn [bind].
  rewrite H by (apply in_or_app; right; now left). cbn [bind].
  destruct (Z.eqb_spec (Z.of_nat (length t + 1)) 1) as [E|E].
  - destruct t; [reflexivity|cbn in E; lia].
  - cbn [str app]. now rewrite <- app_assoc.
Qed.
Lemma show_text t : forall v, proper t v -> show t v = Ok (text t v).
Proof.
  induction t as [| | |t IH]; intros v P; try reflexivity. cbn [show text proper] in *. destruct P as [L P].
  apply print_of_spec; [assumption|]. intros x I. apply IH. now apply (proj1 (Forall_forall _ _) P).
Qed.

(** ** reading back *)
Section Read.
Context (gi : nat -> Z) (gch : nat -> ascii) (gc : ascii) (F : nat).
Notation get := (get gi gch gc F).
(** the text of an element starts with a character that is not white space *)
Lemma text_head t v : no_strings t -> plain t v -> exists c x, text t v = c :: x /\ ~ blank c /\ (t <> EChar -> c <> "}"%char).
Proof.
  destruct t as [| | |t]; cbn [no_strings plain text]; intros N P.
  - destruct (signed_shape _ _ (numeral_signed _ _ (to_string_Z_numeral v))) as (c & x & -> & Nb & Sh). exists c, x.
    split; [reflexivity|]. split; [assumption|]. intros _ ->. destruct Sh as [([? | ?] & _)|[? _]]; discriminate.
  - exists v, []. split; [reflexivity|]. split; [assumption|]. congruence.
  - contradiction.
  - eexists _, _. split; [reflexivity|]. split; [now apply not_space|]. discriminate.
Qed.
Lemma get_char_now b c t ch : ~ blank c -> get_char (good b (c :: t)) ch = (good (c :: b) t, c).
Proof. intros N. exact (get_char_at b [] c t ch (Forall_nil _) N). Qed.
Definition follows (t : elt) (u : bytes) : Prop :=
  match t with EInt => exists c x, u = c :: x /\ is_digit c = false | _ => True end.
Lemma loop_joined {A} (g : nat -> stream -> outcome (stream * A)) (tx : A -> bytes) : forall v, v <> [] ->
  (forall x n b w c u, In x v -> ws w -> is_digit c = false -> g n (good b (w ++ tx x ++ c :: u)) = Ok (good (rev (tx x) ++ rev w ++ b) (c :: u), x)) ->
  forall f n b w u ch acc, (length v <= f)%nat -> ws w ->
  loop_of g f n (good b (w ++ joined (map tx v) ++ "}"%char :: u)) ch acc
  = Ok (good ("}"%char :: rev (joined (map tx v)) ++ rev w ++ b) u, acc ++ v).
Proof.
  induction v as [|x v IH]; intros NE H f n b w u ch acc L W; [congruence|]. destruct f as [|f]; [cbn in L; lia|]. cbn [loop_of].
  destruct v as [|y v].
  - cbn [map joined]. rewrite H by (auto; now left). cbn [bind].
    rewrite get_char_now by now apply not_space. reflexivity.
  - change (joined (map tx (x :: y :: v))) with (tx x ++ [","%char; " "%char] ++ joined (map tx (y :: v))).
    rewrite <- !app_assoc. cbn [app]. rewrite H by (auto; now left). cbn [bind].
    rewrite get_char_now by now apply not_space. cbn [eof].
    change (Ascii.eqb "," "}") with false. change (negb (Ascii.eqb "," ",")) with false. cbn iota.
    change (" "%char :: joined (map tx (y :: v)) ++ "}"%char :: u) with ([" "%char] ++ joined (map tx (y :: v)) ++ "}"%char :: u).
    rewrite IH.
    + unfold seq_push. rewrite <- app_assoc. cbn [rev app]. rewrite !rev_app_distr. cbn [rev app]. rewrite <- !app_assoc. reflexivity.
    + discriminate.
    + intros. apply H; auto. now right.
    + cbn [length] in *. lia.
    + constructor; [now left|constructor].
Qed.
Lemma read_of_start {A} (g : nat -> stream -> outcome (stream * A)) w f b c t w2 : ws w -> ws w2 -> ~ blank c ->
  read_of g gc f (good b (w ++ "{"%char :: w2 ++ c :: t)) =
  if Ascii.eqb c "}" then Ok (good ("}"%char :: rev w2 ++ "{"%char :: rev w ++ b) t, [])
  else loop_of g f 0 (good (rev w2 ++ "{"%char :: rev w ++ b) (c :: t)) c [].
Proof.
  intros W W2 Nb. unfold read_of. rewrite get_char_at by (assumption || now apply not_space).
  change (negb (Ascii.eqb "{" "{")) with false. cbn iota. rewrite get_char_at by assumption.
  destruct (Ascii.eqb_spec c "}") as [-> |N]; cbn [negb]; reflexivity.
Qed.
Lemma read_of_now {A} (g : nat -> stream -> outcome (stream * A)) w f b c t : ws w -> ~ blank c ->
  read_of g gc f (good b (w ++ "{"%char :: c :: t)) =
  if Ascii.eqb c "}" then Ok (good ("}"%char :: "{"%char :: rev w ++ b) t, [])
  else loop_of g f 0 (good ("{"%char :: rev w ++ b) (c :: t)) c [].
Proof. intros W Nb. exact (read_of_start g w f b c t [] W (Forall_nil _) Nb). Qed.
Lemma read_of_here {A} (g : nat -> stream -> outcome (stream * A)) f b c t : ~ blank c ->
  read_of g gc f (good b ("{"%char :: c :: t)) =
  if Ascii.eqb c "}" then Ok (good ("}"%char :: "{"%char :: b) t, [])
  else loop_of g f 0 (good ("{"%char :: b) (c :: t)) c [].
Proof. intros Nb. exact (read_of_now g [] f b c t (Forall_nil _) Nb). Qed.
Lemma max_in {A} (h : A -> nat) k v x : In x v -> (h x <= fold_right Nat.max k (map h v))%nat.
Proof.
  induction v as [|y v IH]; intros []; cbn [map fold_right].
  - subst. apply Nat.le_max_l.
  - etransitivity; [now apply IH|apply Nat.le_max_r].
Qed.
Lemma max_start {A} (h : A -> nat) k v : (k <= fold_right Nat.max k (map h v))%nat.
Proof. induction v as [|y v IH]; cbn [map fold_right]; [reflexivity|]. etransitivity; [exact IH|apply Nat.le_max_r]. Qed.
Lemma widest_in t (v : list (val t)) x : In x v -> (widest t x <= widest (EVec t) v)%nat.
Proof. intros I. exact (max_in (widest t) _ v x I). Qed.
Lemma widest_len t (v : list (val t)) : (length v <= widest (EVec t) v)%nat.
Proof. exact (max_start (widest t) _ v). Qed.
Lemma joined_head (l : list bytes) x : joined (x :: l) = x ++ match l with [] => [] | _ => str ", " ++ joined l end.
Proof. destruct l; cbn [joined]; [now rewrite app_nil_r|reflexivity]. Qed.
Lemma get_text t : forall v n b w u, no_strings t -> proper t v -> plain t v -> follows t u -> (widest t v <= F)%nat -> ws w ->
  get t n (good b (w ++ text t v ++ u)) = Ok (good (rev (text t v) ++ rev w ++ b) u, v).
Proof.
  induction t as [| | |t IH]; intros v n b w u N P Q Fo L W.
  - destruct Fo as (c & x & -> & D). cbn [VecAnyModel.get text proper] in *.
    destruct (get_int_signed b w (to_string_Z v) v c x (gi n) W (numeral_signed _ _ (to_string_Z_numeral v)) D) as (z & E & Ez).
    apply in32 in P. rewrite E, P. cbn [negb]. now rewrite Ez.
  - cbn [VecAnyModel.get text plain app rev] in *. now rewrite get_char_at.
  - contradiction.
  - pose proof (widest_len t v) as WL. pose proof (widest_in t v) as WI.
    cbn [VecAnyModel.get text]. cbn [proper plain no_strings] in *. destruct P as [_ P]. destruct Q as [Q Qb]. change (str "{") with ["{"%char]. change (str "}") with ["}"%char]. cbn [app].
    destruct v as [|x v].
    + cbn [map joined app]. rewrite read_of_now by (assumption || now apply not_space). reflexivity.
    + pose proof (Forall_inv Q) as Qx. destruct (text_head t x N Qx) as (c & r & E & Nb & Nc).
      assert (Cb : c <> "}"%char).
      { destruct t; try (apply Nc; discriminate). cbn in E. injection E as -> _. intros ->. now apply (Qb v). }
      rewrite <- app_assoc. cbn [app].
      assert (Ej : exists z, joined (map (text t) (x :: v)) = c :: z).
      { cbn [map]. rewrite joined_head, E. eexists. reflexivity. }
      destruct Ej as [z Ej]. rewrite Ej. cbn [app].
      rewrite read_of_now by assumption.
      destruct (Ascii.eqb_spec c "}") as [-> |_]; [congruence|]. cbn [rev app].
      change (c :: z ++ "}"%char :: u) with ([] ++ (c :: z) ++ "}"%char :: u). rewrite <- Ej.
      rewrite (loop_joined (get t) (text t) (x :: v)).
      * rewrite Ej, rev_app_distr. cbn [rev app]. rewrite <- !app_assoc. reflexivity.
      * discriminate.
      * intros y k b' w' c' u' I W' D. apply IH; auto.
        -- now apply (proj1 (Forall_forall _ _) P).
        -- now apply (proj1 (Forall_forall _ _) Q).
        -- destruct t; cbn; eauto.
        -- specialize (WI y I). lia.
      * lia.
      * constructor.
Qed.

(** ** whatever is read is plain *)
Lemma loop_first {A} (g : nat -> stream -> outcome (stream * A)) : forall f n s ch acc s' v,
  loop_of g f n s ch acc = Ok (s', v) -> exists s1 x l, g n s = Ok (s1, x) /\ v = acc ++ x :: l.
Proof.
  induction f as [|f IH]; intros n s ch acc s' v H; cbn [loop_of] in H; [discriminate|].
  destruct (g n s) as [[s1 x]| | |]; try discriminate. cbn [bind] in H. destruct (get_char s1 ch) as [s2 c]. destruct (eof s2); [discriminate|].
  destruct (Ascii.eqb c "}").
  - injection H as <- <-. exists s1, x, []. auto.
  - destruct (negb (Ascii.eqb c ",")); [discriminate|]. destruct (IH _ _ _ _ _ _ H) as (s3 & y & l & _ & ->).
    exists s1, x, (y :: l). split; [reflexivity|]. unfold seq_push. now rewrite <- app_assoc.
Qed.
(** what an extraction from a good stream can give *)
Definition fine {A} (t : elt) (P : A -> Prop) (s : stream) (x : A) : Prop :=
  (fail s = false /\ P x) \/ (fail s = true /\ ((eof s = true /\ t = EChar) \/ t = EInt)).
Lemma get_char_good b r ch : let (s, c) := get_char (good b r) ch in
  ((exists b' r', s = good b' r') /\ ~ blank c) \/ (eof s = true /\ fail s = true).
Proof.
  destruct (sentry_spec b r) as (w & u & -> & W & [[-> S]|(c & t & -> & Nb & S)]).
  - unfold get_char. rewrite S. right. auto.
  - rewrite get_char_at by assumption. left. eauto.
Qed.
Lemma failed_ints : forall f n b r acc, loop_of (get EInt) f n (Stream b r false true) "," acc = Fuel.
Proof.
  induction f as [|f IH]; intros n b r acc; cbn [loop_of VecAnyModel.get]; [reflexivity|]. cbn. apply IH.
Qed.
Lemma loop_plain t (P : val t -> Prop) : (forall n b r s x, get t n (good b r) = Ok (s, x) -> fine t P s x) ->
  forall f n b r ch acc s v, ch <> "}"%char -> Forall P acc -> loop_of (get t) f n (good b r) ch acc = Ok (s, v) -> fail s = false /\ Forall P v.
Proof.
  intros H. induction f as [|f IH]; intros n b r ch acc s v C A E; cbn [loop_of] in E; [discriminate|].
  destruct (get t n (good b r)) as [[s1 x]| | |] eqn:G; try discriminate. cbn [bind] in E. apply H in G. destruct G as [[Fl Px]|[Fl [[Ef _]|Ti]]].
  - assert (A2 : Forall P (seq_push acc x)) by (apply Forall_app; auto).
    destruct s1 as [b1 r1 [] fl]; cbn in Fl; subst fl; [rewrite get_char_eof in E; discriminate|].
    pose proof (get_char_good b1 r1 ch) as X. destruct (get_char (good b1 r1) ch) as [s2 c]. destruct X as [[(b2 & r2 & ->) Nb]|[Ee _]]; [|rewrite Ee in E; discriminate].
    cbn [eof] in E. destruct (Ascii.eqb_spec c "}") as [-> |Nc]; [injection E as <- <-; auto|].
    destruct (negb (Ascii.eqb c ",")); [discriminate|]. eapply IH; eauto.
  - destruct s1 as [b1 r1 e1 f1]. cbn in Fl, Ef. subst. rewrite get_char_failed in E. discriminate.
  - destruct s1 as [b1 r1 e1 f1]. cbn in Fl. subst f1. rewrite get_char_failed in E. cbn [eof] in E. destruct e1; [discriminate|].
    destruct (Ascii.eqb_spec ch "}") as [-> |_]; [congruence|]. destruct (Ascii.eqb_spec ch ",") as [-> |_]; cbn [negb] in E; [|discriminate].
    exfalso. clear -Ti E. revert x acc E. subst t. intros x acc E. now rewrite failed_ints in E.
Qed.
Lemma get_failed t : forall n s s' x, fail s = true -> get t n s = Ok (s', x) -> fail s' = true /\ match t with EVec _ => False | _ => True end.
Proof.
  assert (S : forall s, fail s = true -> sentry s = (s, false)).
  { intros [b r e f] Hf. cbn in Hf. subst f. unfold sentry. cbn. now rewrite orb_true_r. }
  induction t as [| | |t IH]; intros n s s' x Hf E; cbn [VecAnyModel.get] in E.
  - unfold get_int in E. rewrite S in E by assumption. cbn in E. injection E as <- _. auto.
  - unfold get_char in E. rewrite S in E by assumption. cbn in E. injection E as <- _. auto.
  - unfold get_word in E. rewrite S in E by assumption. cbn in E. injection E as <- _. auto.
  - exfalso. generalize dependent (get t). intros g IH E. unfold read_of in E. unfold get_char at 1 in E. rewrite S in E by assumption. cbn iota in E.
    destruct (negb (Ascii.eqb gc "{")) eqn:Ng; [discriminate|]. apply negb_false_iff, Ascii.eqb_eq in Ng.
    unfold get_char in E. rewrite S in E by assumption. cbn iota in E. rewrite ?Ng in E. change (negb (Ascii.eqb "{" "}")) with true in E. cbn iota in E.
    assert (Hu : fail (unget s) = true) by (unfold unget; now rewrite Hf).
    destruct F as [|f]; [discriminate|]. cbn [loop_of] in E. destruct (g 0%nat (unget s)) as [[s1 y]| | |] eqn:G; try discriminate. cbn [bind] in E.
    apply IH in G; [|assumption]. destruct G as [G _]. unfold get_char in E. rewrite S in E by assumption. cbn iota in E.
    destruct (eof s1); discriminate.
Qed.
Lemma loop_open t f n s acc s' v : fail s = true -> loop_of (get t) f n s "{" acc <> Ok (s', v).
Proof.
  intros Hf E. destruct f as [|f]; [discriminate|]. cbn [loop_of] in E. destruct (get t n s) as [[s1 y]| | |] eqn:G; try discriminate. cbn [bind] in E.
  apply get_failed in G; [|assumption]. destruct G as [G _]. destruct s1 as [b r e fl]. cbn in G. subst fl. rewrite get_char_failed in E. cbn [eof] in E.
  destruct e; discriminate.
Qed.
(** a text is read only if it starts with an opening brace and something follows *)
Lemma read_of_ok t b r s v : read_of (get t) gc F (good b r) = Ok (s, v) ->
  exists w w2 c r', r = w ++ "{"%char :: w2 ++ c :: r' /\ ws w /\ ws w2 /\ ~ blank c.
Proof.
  intros E. destruct (sentry_spec b r) as (w & u & -> & W & [[-> S]|(c & r' & -> & Nb & S)]).
  - exfalso. unfold read_of, get_char at 1 in E. rewrite S in E. destruct (negb (Ascii.eqb gc "{")) eqn:Ng; [discriminate|].
    apply negb_false_iff, Ascii.eqb_eq in Ng. rewrite get_char_eof in E. replace (Ascii.eqb gc "}") with false in E by now rewrite Ng. replace gc with "{"%char in E at 2. change (negb (Ascii.eqb "{" "}")) with true in E. cbn iota in E.
    revert E. now apply loop_open.
  - unfold read_of in E. rewrite get_char_at in E by assumption. destruct (Ascii.eqb_spec c "{") as [-> |Nc]; cbn [negb] in E; [|discriminate].
    destruct (sentry_spec ("{"%char :: rev w ++ b) r') as (w2 & u & -> & W2 & [[-> S2]|(c & r2 & -> & Nb2 & S2)]).
    + exfalso. unfold get_char in E. rewrite S2 in E. change (negb (Ascii.eqb "{" "}")) with true in E. cbn iota in E. revert E. now apply loop_open.
    + exists w, w2, c, r2. auto.
Qed.
Lemma get_plain t : no_strings t -> forall n b r s x, get t n (good b r) = Ok (s, x) -> fine t (plain t) s x.
Proof.
  induction t as [| | |t IH]; intros N n b r s x E.
  - unfold fine. cbn [plain]. destruct (fail s); auto.
  - cbn [VecAnyModel.get plain] in *. pose proof (get_char_good b r (gch n)) as X. destruct (get_char (good b r) (gch n)) as [s1 c].
    injection E as <- <-. destruct X as [[(b2 & r2 & ->) Nb]|[Ee Ef]]; [left; auto|right; auto].
  - contradiction.
  - cbn [VecAnyModel.get] in E. cbn [no_strings] in N. left. cbn [plain].
    destruct (read_of_ok t b r s x E) as (w & w2 & c & r' & -> & W & W2 & Nb).
    rewrite read_of_start in E by assumption. destruct (Ascii.eqb_spec c "}") as [-> |Nc].
    + injection E as <- <-. cbn [fail]. split; [reflexivity|]. split; [constructor|]. destruct t; auto. discriminate.
    + pose proof E as E1. apply (loop_plain t (plain t) (IH N)) in E; auto. destruct E as [Hf Px]. split; [assumption|]. split; [assumption|].
      apply loop_first in E1. destruct E1 as (s1 & y & l & G & ->). destruct t; auto. cbn [app]. intros z H. injection H as Hy _.
      cbn [VecAnyModel.get] in G. change (c :: r') with ([] ++ c :: r') in G. rewrite get_char_at in G by (assumption || constructor).
      injection G as _ Hc. congruence.
Qed.

(** ** strings *)
Lemma word_app x c y : Forall (fun c => ~ blank c) x -> ~ blank c -> word (x ++ c :: y) = x ++ c :: word y.
Proof.
  intros X C. apply not_space in C. induction X as [|d x D X IH]; cbn [app word]; [now rewrite C|]. apply not_space in D. now rewrite D, IH.
Qed.
Lemma word_nonblank r : Forall (fun c => ~ blank c) (word r).
Proof. induction r as [|c r IH]; cbn [word]; [constructor|]. destruct (is_space c) eqn:D; constructor; auto. now apply not_space. Qed.
Lemma strings_never v u b s : v <> [] -> read_of (get EStr) gc F (good b (text (EVec EStr) v ++ u)) <> Ok (s, v).
Proof.
  intros NE E. destruct v as [|x v]; [congruence|].
  assert (T : exists c y, text (EVec EStr) (x :: v) ++ u = "{"%char :: x ++ c :: y /\ ~ blank c).
  { cbn [map text]. rewrite joined_head. destruct v as [|x2 v].
    - exists "}"%char, u. split; [|now apply not_space]. rewrite app_nil_r, <- !app_assoc. reflexivity.
    - eexists ","%char, _. split; [|now apply not_space]. cbn [map]. rewrite <- !app_assoc. reflexivity. }
  destruct T as (c & y & T & Nc). rewrite T in E.
  destruct (read_of_ok EStr b _ s (x :: v) E) as (w & w2 & d & r & Er & W & W2 & Nd).
  assert (w = []) as ->.
  { destruct W as [|e w B W]; [reflexivity|]. injection Er as <- _. exfalso. revert B. now apply not_space. }
  injection Er as Er. rewrite Er in E. change ("{"%char :: w2 ++ d :: r) with ([] ++ "{"%char :: w2 ++ d :: r) in E.
  rewrite read_of_start in E by (assumption || constructor). destruct (Ascii.eqb_spec d "}"); [discriminate|].
  apply loop_first in E. destruct E as (s1 & x' & l & G & Ex). injection Ex as <- _.
  cbn [VecAnyModel.get] in G. unfold get_word in G. change (d :: r) with ([] ++ d :: r) in G. rewrite sentry_at in G by (assumption || constructor).
  cbn [rest] in G. injection G as _ G. change (word (d :: r) = x) in G.
  assert (X : Forall (fun c => ~ blank c) x) by (rewrite <- G; apply word_nonblank).
  assert (Dx : word (d :: r) = d :: word r) by (cbn [word]; apply not_space in Nd; now rewrite Nd).
  rewrite Dx in G. assert (w2 = []) as ->.
  { destruct W2 as [|e w2 B W2]; [reflexivity|]. rewrite <- G in Er. injection Er as -> _. contradiction. }
  cbn [app] in Er. rewrite <- Dx, <- Er, word_app in G by assumption. apply (f_equal (@length ascii)) in G. rewrite app_length in G. cbn [length] in G. lia.
Qed.
Lemma strings_error v b : v <> [] -> Forall plain_word v -> (0 < F)%nat ->
  read_of (get EStr) gc F (good b (text (EVec EStr) v)) = Err.
Proof.
  intros NE P L. destruct v as [|x v]; [congruence|]. cbn [text]. pose proof (Forall_inv P) as [Nx Px].
  destruct x as [|d x]; [congruence|]. pose proof (Forall_inv Px) as (Nd & _ & Nb).
  assert (Px' : Forall (fun c => ~ blank c) (d :: x)) by (eapply Forall_impl; [|exact Px]; cbv beta; tauto).
  cbn [map]. rewrite joined_head. change (str "{") with ["{"%char]. change (str "}") with ["}"%char]. cbn [app].
  rewrite read_of_here by assumption. destruct (Ascii.eqb_spec d "}"); [contradiction|].
  cbn [rev app]. destruct F as [|f]; [lia|]. cbn [loop_of VecAnyModel.get]. unfold get_word.
  match goal with |- context[sentry (good ?b (d :: ?r))] => change (d :: r) with ([] ++ d :: r) end.
  rewrite sentry_at by (assumption || constructor). cbn [rest rev app before].
  destruct v as [|y v].
  - rewrite app_nil_r. change (str "}") with ["}"%char]. change (str ", ") with [","%char; " "%char].
    change (d :: x ++ ["}"%char]) with ((d :: x) ++ "}"%char :: []). rewrite word_app by (assumption || now apply not_space). cbn [word].
    rewrite skipn_all. cbn [bind]. rewrite get_char_eof. reflexivity.
  - pose proof (Forall_inv (Forall_inv_tail P)) as [Ny Py]. destruct y as [|e y]; [congruence|]. pose proof (Forall_inv Py) as (Ne & Ec & Eb).
    cbn [map]. rewrite joined_head. change (str "}") with ["}"%char]. change (str ", ") with [","%char; " "%char]. rewrite <- !app_assoc. cbn [app].
    match goal with |- context[d :: x ++ ","%char :: " "%char :: e :: ?r] =>
      change (d :: x ++ ","%char :: " "%char :: e :: r) with ((d :: x) ++ ","%char :: " "%char :: e :: r); generalize r end. intros r.
    rewrite word_app by (assumption || now apply not_space). change (word (" "%char :: e :: r)) with (@nil ascii).
    replace ((d :: x) ++ ","%char :: " "%char :: e :: r) with (((d :: x) ++ [","%char]) ++ [" "%char] ++ e :: r) by (now rewrite <- app_assoc).
    rewrite skipn_app_len. cbn [bind app fail].
    match goal with |- context[get_char (Stream ?b (" "%char :: e :: r) false false) ?ch] => change (Stream b (" "%char :: e :: r) false false) with (good b ([" "%char] ++ e :: r)) end.
    rewrite get_char_at; [|constructor; [now left|constructor]|assumption]. cbn [eof].
    destruct (Ascii.eqb_spec e "}"); [contradiction|]. destruct (Ascii.eqb_spec e ","); [contradiction|]. reflexivity.
Qed.

(** ** int elements: the model of VecIOModel *)
Lemma ints_loop : forall f n s ch acc, loop_of (get EInt) f n s ch acc = ('(v, s) <- read_loop gi f n s ch acc ;; Ok (s, v)).
Proof.
  induction f as [|f IH]; intros n s ch acc; cbn [loop_of read_loop VecAnyModel.get]; [reflexivity|]. destruct (get_int s (gi n)) as [s1 z]. cbn [bind].
  destruct (get_char s1 ch) as [s2 c]. destruct (eof s2); [reflexivity|]. destruct (Ascii.eqb c "}"); [reflexivity|].
  destruct (negb (Ascii.eqb c ",")); [reflexivity|]. apply IH.
Qed.
Lemma ints_read n s : get (EVec EInt) n s = ('(v, s) <- read_vector gi gc F s ;; Ok (s, v)).
Proof.
  cbn [VecAnyModel.get]. unfold read_of, read_vector. destruct (get_char s gc) as [s1 c]. destruct (negb (Ascii.eqb c "{")); [reflexivity|].
  destruct (get_char s1 c) as [s2 c2]. destruct (negb (Ascii.eqb c2 "}")); [apply ints_loop|reflexivity].
Qed.
End Read.
