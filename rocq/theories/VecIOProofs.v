From Verif Require Import Base DecModel DecProofs ContModel ContProofs VecIOModel VecIOSpec.
Local Open Scope Z_scope.

Lemma is_space_spec c : is_space c = true <-> blank c.
Proof.
  unfold blank. split.
  - destruct c as [[] [] [] [] [] [] [] []]; vm_compute; try discriminate; tauto.
  - intros H. simpl in H. decompose [or] H; subst; try reflexivity; contradiction.
Qed.
Lemma not_space c : is_space c = false <-> ~ blank c.
Proof. rewrite <- is_space_spec. destruct (is_space c); split; congruence. Qed.
Lemma digit_not_space c : is_digit c = true -> is_space c = false.
Proof. unfold is_digit, is_space. lia. Qed.
Lemma skip_spec p : forall r s, rest s = r -> exists w u, r = w ++ u /\ Forall (fun c => p c = true) w /\
  (u = [] \/ exists c t, u = c :: t /\ p c = false) /\ skip p s r = Stream (rev w ++ before s) u (eof s) (fail s).
Proof.
  induction r as [|c r IH]; intros s E; cbn [skip].
  - exists [], []. split; [reflexivity|]. split; [constructor|]. split; [auto|]. destruct s; cbn in *. now subst.
  - destruct (p c) eqn:P.
    + destruct (IH (Stream (c :: before s) r (eof s) (fail s)) eq_refl) as (w & u & -> & F & Hu & S). exists (c :: w), u.
      split; [reflexivity|]. split; [now constructor|]. split; [assumption|]. rewrite S. cbn. now rewrite <- app_assoc.
    + exists [], (c :: r). split; [reflexivity|]. split; [constructor|]. split; [right; eauto|]. destruct s; cbn in *. now subst.
Qed.
Lemma span_spec r : exists ds u, r = ds ++ u /\ digits ds /\ (u = [] \/ exists c t, u = c :: t /\ is_digit c = false) /\ span r = ds.
Proof.
  induction r as [|c r IH]; cbn [span].
  - exists [], []. repeat split; auto. constructor.
  - destruct (is_digit c) eqn:D.
    + destruct IH as (ds & u & -> & F & Hu & ->). exists (c :: ds), u. repeat split; auto. now constructor.
    + exists [], (c :: r). repeat split; auto; [constructor|right; eauto].
Qed.
(** splitting by a class of characters is unique *)
Lemma split_unique (p : ascii -> bool) a b u v : Forall (fun c => p c = true) a -> Forall (fun c => p c = true) b ->
  (u = [] \/ exists c t, u = c :: t /\ p c = false) -> (v = [] \/ exists c t, v = c :: t /\ p c = false) ->
  a ++ u = b ++ v -> a = b /\ u = v.
Proof.
  intros A. revert b. induction A as [|x a X A IH]; intros b B U V E; destruct B as [|y b Y B]; cbn in E; auto.
  - subst u. destruct U as [U|(c & t & U & P)]; [discriminate|]. injection U as <- <-. congruence.
  - subst v. destruct V as [V|(c & t & V & P)]; [discriminate|]. injection V as <- <-. congruence.
  - injection E as <- E. destruct (IH b B U V E) as [-> ->]. auto.
Qed.
Lemma ws_spec w : Forall (fun c => is_space c = true) w <-> ws w.
Proof. unfold ws. rewrite !Forall_forall. split; intros H c I; apply is_space_spec; auto. Qed.

Notation good b r := (Stream b r false false).
Lemma sentry_spec b r : exists w u, r = w ++ u /\ ws w /\
  ((u = [] /\ sentry (good b r) = (Stream (rev w ++ b) [] true true, false)) \/
   (exists c t, u = c :: t /\ ~ blank c /\ sentry (good b r) = (good (rev w ++ b) u, true))).
Proof.
  destruct (skip_spec is_space r (good b r) eq_refl) as (w & u & E & F & Hu & S). exists w, u. split; [assumption|].
  split; [now apply ws_spec|]. unfold sentry. cbn [eof fail orb rest]. rewrite S. cbn [rest before eof fail].
  destruct Hu as [-> |(c & t & -> & P)]; [left; auto|right]. exists c, t. apply not_space in P. auto.
Qed.
Lemma sentry_at b w c t : ws w -> ~ blank c -> sentry (good b (w ++ c :: t)) = (good (rev w ++ b) (c :: t), true).
Proof.
  intros W C. destruct (sentry_spec b (w ++ c :: t)) as (w' & u & E & W' & H).
  assert (U : u = [] \/ exists c t, u = c :: t /\ is_space c = false).
  { destruct H as [[-> _]|(c' & t' & -> & N & _)]; [auto|right]. exists c', t'. rewrite not_space. auto. }
  apply (split_unique is_space) in E; try (now apply ws_spec); auto.
  - destruct E as [<- <-]. destruct H as [[H _]|(c' & t' & _ & _ & H)]; [discriminate|exact H].
  - right. exists c, t. rewrite not_space. auto.
Qed.
Lemma get_char_at b w c t ch : ws w -> ~ blank c -> get_char (good b (w ++ c :: t)) ch = (good (c :: rev w ++ b) t, c).
Proof. intros W C. unfold get_char. rewrite sentry_at by assumption. reflexivity. Qed.
Lemma get_char_failed b r e ch : get_char (Stream b r e true) ch = (Stream b r e true, ch).
Proof. unfold get_char, sentry. cbn. now rewrite orb_true_r. Qed.
Lemma get_char_eof b r f ch : get_char (Stream b r true f) ch = (Stream b r true true, ch).
Proof. reflexivity. Qed.
Lemma sign_cases c : ((byteZ c =? 43) || (byteZ c =? 45)) = true <-> c = "+"%char \/ c = "-"%char.
Proof. split; [destruct c as [[] [] [] [] [] [] [] []]; vm_compute; try discriminate; auto|]. intros [-> | ->]; reflexivity. Qed.
Lemma in32 z : in_int32 z = true <-> - 2 ^ 31 <= z < 2 ^ 31.
Proof. unfold in_int32, int32_min, int32_max. lia. Qed.
Lemma skipn_app_len {A} (a b : list A) : skipn (length a) (a ++ b) = b.
Proof. induction a; auto. Qed.

(** what [is >> value] does on a good stream *)
Lemma get_int_spec b r g : exists w u, r = w ++ u /\ ws w /\
  ((exists t z u', u = t ++ u' /\ int_text t z /\ (forall c x, u' = c :: x -> is_digit c = false) /\
      get_int (good b r) g = (Stream (rev t ++ rev w ++ b) u' (match u' with [] => true | _ => false end) false, z)) \/
   (exists b' r' v, get_int (good b r) g = (Stream b' r' true true, v)) \/
   (exists b' r' v, get_int (good b r) g = (Stream b' r' false true, v) /\ not_an_int r)).
Proof.
  destruct (sentry_spec b r) as (w & u & E & W & H). exists w, u. split; [assumption|]. split; [assumption|].
  destruct H as [[-> S]|(c & t & -> & N & S)].
  - right; left. unfold get_int. rewrite S. cbn. eauto.
  - unfold get_int. rewrite S. cbn [negb rest before eof fail].
    destruct ((byteZ c =? 43) || (byteZ c =? 45)) eqn:SG.
    + apply sign_cases in SG. cbn [rest before eof fail]. destruct (span_spec t) as (ds & u' & -> & D & Hu & ->).
      rewrite skipn_app_len. assert (NE : ds = [] \/ ds <> []) by (destruct ds; [auto|right; discriminate]). destruct NE as [-> |NE].
      * cbn [app]. destruct Hu as [-> |(c' & t' & -> & P)]; [right; left; eauto|]. right; right. do 3 eexists. split; [reflexivity|].
        exists w, [c], c', t'. split; [assumption|]. split; [assumption|]. split; [assumption|]. destruct SG as [-> | ->]; auto.
      * assert (SI : signed (c :: ds) (if byteZ c =? 45 then - dec_value ds else dec_value ds)).
        { destruct SG as [-> | ->]; constructor; assumption. }
        set (z := if byteZ c =? 45 then - dec_value ds else dec_value ds) in *. clearbody z.
        destruct ds as [|d ds]; [congruence|]. destruct (in_int32 z) eqn:IZ.
        -- left. exists (c :: d :: ds), z, u'. split; [reflexivity|]. split; [split; [assumption|now apply in32]|]. split.
           ++ intros c' x ->. destruct Hu as [Hu|(? & ? & Hu & P)]; [discriminate|]. now injection Hu as -> ->.
           ++ cbn [rev]. rewrite <- !app_assoc. reflexivity.
        -- destruct Hu as [-> |(c' & t' & -> & P)]; [right; left; eauto|]. right; right. do 3 eexists. split; [reflexivity|].
           exists w, (c :: d :: ds), c', t'. split; [assumption|]. split; [assumption|]. split; [assumption|].
           right; right; right. exists z. split; [assumption|]. rewrite <- in32. congruence.
    + cbn [rest before eof fail]. destruct (span_spec (c :: t)) as (ds & u' & E' & D & Hu & ->). rewrite E' in *.
      rewrite skipn_app_len. assert (NE : ds = [] \/ ds <> []) by (destruct ds; [auto|right; discriminate]). destruct NE as [-> |NE].
      * cbn [app] in *. subst u'. destruct Hu as [Hu|(c' & t' & Hu & P)]; [discriminate|]. injection Hu as <- <-.
        right; right. do 3 eexists. split; [reflexivity|]. exists w, [], c, t. split; [assumption|]. split; [assumption|].
        split; [assumption|]. left. split; [reflexivity|]. split; [assumption|]. split; intros ->; discriminate.
      * assert (SI : signed ds (dec_value ds)) by now constructor. change (43 =? 45) with false. cbn iota.
        set (z := dec_value ds) in *. clearbody z. destruct ds as [|d ds]; [congruence|]. destruct (in_int32 z) eqn:IZ.
        -- left. exists (d :: ds), z, u'. split; [reflexivity|]. split; [split; [assumption|now apply in32]|]. split.
           ++ intros c' x ->. destruct Hu as [Hu|(? & ? & Hu & P)]; [discriminate|]. now injection Hu as -> ->.
           ++ reflexivity.
        -- destruct Hu as [-> |(c' & t' & -> & P)]; [right; left; eauto|]. right; right. do 3 eexists. split; [reflexivity|].
           exists w, (d :: ds), c', t'. split; [assumption|]. split; [assumption|]. split; [assumption|].
           right; right; right. exists z. split; [assumption|]. rewrite <- in32. congruence.
Qed.
(** the shape of a token *)
Lemma signed_shape t z : signed t z -> exists c t', t = c :: t' /\ ~ blank c /\
  ((c = "+"%char \/ c = "-"%char) /\ t' <> [] /\ digits t' \/ is_digit c = true /\ digits t).
Proof.
  intros H. destruct H as [ds NE D|ds NE D|ds NE D].
  - destruct ds as [|c ds]; [congruence|]. exists c, ds. inversion D; subst. split; [reflexivity|].
    split; [apply not_space; now apply digit_not_space|]. auto.
  - exists "+"%char, ds. split; [reflexivity|]. split; [now apply not_space|]. auto.
  - exists "-"%char, ds. split; [reflexivity|]. split; [now apply not_space|]. auto.
Qed.
Lemma span_at ds c u : digits ds -> is_digit c = false -> span (ds ++ c :: u) = ds.
Proof.
  intros D C. induction D as [|x ds X D IH]; cbn [app span]; [now rewrite C|]. now rewrite X, IH.
Qed.
Lemma digit_not_sign c : is_digit c = true -> ((byteZ c =? 43) || (byteZ c =? 45)) = false.
Proof. unfold is_digit. lia. Qed.
(** reading a given token followed by a non-digit *)
Lemma get_int_signed b w t z c u g : ws w -> signed t z -> is_digit c = false ->
  exists v, get_int (good b (w ++ t ++ c :: u)) g =
  (Stream (rev t ++ rev w ++ b) (c :: u) false (negb (in_int32 z)), v) /\ (in_int32 z = true -> v = z).
Proof.
  intros W S C. unfold get_int. pose proof (signed_shape t z S) as (c0 & t' & Et & Nb & Sh).
  assert (Se : sentry (good b (w ++ t ++ c :: u)) = (good (rev w ++ b) (t ++ c :: u), true)) by (rewrite Et; cbn [app]; now apply sentry_at).
  rewrite Se. clear Se. cbn [negb rest before eof fail].
  destruct S as [ds NE D|ds NE D|ds NE D].
  - destruct ds as [|d ds]; [congruence|]. injection Et as <- <-. inversion D as [|? ? Dd Dds]; subst.
    cbn [app]. rewrite (digit_not_sign d Dd). cbn [rest before eof fail]. change (d :: ds ++ c :: u) with ((d :: ds) ++ c :: u).
    rewrite (span_at (d :: ds)), skipn_app_len by assumption. change (43 =? 45) with false. cbn iota.
    set (z := dec_value (d :: ds)). clearbody z. destruct (in_int32 z) eqn:IZ; eexists; (split; [reflexivity|]); auto; discriminate.
  - injection Et as <- <-. cbn [app]. change ((byteZ "+" =? 43) || (byteZ "+" =? 45)) with true. cbn iota.
    cbn [rest before eof fail]. change (byteZ "+" =? 45) with false. cbn iota.
    rewrite (span_at ds), skipn_app_len by assumption. set (z := dec_value ds). clearbody z.
    destruct ds as [|d ds]; [congruence|]. cbn [rev]. rewrite <- !app_assoc. cbn [app].
    destruct (in_int32 z) eqn:IZ; eexists; (split; [reflexivity|]); auto; discriminate.
  - injection Et as <- <-. cbn [app]. change ((byteZ "-" =? 43) || (byteZ "-" =? 45)) with true. cbn iota.
    cbn [rest before eof fail]. change (byteZ "-" =? 45) with true. cbn iota.
    rewrite (span_at ds), skipn_app_len by assumption. set (z := - dec_value ds). clearbody z.
    destruct ds as [|d ds]; [congruence|]. cbn [rev]. rewrite <- !app_assoc. cbn [app].
    destruct (in_int32 z) eqn:IZ; eexists; (split; [reflexivity|]); auto; discriminate.
Qed.
Lemma get_int_bad b r g : not_an_int r -> exists b' r' v, get_int (good b r) g = (Stream b' r' false true, v).
Proof.
  intros (w & t & c & u & -> & W & C & [(-> & Nb & Np & Nm)|[-> |[-> |(z & S & N)]]]).
  - unfold get_int. cbn [app]. rewrite sentry_at by assumption. cbn [negb rest before eof fail].
    destruct ((byteZ c =? 43) || (byteZ c =? 45)) eqn:SG; [apply sign_cases in SG; destruct SG; congruence|].
    cbn [rest span]. rewrite C. cbn. eauto.
  - unfold get_int. cbn [app]. rewrite sentry_at by (assumption || now apply not_space). cbn [negb rest before eof fail].
    change ((byteZ "+" =? 43) || (byteZ "+" =? 45)) with true. cbn iota. cbn [rest span]. rewrite C. cbn. eauto.
  - unfold get_int. cbn [app]. rewrite sentry_at by (assumption || now apply not_space). cbn [negb rest before eof fail].
    change ((byteZ "-" =? 43) || (byteZ "-" =? 45)) with true. cbn iota. cbn [rest span]. rewrite C. cbn. eauto.
  - destruct (get_int_signed b w t z c u g W S C) as (v & E & _). rewrite <- in32 in N.
    assert (in_int32 z = false) as IZ by (destruct (in_int32 z); congruence). rewrite IZ in E. eauto.
Qed.
Section Read.
Context (gv : nat -> Z) (gc : ascii).
(** once failed behind a comma, the loop never ends *)
Lemma loop_failed : forall f n b r v, read_loop gv f n (Stream b r false true) "," v = Fuel.
Proof.
  induction f as [|f IH]; intros n b r v; cbn [read_loop]; [reflexivity|]. unfold get_int at 1, sentry. cbn. apply IH.
Qed.
Lemma loop_elements b0 zs : elements b0 zs -> forall f n b u ch v, (length zs <= f)%nat ->
  read_loop gv f n (good b (b0 ++ "}"%char :: u)) ch v = Ok (v ++ zs, good ("}"%char :: rev b0 ++ b) u).
Proof.
  induction 1 as [w t z w' W [S B] W'|w t z w' r zs W [S B] W' E IH]; intros f n b u ch v L; (destruct f as [|f]; [cbn in L; lia|]); cbn [read_loop].
  - assert (X : exists c x, w' ++ "}"%char :: u = c :: x /\ is_digit c = false).
    { destruct W' as [|c w' C W']; [exists "}"%char, u; auto|]. exists c, (w' ++ "}"%char :: u). split; [reflexivity|].
      destruct (is_digit c) eqn:D; [|reflexivity]. apply digit_not_space in D. apply not_space in D. contradiction. }
    destruct X as (c & x & X & D). rewrite <- !app_assoc, X.
    destruct (get_int_signed b w t z c x (gv n) W S D) as (v' & Eq & Ev). apply in32 in B. rewrite B in Eq. rewrite Eq, (Ev B).
    cbn [negb]. rewrite <- X, get_char_at by (assumption || (apply not_space; reflexivity)). cbn [eof]. 
    change (Ascii.eqb "}" "}") with true. cbn iota. unfold seq_push. rewrite !rev_app_distr, <- !app_assoc. reflexivity.
  - assert (X : exists c x, w' ++ ","%char :: r ++ "}"%char :: u = c :: x /\ is_digit c = false).
    { destruct W' as [|c w' C W']; [eexists _, _; split; reflexivity|]. eexists c, _. split; [reflexivity|].
      destruct (is_digit c) eqn:D; [|reflexivity]. apply digit_not_space in D. apply not_space in D. contradiction. }
    destruct X as (c & x & X & D). rewrite <- !app_assoc. cbn [app]. rewrite X.
    destruct (get_int_signed b w t z c x (gv n) W S D) as (v' & Eq & Ev). apply in32 in B. rewrite B in Eq. rewrite Eq, (Ev B).
    cbn [negb]. rewrite <- X, get_char_at by (assumption || (apply not_space; reflexivity)). cbn [eof].
    change (Ascii.eqb "," "}") with false. change (negb (Ascii.eqb "," ",")) with false. cbn iota. cbn in L. rewrite IH by lia.
    unfold seq_push. rewrite !rev_app_distr. cbn [rev]. rewrite <- !app_assoc. reflexivity.
Qed.
(** ... and the loop from any good state, with enough fuel *)
Lemma loop_cases : forall f n b r ch v, (length r < f)%nat -> ch <> "}"%char ->
  match read_loop gv f n (good b r) ch v with
  | Ok (v', s) => exists b0 zs u, r = b0 ++ "}"%char :: u /\ elements b0 zs /\ v' = v ++ zs /\ s = good ("}"%char :: rev b0 ++ b) u
  | Err => True
  | UB => False
  | Fuel => (ch = ","%char /\ not_an_int r) \/ exists b0 zs r', r = b0 ++ ","%char :: r' /\ elements b0 zs /\ not_an_int r'
  end.
Proof.
  induction f as [|f IH]; intros n b r ch v L C; [lia|]. cbn [read_loop].
  destruct (get_int_spec b r (gv n)) as (w & u & Er & W & [(t & z & u' & -> & It & Hd & E)|[(b' & r' & x & E)|(b' & r' & x & E & Bad)]]);
    rewrite E; clear E.
  - destruct u' as [|c0 u']; [rewrite get_char_eof; exact I|].
    destruct (sentry_spec (rev t ++ rev w ++ b) (c0 :: u')) as (w' & u2 & E2 & W' & [[-> S]|(c & u3 & -> & Nb & S)]).
    + unfold get_char. rewrite S. exact I.
    + rewrite E2, get_char_at by assumption. cbn [eof]. destruct (Ascii.eqb_spec c "}") as [-> |Nc].
      * exists (w ++ t ++ w'), [z], u3. split; [rewrite Er, E2, <- !app_assoc; reflexivity|]. split; [now constructor|].
        split; [reflexivity|]. rewrite !rev_app_distr, <- !app_assoc. reflexivity.
      * destruct (Ascii.eqb_spec c ",") as [-> |Nc2]; cbn [negb]; [|exact I].
        assert (L2 : (length u3 < f)%nat).
        { rewrite Er, E2, !app_length in L. cbn [length] in L. lia. }
        specialize (IH (Datatypes.S n) (","%char :: rev w' ++ rev t ++ rev w ++ b) u3 ","%char (seq_push v z) L2 ltac:(discriminate)).
        destruct (read_loop gv f (Datatypes.S n) _ "," (seq_push v z)) as [[v' s]| | |]; auto.
        -- destruct IH as (b0 & zs & u4 & -> & El & -> & ->). exists (w ++ t ++ w' ++ ","%char :: b0), (z :: zs), u4.
           split; [rewrite Er, E2, <- !app_assoc; reflexivity|]. split; [now constructor|].
           split; [unfold seq_push; now rewrite <- app_assoc|]. rewrite !rev_app_distr. cbn [rev]. rewrite <- !app_assoc. reflexivity.
        -- right. destruct IH as [[_ Bad]|(b0 & zs & r' & -> & El & Bad)].
           ++ exists (w ++ t ++ w'), [z], u3. split; [rewrite Er, E2, <- !app_assoc; reflexivity|]. split; [now constructor|assumption].
           ++ exists (w ++ t ++ w' ++ ","%char :: b0), (z :: zs), r'. split; [rewrite Er, E2, <- !app_assoc; reflexivity|].
              split; [now constructor|assumption].
  - rewrite get_char_failed. exact I.
  - rewrite get_char_failed. cbn [eof]. destruct (Ascii.eqb_spec ch "}") as [-> |_]; [congruence|].
    destruct (Ascii.eqb_spec ch ",") as [-> |Nc2]; cbn [negb]; [|exact I]. rewrite loop_failed. auto.
Qed.
Lemma loop_diverges b0 zs : elements b0 zs -> forall r, not_an_int r -> forall f n b ch v,
  read_loop gv f n (good b (b0 ++ ","%char :: r)) ch v = Fuel.
Proof.
  induction 1 as [w t z w' W [S B] W'|w t z w' r0 zs W [S B] W' E IH]; intros r Bad [|f] n b ch v; cbn [read_loop]; try reflexivity.
  - assert (X : exists c x, w' ++ ","%char :: r = c :: x /\ is_digit c = false).
    { destruct W' as [|c w' C W']; [eexists _, _; split; reflexivity|]. eexists c, _. split; [reflexivity|].
      destruct (is_digit c) eqn:D; [|reflexivity]. apply digit_not_space in D. apply not_space in D. contradiction. }
    destruct X as (c & x & X & D). rewrite <- !app_assoc, X.
    destruct (get_int_signed b w t z c x (gv n) W S D) as (v' & Eq & Ev). apply in32 in B. rewrite B in Eq. rewrite Eq, (Ev B).
    cbn [negb]. rewrite <- X, get_char_at by (assumption || (apply not_space; reflexivity)). cbn [eof].
    change (Ascii.eqb "," "}") with false. change (negb (Ascii.eqb "," ",")) with false. cbn iota.
    destruct f as [|f]; cbn [read_loop]; [reflexivity|]. destruct (get_int_bad (","%char :: rev w' ++ rev t ++ rev w ++ b) r (gv (Datatypes.S n)) Bad) as (b' & r' & x' & ->).
    rewrite get_char_failed. cbn [eof]. change (Ascii.eqb "," "}") with false. change (negb (Ascii.eqb "," ",")) with false. cbn iota.
    apply loop_failed.
  - assert (X : exists c x, w' ++ ","%char :: r0 ++ ","%char :: r = c :: x /\ is_digit c = false).
    { destruct W' as [|c w' C W']; [eexists _, _; split; reflexivity|]. eexists c, _. split; [reflexivity|].
      destruct (is_digit c) eqn:D; [|reflexivity]. apply digit_not_space in D. apply not_space in D. contradiction. }
    destruct X as (c & x & X & D). rewrite <- !app_assoc. cbn [app]. rewrite X.
    destruct (get_int_signed b w t z c x (gv n) W S D) as (v' & Eq & Ev). apply in32 in B. rewrite B in Eq. rewrite Eq, (Ev B).
    cbn [negb]. rewrite <- X, get_char_at by (assumption || (apply not_space; reflexivity)). cbn [eof].
    change (Ascii.eqb "," "}") with false. change (negb (Ascii.eqb "," ",")) with false. cbn iota. now apply IH.
Qed.

Lemma elements_head b0 zs : elements b0 zs -> exists w c t, b0 = w ++ c :: t /\ ws w /\ ~ blank c /\ c <> "}"%char.
Proof.
  assert (X : forall t z, int_text t z -> exists c t', t = c :: t' /\ ~ blank c /\ c <> "}"%char).
  { intros t z [S _]. destruct (signed_shape t z S) as (c & t' & -> & Nb & Sh). exists c, t'. split; [reflexivity|]. split; [assumption|].
    intros ->. destruct Sh as [([? | ?] & _)|[? _]]; discriminate. }
  intros [w t z w' W It W'|w t z w' r zs' W It W' E]; destruct (X t z It) as (c & t' & -> & Nb & N); exists w, c; eexists; (split; [reflexivity|]); auto.
Qed.
Lemma read_start w u f b c t : ws w -> u = c :: t -> forall w2, ws w2 -> ~ blank c ->
  read_vector gv gc f (good b (w ++ "{"%char :: w2 ++ u)) =
  if Ascii.eqb c "}" then Ok ([], good ("}"%char :: rev w2 ++ "{"%char :: rev w ++ b) t)
  else read_loop gv f 0 (good (rev w2 ++ "{"%char :: rev w ++ b) u) c [].
Proof.
  intros W -> w2 W2 Nb. unfold read_vector. rewrite get_char_at by (assumption || now apply not_space).
  change (negb (Ascii.eqb "{" "{")) with false. cbn iota. rewrite get_char_at by assumption.
  destruct (Ascii.eqb_spec c "}") as [-> |N]; cbn [negb]; reflexivity.
Qed.
Lemma loop_ws w2 b r f n ch v : ws w2 -> read_loop gv f n (good b (w2 ++ r)) ch v = read_loop gv f n (good (rev w2 ++ b) r) ch v.
Proof.
  intros W. destruct f as [|f]; [reflexivity|]. cbn [read_loop].
  assert (E : get_int (good b (w2 ++ r)) (gv n) = get_int (good (rev w2 ++ b) r) (gv n)); [|now rewrite E].
  unfold get_int. assert (E : sentry (good b (w2 ++ r)) = sentry (good (rev w2 ++ b) r)); [|now rewrite E].
  unfold sentry. cbn [eof fail orb rest]. assert (E : skip is_space (good b (w2 ++ r)) (w2 ++ r) = skip is_space (good (rev w2 ++ b) r) r); [|now rewrite E].
  clear -W. revert b. induction W as [|c w2 C W IH]; intros b; [reflexivity|]. cbn [app skip before]. apply is_space_spec in C. rewrite C.
  rewrite IH. cbn [rev]. now rewrite <- app_assoc.
Qed.
Lemma read_text t v u b f : vector_text t v -> (length v <= f)%nat ->
  read_vector gv gc f (good b (t ++ u)) = Ok (v, good (rev t ++ b) u).
Proof.
  intros (w & b0 & W & -> & [[Wb ->]|El]) L.
  - rewrite <- !app_assoc. cbn [app]. rewrite <- app_assoc. cbn [app].
    rewrite (read_start w ("}"%char :: u) f b "}"%char u W eq_refl b0 Wb) by now apply not_space.
    cbn. rewrite !rev_app_distr. cbn [rev]. rewrite rev_app_distr. cbn. rewrite <- !app_assoc. reflexivity.
  - destruct (elements_head b0 v El) as (w2 & c & t & E & W2 & Nb & Nc).
    rewrite <- !app_assoc. cbn [app]. rewrite <- app_assoc. cbn [app]. rewrite E at 1. rewrite <- app_assoc. cbn [app].
    rewrite (read_start w _ f b c _ W eq_refl w2 W2 Nb). destruct (Ascii.eqb_spec c "}") as [-> |_]; [congruence|].
    rewrite <- loop_ws by assumption. change (w2 ++ c :: t ++ "}"%char :: u) with (w2 ++ (c :: t) ++ "}"%char :: u). rewrite app_assoc, <- E.
    rewrite (loop_elements b0 v El) by assumption. cbn [app]. rewrite !rev_app_distr. cbn [rev]. rewrite rev_app_distr. cbn. rewrite <- !app_assoc. reflexivity.
Qed.
Lemma read_diverges w b0 zs r b f : ws w -> elements b0 zs -> not_an_int r ->
  read_vector gv gc f (good b (w ++ "{"%char :: b0 ++ ","%char :: r)) = Fuel.
Proof.
  intros W El Bad. destruct (elements_head b0 zs El) as (w2 & c & t & E & W2 & Nb & Nc).
  rewrite E at 1. rewrite <- app_assoc. cbn [app].
  rewrite (read_start w _ f b c _ W eq_refl w2 W2 Nb). destruct (Ascii.eqb_spec c "}") as [-> |_]; [congruence|].
  rewrite <- loop_ws by assumption. change (w2 ++ c :: t ++ ","%char :: r) with (w2 ++ (c :: t) ++ ","%char :: r). rewrite app_assoc, <- E.
  now apply (loop_diverges b0 zs).
Qed.
Lemma elements_ws w b0 zs : ws w -> elements b0 zs -> elements (w ++ b0) zs.
Proof.
  intros W [w1 t z w' W1 It W'|w1 t z w' r zs' W1 It W' E]; rewrite app_assoc; constructor; auto; now apply Forall_app.
Qed.
Lemma read_cases b r f : (length r < f)%nat ->
  match read_vector gv gc f (good b r) with
  | Ok (v, s) => exists t u, r = t ++ u /\ vector_text t v /\ s = good (rev t ++ b) u
  | Err => True
  | UB => False
  | Fuel => stuck r
  end.
Proof.
  intros L. destruct (sentry_spec b r) as (w & u & Er & W & [[-> S]|(c & t & -> & Nb & S)]).
  - unfold read_vector, get_char at 1. rewrite S. destruct (negb (Ascii.eqb gc "{")) eqn:N; [exact I|]. 
    rewrite get_char_eof. apply negb_false_iff, Ascii.eqb_eq in N. subst gc. cbn.
    destruct f as [|f]; [lia|]. cbn. exact I.
  - subst r. unfold read_vector. rewrite get_char_at by assumption. destruct (Ascii.eqb_spec c "{") as [-> |N]; cbn [negb]; [|exact I].
    destruct (sentry_spec ("{"%char :: rev w ++ b) t) as (w2 & u & Et & W2 & [[-> S2]|(c & t2 & -> & Nb2 & S2)]).
    + unfold get_char at 1. rewrite S2. change (negb (Ascii.eqb "{" "}")) with true. cbn iota. destruct f as [|f]; [lia|]. cbn. exact I.
    + subst t. rewrite get_char_at by assumption. destruct (Ascii.eqb_spec c "}") as [-> |N]; cbn [negb].
      * exists (w ++ "{"%char :: w2 ++ ["}"%char]), t2. split; [rewrite <- app_assoc; cbn [app]; now rewrite <- app_assoc|]. split.
        -- exists w, w2. auto.
        -- rewrite rev_app_distr. cbn [rev]. rewrite rev_app_distr. cbn. now rewrite <- !app_assoc.
      * cbn [unget fail before rest]. unfold unget. cbn [fail before rest].
        assert (L2 : (length (c :: t2) < f)%nat) by (rewrite app_length in L; cbn [length] in L; rewrite app_length in L; lia).
        pose proof (loop_cases f 0 (rev w2 ++ "{"%char :: rev w ++ b) (c :: t2) c [] L2 N) as H.
        destruct (read_loop gv f 0 _ c []) as [[v s]| | |]; auto.
        -- destruct H as (b0 & zs & u & E & El & -> & ->). rewrite E. exists (w ++ "{"%char :: (w2 ++ b0) ++ ["}"%char]), u.
           split; [rewrite <- !app_assoc; cbn [app]; now rewrite <- !app_assoc|]. split.
           ++ exists w, (w2 ++ b0). split; [assumption|]. split; [reflexivity|]. right. now apply elements_ws.
           ++ rewrite rev_app_distr. cbn [rev]. rewrite !rev_app_distr. cbn. now rewrite <- !app_assoc.
        -- destruct H as [[-> Bad]|(b0 & zs & r' & E & El & Bad)].
           ++ exists w, w2, t2. auto.
           ++ rewrite E. exists w, (w2 ++ b0), r'. split; [now rewrite <- !app_assoc|]. split; [assumption|].
              right. split; [|assumption]. exists zs. now apply elements_ws.
Qed.
Lemma read_stuck r b f : stuck r -> read_vector gv gc f (good b r) = Fuel.
Proof.
  intros (w & b0 & r' & -> & W & [Wb|[[zs El] Bad]]); [|now apply (read_diverges w b0 zs)].
  rewrite (read_start w _ f b ","%char r' W eq_refl b0 Wb) by now apply not_space. change (Ascii.eqb "," "}") with false. cbn iota.
  destruct f as [|f]; [reflexivity|]. cbn [read_loop].
  destruct (get_int_bad (rev b0 ++ "{"%char :: rev w ++ b) (","%char :: r') (gv 0)) as (b' & r2 & x & ->).
  { exists [], [], ","%char, r'. split; [reflexivity|]. split; [constructor|]. split; [reflexivity|]. left.
    split; [reflexivity|]. split; [now apply not_space|]. split; discriminate. }
  rewrite get_char_failed. cbn [eof]. change (Ascii.eqb "," "}") with false. change (negb (Ascii.eqb "," ",")) with false. cbn iota.
  apply loop_failed.
Qed.
End Read.
Lemma joined_last l x : joined (l ++ [x]) = flat_map (fun t => t ++ str ", ") l ++ x.
Proof.
  induction l as [|t l IH]; [reflexivity|]. cbn [app flat_map joined]. rewrite IH. destruct (l ++ [x]) eqn:E; [now destruct l|].
  now rewrite <- !app_assoc.
Qed.
Lemma print_spec v : Z.of_nat (length v) <= int32_max ->
  print_vector v = Ok ("{"%char :: joined (map to_string_Z v) ++ ["}"%char]).
Proof.
  intros L. unfold print_vector. rewrite size_spec by assumption. destruct (back_split v) as [-> |(t & x & ->)]; [reflexivity|].
  pose proof (last_spec (t ++ [x])) as H. destruct (seq_last (t ++ [x])) as [y| | |]; try contradiction; [|now destruct t].
  destruct H as [t' H]. apply app_inj_tail in H. destruct H as [<- <-]. rewrite app_length in *. cbn [length] in *.
  destruct (Z.eqb_spec (Z.of_nat (length t + 1)) 0); [lia|]. cbn [bind].
  rewrite map_app. cbn [map]. rewrite joined_last, removelast_last.
  destruct (Z.eqb_spec (Z.of_nat (length t + 1)) 1) as [E|E].
  - destruct t; [reflexivity|cbn in E; lia].
  - do 2 f_equal. rewrite <- app_assoc. f_equal. clear. induction t as [|y t IH]; [reflexivity|]. cbn [flat_map map]. now rewrite IH.
Qed.
Lemma numeral_signed t z : numeral t z -> signed t z.
Proof.
  assert (D : forall s, forallb is_digit s = true -> digits s).
  { intros s H. apply Forall_forall. intros c I. now apply (proj1 (forallb_forall _ _) H). }
  intros [[(NE & F & _) <-]|(t' & -> & (NE & F & _) & _ & <-)]; constructor; auto.
Qed.
Lemma joined_elements v : v <> [] -> Forall (fun z => in_int32 z = true) v -> elements (joined (map to_string_Z v)) v.
Proof.
  intros NE F. induction F as [|z v Z F IH]; [congruence|].
  assert (It : int_text (to_string_Z z) z) by (split; [apply numeral_signed, to_string_Z_numeral|now apply in32]).
  destruct v as [|z' v].
  - change (elements ([] ++ to_string_Z z) [z]). rewrite <- (app_nil_r (to_string_Z z)). constructor; [constructor|assumption|constructor].
  - change (joined (map to_string_Z (z :: z' :: v))) with ([] ++ to_string_Z z ++ [] ++ ","%char :: ([" "%char] ++ joined (map to_string_Z (z' :: v)))).
    constructor; [constructor|assumption|constructor|]. apply elements_ws; [|apply IH; discriminate]. repeat constructor.
Qed.
Lemma print_text v : Forall (fun z => in_int32 z = true) v -> vector_text ("{"%char :: joined (map to_string_Z v) ++ ["}"%char]) v.
Proof.
  intros F. exists [], (joined (map to_string_Z v)). split; [constructor|]. split; [reflexivity|].
  destruct v as [|z v]; [left; split; [constructor|reflexivity]|]. right. apply joined_elements; [discriminate|assumption].
Qed.
