From Verif Require Import Base DecModel DecProofs ContModel ContProofs VecIOModel VecIOSpec VecIOProofs CastSpec CastProofs VecAnyModel VecAnySpec VecAnyProofs IntTyModel IntTextModel IntTextSpec.
Local Open Scope Z_scope.

(** [get_num] with the range check on the signed number *)
Definition acc (t : ty) (z : Z) : bool := if sgn t then has t z else Z.abs z <=? tmax t.
Lemma pow_bits t : 2 ^ bits t = 2 * 2 ^ (bits t - 1) /\ 0 < 2 ^ (bits t - 1).
Proof. destruct t as [sg []]; split; reflexivity. Qed.
Lemma acc_spec t z : acc t z = true <-> accepts t z.
Proof.
  unfold acc, accepts, value_of, has, tmin, tmax. destruct (pow_bits t) as [E P]. rewrite E. generalize dependent (2 ^ (bits t - 1)). intros p _ P.
  destruct (sgn t); lia.
Qed.
Definition over (t : ty) (z : Z) : Z := if sgn t && (z <? 0) then tmin t else tmax t.
Lemma conv_neg t m : 0 <= m -> acc t (- m) = true -> conv t (- m) = becomes t (- m).
Proof.
  intros M A. unfold conv, becomes, acc, has, tmin, tmax in *. destruct (pow_bits t) as [E P]. rewrite E in *. generalize dependent (2 ^ (bits t - 1)). intros p A _ P.
  destruct (sgn t).
  - cbn iota in A. rewrite Z.mod_small by lia. destruct (- m <? 0) eqn:?; lia.
  - cbn iota in A. rewrite Z.sub_0_r, Z.add_0_r. destruct (Z.ltb_spec (- m) 0).
    + symmetry. apply (Z.mod_unique_pos _ _ (-1)); lia.
    + apply Z.mod_small. lia.
Qed.
Definition get_num2 (t : ty) (s : stream) (garbage : Z) : stream * Z :=
  let (s, ok) := sentry s in
  if negb ok then (s, garbage)
  else
    let (sg, s) :=
      match rest s with
      | c :: t => if (byteZ c =? 43) || (byteZ c =? 45) then (byteZ c, Stream (c :: before s) t (eof s) (fail s)) else (43, s)
      | [] => (43, s)
      end in
    let ds := span (rest s) in
    let s := Stream (rev ds ++ before s) (skipn (length ds) (rest s)) (match skipn (length ds) (rest s) with [] => true | _ => false end) (fail s) in
    let v := if sg =? 45 then - dec_value ds else dec_value ds in
    match ds with
    | [] => (Stream (before s) (rest s) (eof s) true, 0)
    | _ =>
        if acc t v then (s, becomes t v)
        else (Stream (before s) (rest s) (eof s) true, over t v)
    end.
Lemma num2 t s g : get_num t s g = get_num2 t s g.
Proof.
  unfold get_num, get_num2. destruct (sentry s) as [s1 ok]. destruct (negb ok); [reflexivity|].
  destruct (match rest s1 with [] => _ | _ => _ end) as [sg s2]. pose proof (dec_value_nonneg _ (span_is_digits (rest s2))) as P.
  destruct (span (rest s2)) as [|d ds]; [reflexivity|]. set (m := dec_value (d :: ds)) in *. clearbody m.
  assert (E : (m <=? (if (sg =? 45) && sgn t then - tmin t else tmax t)) = acc t (if sg =? 45 then - m else m)).
  { unfold acc, has, tmin, tmax. destruct (pow_bits t) as [E Q]. rewrite E. generalize dependent (2 ^ (bits t - 1)). intros p _ Q. destruct (sg =? 45), (sgn t); cbn [andb]; lia. }
  rewrite E. destruct (acc t _) eqn:A.
  - f_equal. destruct (sg =? 45); [now apply conv_neg|]. unfold becomes. destruct (Z.ltb_spec m 0); lia.
  - f_equal. unfold over. rewrite andb_comm. assert (B : (sg =? 45) = ((if sg =? 45 then - m else m) <? 0)); [|now rewrite <- B]. destruct (sg =? 45).
    + symmetry. apply Z.ltb_lt. assert (m <> 0); [|lia]. intros ->. revert A. unfold acc, has, tmin, tmax. destruct (pow_bits t) as [E' Q]. rewrite E'. generalize (2 ^ (bits t - 1)) Q. intros p Q' . destruct (sgn t); lia.
    + symmetry. apply Z.ltb_ge. lia.
Qed.
Section Type_.
Context (T : ty).
(** what [is >> value] does on a good stream *)
Lemma num_spec b r g : exists w u, r = w ++ u /\ ws w /\
  ((exists t z u', u = t ++ u' /\ item T t z /\ (forall c x, u' = c :: x -> is_digit c = false) /\
      get_num2 T (good b r) g = (Stream (rev t ++ rev w ++ b) u' (match u' with [] => true | _ => false end) false, z)) \/
   (exists b' r' v, get_num2 T (good b r) g = (Stream b' r' true true, v)) \/
   (exists b' r' v, get_num2 T (good b r) g = (Stream b' r' false true, v) /\ no_item T r)).
Proof.
  destruct (sentry_spec b r) as (w & u & E & W & H). exists w, u. split; [assumption|]. split; [assumption|].
  destruct H as [[-> S]|(c & t & -> & N & S)].
  - right; left. unfold get_num2. rewrite S. cbn. eauto.
  - unfold get_num2. rewrite S. cbn [negb rest before eof fail].
    destruct ((byteZ c =? 43) || (byteZ c =? 45)) eqn:SG.
    + apply sign_cases in SG. cbn [rest before eof fail]. destruct (span_spec t) as (ds & u' & -> & D & Hu & ->).
      rewrite skipn_app_len. assert (NE : ds = [] \/ ds <> []) by (destruct ds; [auto|right; discriminate]). destruct NE as [-> |NE].
      * cbn [app]. destruct Hu as [-> |(c' & t' & -> & P)]; [right; left; eauto|]. right; right. do 3 eexists. split; [reflexivity|].
        exists w, [c], c', t'. split; [assumption|]. split; [assumption|]. split; [assumption|]. destruct SG as [-> | ->]; auto.
      * assert (SI : signed (c :: ds) (if byteZ c =? 45 then - dec_value ds else dec_value ds)).
        { destruct SG as [-> | ->]; constructor; assumption. }
        set (z := if byteZ c =? 45 then - dec_value ds else dec_value ds) in *. clearbody z.
        destruct ds as [|d ds]; [congruence|]. destruct (acc T z) eqn:IZ.
        -- left. exists (c :: d :: ds), (becomes T z), u'. split; [reflexivity|]. split; [exists z; split; [assumption|split; [now apply acc_spec|reflexivity]]|]. split.
           ++ intros c' x ->. destruct Hu as [Hu|(? & ? & Hu & P)]; [discriminate|]. now injection Hu as -> ->.
           ++ cbn [rev]. rewrite <- !app_assoc. reflexivity.
        -- destruct Hu as [-> |(c' & t' & -> & P)]; [right; left; eauto|]. right; right. do 3 eexists. split; [reflexivity|].
           exists w, (c :: d :: ds), c', t'. split; [assumption|]. split; [assumption|]. split; [assumption|].
           right; right; right. exists z. split; [assumption|]. rewrite <- acc_spec. congruence.
    + cbn [rest before eof fail]. destruct (span_spec (c :: t)) as (ds & u' & E' & D & Hu & ->). rewrite E' in *.
      rewrite skipn_app_len. assert (NE : ds = [] \/ ds <> []) by (destruct ds; [auto|right; discriminate]). destruct NE as [-> |NE].
      * cbn [app] in *. subst u'. destruct Hu as [Hu|(c' & t' & Hu & P)]; [discriminate|]. injection Hu as <- <-.
        right; right. do 3 eexists. split; [reflexivity|]. exists w, [], c, t. split; [assumption|]. split; [assumption|].
        split; [assumption|]. left. split; [reflexivity|]. split; [assumption|]. split; intros ->; discriminate.
      * assert (SI : signed ds (dec_value ds)) by now constructor. change (43 =? 45) with false. cbn iota.
        set (z := dec_value ds) in *. clearbody z. destruct ds as [|d ds]; [congruence|]. destruct (acc T z) eqn:IZ.
        -- left. exists (d :: ds), (becomes T z), u'. split; [reflexivity|]. split; [exists z; split; [assumption|split; [now apply acc_spec|reflexivity]]|]. split.
           ++ intros c' x ->. destruct Hu as [Hu|(? & ? & Hu & P)]; [discriminate|]. now injection Hu as -> ->.
           ++ reflexivity.
        -- destruct Hu as [-> |(c' & t' & -> & P)]; [right; left; eauto|]. right; right. do 3 eexists. split; [reflexivity|].
           exists w, (d :: ds), c', t'. split; [assumption|]. split; [assumption|]. split; [assumption|].
           right; right; right. exists z. split; [assumption|]. rewrite <- acc_spec. congruence.
Qed.
(*----*)
(** reading a given token followed by a non-digit *)
Lemma num_signed b w t z c u g : ws w -> signed t z -> is_digit c = false ->
  exists v, get_num2 T (good b (w ++ t ++ c :: u)) g =
  (Stream (rev t ++ rev w ++ b) (c :: u) false (negb (acc T z)), v) /\ (acc T z = true -> v = becomes T z).
Proof.
  intros W S C. unfold get_num2. pose proof (signed_shape t z S) as (c0 & t' & Et & Nb & Sh).
  assert (Se : sentry (good b (w ++ t ++ c :: u)) = (good (rev w ++ b) (t ++ c :: u), true)) by (rewrite Et; cbn [app]; now apply sentry_at).
  rewrite Se. clear Se. cbn [negb rest before eof fail].
  destruct S as [ds NE D|ds NE D|ds NE D].
  - destruct ds as [|d ds]; [congruence|]. injection Et as <- <-. inversion D as [|? ? Dd Dds]; subst.
    cbn [app]. rewrite (digit_not_sign d Dd). cbn [rest before eof fail]. change (d :: ds ++ c :: u) with ((d :: ds) ++ c :: u).
    rewrite (span_at (d :: ds)), skipn_app_len by assumption. change (43 =? 45) with false. cbn iota.
    set (z := dec_value (d :: ds)). clearbody z. destruct (acc T z) eqn:IZ; eexists; (split; [reflexivity|]); auto; discriminate.
  - injection Et as <- <-. cbn [app]. change ((byteZ "+" =? 43) || (byteZ "+" =? 45)) with true. cbn iota.
    cbn [rest before eof fail]. change (byteZ "+" =? 45) with false. cbn iota.
    rewrite (span_at ds), skipn_app_len by assumption. set (z := dec_value ds). clearbody z.
    destruct ds as [|d ds]; [congruence|]. cbn [rev]. rewrite <- !app_assoc. cbn [app].
    destruct (acc T z) eqn:IZ; eexists; (split; [reflexivity|]); auto; discriminate.
  - injection Et as <- <-. cbn [app]. change ((byteZ "-" =? 43) || (byteZ "-" =? 45)) with true. cbn iota.
    cbn [rest before eof fail]. change (byteZ "-" =? 45) with true. cbn iota.
    rewrite (span_at ds), skipn_app_len by assumption. set (z := - dec_value ds). clearbody z.
    destruct ds as [|d ds]; [congruence|]. cbn [rev]. rewrite <- !app_assoc. cbn [app].
    destruct (acc T z) eqn:IZ; eexists; (split; [reflexivity|]); auto; discriminate.
Qed.
Lemma num_bad b r g : no_item T r -> exists b' r' v, get_num2 T (good b r) g = (Stream b' r' false true, v).
Proof.
  intros (w & t & c & u & -> & W & C & [(-> & Nb & Np & Nm)|[-> |[-> |(z & S & N)]]]).
  - unfold get_num2. cbn [app]. rewrite sentry_at by assumption. cbn [negb rest before eof fail].
    destruct ((byteZ c =? 43) || (byteZ c =? 45)) eqn:SG; [apply sign_cases in SG; destruct SG; congruence|].
    cbn [rest span]. rewrite C. cbn. eauto.
  - unfold get_num2. cbn [app]. rewrite sentry_at by (assumption || now apply not_space). cbn [negb rest before eof fail].
    change ((byteZ "+" =? 43) || (byteZ "+" =? 45)) with true. cbn iota. cbn [rest span]. rewrite C. cbn. eauto.
  - unfold get_num2. cbn [app]. rewrite sentry_at by (assumption || now apply not_space). cbn [negb rest before eof fail].
    change ((byteZ "-" =? 43) || (byteZ "-" =? 45)) with true. cbn iota. cbn [rest span]. rewrite C. cbn. eauto.
  - destruct (num_signed b w t z c u g W S C) as (v & E & _). rewrite <- acc_spec in N.
    assert (acc T z = false) as IZ by (destruct (acc T z); congruence). rewrite IZ in E. eauto.
Qed.
Lemma num_item b w t y c u g : ws w -> item T t y -> is_digit c = false ->
  get_num2 T (good b (w ++ t ++ c :: u)) g = (good (rev t ++ rev w ++ b) (c :: u), y).
Proof.
  intros W (z & S & A & ->) C. destruct (num_signed b w t z c u g W S C) as (v & -> & E). apply acc_spec in A. rewrite (E A), A. reflexivity.
Qed.
Context (gv : nat -> Z) (gc : ascii).
Notation G := (fun n s => Ok (get_num2 T s (gv n))).
(** once failed behind a comma, the loop never ends *)
Lemma loop_failed : forall f n b r v, loop_of G f n (Stream b r false true) "," v = Fuel.
Proof.
  induction f as [|f IH]; intros n b r v; cbn [loop_of bind]; [reflexivity|]. unfold get_num2 at 1, sentry. cbn. apply IH.
Qed.
Lemma loop_items b0 zs : items T b0 zs -> forall f n b u ch v, (length zs <= f)%nat ->
  loop_of G f n (good b (b0 ++ "}"%char :: u)) ch v = Ok (good ("}"%char :: rev b0 ++ b) u, v ++ zs).
Proof.
  induction 1 as [w t z w' W S W'|w t z w' r zs W S W' E IH]; intros f n b u ch v L; (destruct f as [|f]; [cbn in L; lia|]); cbn [loop_of bind].
  - assert (X : exists c x, w' ++ "}"%char :: u = c :: x /\ is_digit c = false).
    { destruct W' as [|c w' C W']; [exists "}"%char, u; auto|]. exists c, (w' ++ "}"%char :: u). split; [reflexivity|].
      destruct (is_digit c) eqn:D; [|reflexivity]. apply digit_not_space in D. apply not_space in D. contradiction. }
    destruct X as (c & x & X & D). rewrite <- !app_assoc, X.
    rewrite (num_item b w t z c x (gv n) W S D). rewrite <- X, get_char_at by (assumption || (apply not_space; reflexivity)). cbn [eof]. 
    change (Ascii.eqb "}" "}") with true. cbn iota. unfold seq_push. rewrite !rev_app_distr, <- !app_assoc. reflexivity.
  - assert (X : exists c x, w' ++ ","%char :: r ++ "}"%char :: u = c :: x /\ is_digit c = false).
    { destruct W' as [|c w' C W']; [eexists _, _; split; reflexivity|]. eexists c, _. split; [reflexivity|].
      destruct (is_digit c) eqn:D; [|reflexivity]. apply digit_not_space in D. apply not_space in D. contradiction. }
    destruct X as (c & x & X & D). rewrite <- !app_assoc. cbn [app]. rewrite X.
    rewrite (num_item b w t z c x (gv n) W S D). rewrite <- X, get_char_at by (assumption || (apply not_space; reflexivity)). cbn [eof].
    change (Ascii.eqb "," "}") with false. change (negb (Ascii.eqb "," ",")) with false. cbn iota. cbn in L. rewrite IH by lia.
    unfold seq_push. rewrite !rev_app_distr. cbn [rev]. rewrite <- !app_assoc. reflexivity.
Qed.
(** ... and the loop from any good state, with enough fuel *)
Lemma loop_cases : forall f n b r ch v, (length r < f)%nat -> ch <> "}"%char ->
  match loop_of G f n (good b r) ch v with
  | Ok (s, v') => exists b0 zs u, r = b0 ++ "}"%char :: u /\ items T b0 zs /\ v' = v ++ zs /\ s = good ("}"%char :: rev b0 ++ b) u
  | Err => True
  | UB => False
  | Fuel => (ch = ","%char /\ no_item T r) \/ exists b0 zs r', r = b0 ++ ","%char :: r' /\ items T b0 zs /\ no_item T r'
  end.
Proof.
  induction f as [|f IH]; intros n b r ch v L C; [lia|]. cbn [loop_of bind].
  destruct (num_spec b r (gv n)) as (w & u & Er & W & [(t & z & u' & -> & It & Hd & E)|[(b' & r' & x & E)|(b' & r' & x & E & Bad)]]);
    rewrite E; clear E.
  - destruct u' as [|c0 u']; [rewrite get_char_eof; exact I|].
    destruct (sentry_spec (rev t ++ rev w ++ b) (c0 :: u')) as (w' & u2 & E2 & W' & [[-> S]|(c & u3 & -> & Nb & S)]).
    + unfold get_char. rewrite S. exact I.
    + rewrite E2, get_char_at by assumption. cbn [eof]. destruct (Ascii.eqb_spec c "}") as [-> |Nc].
      * exists (w ++ t ++ w'), [z], u3. split; [rewrite Er, E2, <- !app_assoc; reflexivity|]. split; [now constructor|].
        split; [reflexivity|]. rewrite !rev_app_distr, <- !app_assoc. reflexivity.
      * destruct (Ascii.eqb_spec c ",") as [-> |Nc2]; cbn [negb]; [|exact I].
        assert (L2 : (length u3 < f)%nat).
        { rewrite Er, E2, !app_length in L. cbn [length] in L. lia. }
        specialize (IH (Datatypes.S n) (","%char :: rev w' ++ rev t ++ rev w ++ b) u3 ","%char (seq_push v z) L2 ltac:(discriminate)).
        destruct (loop_of G f (Datatypes.S n) _ "," (seq_push v z)) as [[s v']| | |]; auto.
        -- destruct IH as (b0 & zs & u4 & -> & El & -> & ->). exists (w ++ t ++ w' ++ ","%char :: b0), (z :: zs), u4.
           split; [rewrite Er, E2, <- !app_assoc; reflexivity|]. split; [now constructor|].
           split; [unfold seq_push; now rewrite <- app_assoc|]. rewrite !rev_app_distr. cbn [rev]. rewrite <- !app_assoc. reflexivity.
        -- right. destruct IH as [[_ Bad]|(b0 & zs & r' & -> & El & Bad)].
           ++ exists (w ++ t ++ w'), [z], u3. split; [rewrite Er, E2, <- !app_assoc; reflexivity|]. split; [now constructor|assumption].
           ++ exists (w ++ t ++ w' ++ ","%char :: b0), (z :: zs), r'. split; [rewrite Er, E2, <- !app_assoc; reflexivity|].
              split; [now constructor|assumption].
  - rewrite get_char_failed. exact I.
  - rewrite get_char_failed. cbn [eof]. destruct (Ascii.eqb_spec ch "}") as [-> |_]; [congruence|].
    destruct (Ascii.eqb_spec ch ",") as [-> |Nc2]; cbn [negb]; [|exact I]. rewrite loop_failed. auto.
Qed.
Lemma loop_diverges b0 zs : items T b0 zs -> forall r, no_item T r -> forall f n b ch v,
  loop_of G f n (good b (b0 ++ ","%char :: r)) ch v = Fuel.
Proof.
  induction 1 as [w t z w' W S W'|w t z w' r0 zs W S W' E IH]; intros r Bad [|f] n b ch v; cbn [loop_of bind]; try reflexivity.
  - assert (X : exists c x, w' ++ ","%char :: r = c :: x /\ is_digit c = false).
    { destruct W' as [|c w' C W']; [eexists _, _; split; reflexivity|]. eexists c, _. split; [reflexivity|].
      destruct (is_digit c) eqn:D; [|reflexivity]. apply digit_not_space in D. apply not_space in D. contradiction. }
    destruct X as (c & x & X & D). rewrite <- !app_assoc, X.
    rewrite (num_item b w t z c x (gv n) W S D). rewrite <- X, get_char_at by (assumption || (apply not_space; reflexivity)). cbn [eof].
    change (Ascii.eqb "," "}") with false. change (negb (Ascii.eqb "," ",")) with false. cbn iota.
    destruct f as [|f]; cbn [loop_of bind]; [reflexivity|]. destruct (num_bad (","%char :: rev w' ++ rev t ++ rev w ++ b) r (gv (Datatypes.S n)) Bad) as (b' & r' & x' & ->).
    rewrite get_char_failed. cbn [eof]. change (Ascii.eqb "," "}") with false. change (negb (Ascii.eqb "," ",")) with false. cbn iota.
    apply loop_failed.
  - assert (X : exists c x, w' ++ ","%char :: r0 ++ ","%char :: r = c :: x /\ is_digit c = false).
    { destruct W' as [|c w' C W']; [eexists _, _; split; reflexivity|]. eexists c, _. split; [reflexivity|].
      destruct (is_digit c) eqn:D; [|reflexivity]. apply digit_not_space in D. apply not_space in D. contradiction. }
    destruct X as (c & x & X & D). rewrite <- !app_assoc. cbn [app]. rewrite X.
    rewrite (num_item b w t z c x (gv n) W S D). rewrite <- X, get_char_at by (assumption || (apply not_space; reflexivity)). cbn [eof].
    change (Ascii.eqb "," "}") with false. change (negb (Ascii.eqb "," ",")) with false. cbn iota. now apply IH.
Qed.

Lemma items_head b0 zs : items T b0 zs -> exists w c t, b0 = w ++ c :: t /\ ws w /\ ~ blank c /\ c <> "}"%char.
Proof.
  assert (X : forall t y, item T t y -> exists c t', t = c :: t' /\ ~ blank c /\ c <> "}"%char).
  { intros t y (z & S & _). destruct (signed_shape t z S) as (c & t' & -> & Nb & Sh). exists c, t'. split; [reflexivity|]. split; [assumption|].
    intros ->. destruct Sh as [([? | ?] & _)|[? _]]; discriminate. }
  intros [w t z w' W It W'|w t z w' r zs' W It W' E]; destruct (X t z It) as (c & t' & -> & Nb & N); exists w, c; eexists; (split; [reflexivity|]); auto.
Qed.
Lemma read_start w u f b c t : ws w -> u = c :: t -> forall w2, ws w2 -> ~ blank c ->
  read_of G gc f (good b (w ++ "{"%char :: w2 ++ u)) =
  if Ascii.eqb c "}" then Ok (good ("}"%char :: rev w2 ++ "{"%char :: rev w ++ b) t, [])
  else loop_of G f 0 (good (rev w2 ++ "{"%char :: rev w ++ b) u) c [].
Proof.
  intros W -> w2 W2 Nb. unfold read_of. rewrite get_char_at by (assumption || now apply not_space).
  change (negb (Ascii.eqb "{" "{")) with false. cbn iota. rewrite get_char_at by assumption.
  destruct (Ascii.eqb_spec c "}") as [-> |N]; cbn [negb]; reflexivity.
Qed.
Lemma loop_ws w2 b r f n ch v : ws w2 -> loop_of G f n (good b (w2 ++ r)) ch v = loop_of G f n (good (rev w2 ++ b) r) ch v.
Proof.
  intros W. destruct f as [|f]; [reflexivity|]. cbn [loop_of bind].
  assert (E : get_num2 T (good b (w2 ++ r)) (gv n) = get_num2 T (good (rev w2 ++ b) r) (gv n)); [|now rewrite E].
  unfold get_num2. assert (E : sentry (good b (w2 ++ r)) = sentry (good (rev w2 ++ b) r)); [|now rewrite E].
  unfold sentry. cbn [eof fail orb rest]. assert (E : skip is_space (good b (w2 ++ r)) (w2 ++ r) = skip is_space (good (rev w2 ++ b) r) r); [|now rewrite E].
  clear -W. revert b. induction W as [|c w2 C W IH]; intros b; [reflexivity|]. cbn [app skip before]. apply is_space_spec in C. rewrite C.
  rewrite IH. cbn [rev]. now rewrite <- app_assoc.
Qed.
Lemma read_text t v u b f : vector_of T t v -> (length v <= f)%nat ->
  read_of G gc f (good b (t ++ u)) = Ok (good (rev t ++ b) u, v).
Proof.
  intros (w & b0 & W & -> & [[Wb ->]|El]) L.
  - rewrite <- !app_assoc. cbn [app]. rewrite <- app_assoc. cbn [app].
    rewrite (read_start w ("}"%char :: u) f b "}"%char u W eq_refl b0 Wb) by now apply not_space.
    cbn. rewrite !rev_app_distr. cbn [rev]. rewrite rev_app_distr. cbn. rewrite <- !app_assoc. reflexivity.
  - destruct (items_head b0 v El) as (w2 & c & t & E & W2 & Nb & Nc).
    rewrite <- !app_assoc. cbn [app]. rewrite <- app_assoc. cbn [app]. rewrite E at 1. rewrite <- app_assoc. cbn [app].
    rewrite (read_start w _ f b c _ W eq_refl w2 W2 Nb). destruct (Ascii.eqb_spec c "}") as [-> |_]; [congruence|].
    rewrite <- loop_ws by assumption. change (w2 ++ c :: t ++ "}"%char :: u) with (w2 ++ (c :: t) ++ "}"%char :: u). rewrite app_assoc, <- E.
    rewrite (loop_items b0 v El) by assumption. cbn [app]. rewrite !rev_app_distr. cbn [rev]. rewrite rev_app_distr. cbn. rewrite <- !app_assoc. reflexivity.
Qed.
Lemma read_diverges w b0 zs r b f : ws w -> items T b0 zs -> no_item T r ->
  read_of G gc f (good b (w ++ "{"%char :: b0 ++ ","%char :: r)) = Fuel.
Proof.
  intros W El Bad. destruct (items_head b0 zs El) as (w2 & c & t & E & W2 & Nb & Nc).
  rewrite E at 1. rewrite <- app_assoc. cbn [app].
  rewrite (read_start w _ f b c _ W eq_refl w2 W2 Nb). destruct (Ascii.eqb_spec c "}") as [-> |_]; [congruence|].
  rewrite <- loop_ws by assumption. change (w2 ++ c :: t ++ ","%char :: r) with (w2 ++ (c :: t) ++ ","%char :: r). rewrite app_assoc, <- E.
  now apply (loop_diverges b0 zs).
Qed.
Lemma items_ws w b0 zs : ws w -> items T b0 zs -> items T (w ++ b0) zs.
Proof.
  intros W [w1 t z w' W1 It W'|w1 t z w' r zs' W1 It W' E]; rewrite app_assoc; constructor; auto; now apply Forall_app.
Qed.
Lemma read_cases b r f : (length r < f)%nat ->
  match read_of G gc f (good b r) with
  | Ok (s, v) => exists t u, r = t ++ u /\ vector_of T t v /\ s = good (rev t ++ b) u
  | Err => True
  | UB => False
  | Fuel => hangs T r
  end.
Proof.
  intros L. destruct (sentry_spec b r) as (w & u & Er & W & [[-> S]|(c & t & -> & Nb & S)]).
  - unfold read_of, get_char at 1. rewrite S. destruct (negb (Ascii.eqb gc "{")) eqn:N; [exact I|]. 
    rewrite get_char_eof. apply negb_false_iff, Ascii.eqb_eq in N. subst gc. cbn.
    destruct f as [|f]; [lia|]. cbn. exact I.
  - subst r. unfold read_of. rewrite get_char_at by assumption. destruct (Ascii.eqb_spec c "{") as [-> |N]; cbn [negb]; [|exact I].
    destruct (sentry_spec ("{"%char :: rev w ++ b) t) as (w2 & u & Et & W2 & [[-> S2]|(c & t2 & -> & Nb2 & S2)]).
    + unfold get_char at 1. rewrite S2. change (negb (Ascii.eqb "{" "}")) with true. cbn iota. destruct f as [|f]; [lia|]. cbn. exact I.
    + subst t. rewrite get_char_at by assumption. destruct (Ascii.eqb_spec c "}") as [-> |N]; cbn [negb].
      * exists (w ++ "{"%char :: w2 ++ ["}"%char]), t2. split; [rewrite <- app_assoc; cbn [app]; now rewrite <- app_assoc|]. split.
        -- exists w, w2. auto.
        -- rewrite rev_app_distr. cbn [rev]. rewrite rev_app_distr. cbn. now rewrite <- !app_assoc.
      * cbn [unget fail before rest]. unfold unget. cbn [fail before rest].
        assert (L2 : (length (c :: t2) < f)%nat) by (rewrite app_length in L; cbn [length] in L; rewrite app_length in L; lia).
        pose proof (loop_cases f 0 (rev w2 ++ "{"%char :: rev w ++ b) (c :: t2) c [] L2 N) as H.
        destruct (loop_of G f 0 _ c []) as [[s v]| | |]; auto.
        -- destruct H as (b0 & zs & u & E & El & -> & ->). rewrite E. exists (w ++ "{"%char :: (w2 ++ b0) ++ ["}"%char]), u.
           split; [rewrite <- !app_assoc; cbn [app]; now rewrite <- !app_assoc|]. split.
           ++ exists w, (w2 ++ b0). split; [assumption|]. split; [reflexivity|]. right. now apply items_ws.
           ++ rewrite rev_app_distr. cbn [rev]. rewrite !rev_app_distr. cbn. now rewrite <- !app_assoc.
        -- destruct H as [[-> Bad]|(b0 & zs & r' & E & El & Bad)].
           ++ exists w, w2, t2. auto.
           ++ rewrite E. exists w, (w2 ++ b0), r'. split; [now rewrite <- !app_assoc|]. split; [assumption|].
              right. split; [|assumption]. exists zs. now apply items_ws.
Qed.
Lemma read_hangs r b f : hangs T r -> read_of G gc f (good b r) = Fuel.
Proof.
  intros (w & b0 & r' & -> & W & [Wb|[[zs El] Bad]]); [|now apply (read_diverges w b0 zs)].
  rewrite (read_start w _ f b ","%char r' W eq_refl b0 Wb) by now apply not_space. change (Ascii.eqb "," "}") with false. cbn iota.
  destruct f as [|f]; [reflexivity|]. cbn [loop_of bind].
  destruct (num_bad (rev b0 ++ "{"%char :: rev w ++ b) (","%char :: r') (gv 0)) as (b' & r2 & x & ->).
  { exists [], [], ","%char, r'. split; [reflexivity|]. split; [constructor|]. split; [reflexivity|]. left.
    split; [reflexivity|]. split; [now apply not_space|]. split; discriminate. }
  rewrite get_char_failed. cbn [eof]. change (Ascii.eqb "," "}") with false. change (negb (Ascii.eqb "," ",")) with false. cbn iota.
  apply loop_failed.
Qed.
End Type_.

(** *** the operators of the model *)
Section Model.
Context (T : ty) (gv : nat -> Z) (gc : ascii) (W16 : bits T <> 8).
Notation G := (fun n s => Ok (get_num2 T s (gv n))).
Lemma loop_ext {A} (g h : nat -> stream -> outcome (stream * A)) : (forall n s, g n s = h n s) -> forall f n s ch v, loop_of g f n s ch v = loop_of h f n s ch v.
Proof.
  intros E. induction f as [|f IH]; intros n s ch v; cbn [loop_of]; [reflexivity|]. rewrite E. destruct (h n s) as [[s1 x]| | |]; try reflexivity. cbn [bind].
  destruct (get_char s1 ch) as [s2 c]. destruct (eof s2); [reflexivity|]. destruct (Ascii.eqb c "}"); [reflexivity|]. destruct (negb (Ascii.eqb c ",")); [reflexivity|]. apply IH.
Qed.
Lemma read_ext {A} (g h : nat -> stream -> outcome (stream * A)) f s : (forall n s, g n s = h n s) -> read_of g gc f s = read_of h gc f s.
Proof.
  intros E. unfold read_of. destruct (get_char s gc) as [s1 c]. destruct (negb (Ascii.eqb c "{")); [reflexivity|]. destruct (get_char s1 c) as [s2 c2].
  destruct (negb (Ascii.eqb c2 "}")); [|reflexivity]. now apply loop_ext.
Qed.
Lemma integer2 s g : get_integer T s g = get_num2 T s g.
Proof. unfold get_integer. destruct (Z.eqb_spec (bits T) 8); [contradiction|]. apply num2. Qed.
Lemma read_integers2 f s : read_integers T gv gc f s = read_of G gc f s.
Proof. unfold read_integers. apply read_ext. intros n s'. now rewrite integer2. Qed.
Lemma loop_more {A} (g : nat -> stream -> outcome (stream * A)) : forall f f' n s ch v x, loop_of g f n s ch v = Ok x -> (f <= f')%nat -> loop_of g f' n s ch v = Ok x.
Proof.
  induction f as [|f IH]; intros [|f'] n s ch v x H L; cbn [loop_of] in *; try discriminate; try lia.
  destruct (g n s) as [[s1 z]| | |]; try discriminate. cbn [bind] in *. destruct (get_char s1 ch) as [s2 c]. destruct (eof s2); [discriminate|].
  destruct (Ascii.eqb c "}"); [assumption|]. destruct (negb (Ascii.eqb c ",")); [discriminate|]. apply (IH f'); [assumption|lia].
Qed.
Lemma read_more {A} (g : nat -> stream -> outcome (stream * A)) f f' s x : read_of g gc f s = Ok x -> (f <= f')%nat -> read_of g gc f' s = Ok x.
Proof.
  unfold read_of. intros H L. destruct (get_char s gc) as [s1 c1]. destruct (negb (Ascii.eqb c1 "{")); [discriminate|].
  destruct (get_char s1 c1) as [s2 c2]. destruct (negb (Ascii.eqb c2 "}")); [|assumption]. now apply (loop_more g f).
Qed.
Lemma exact r v u : (exists f b, read_integers T gv gc f (good [] r) = Ok (good b u, v)) <-> (exists x, r = x ++ u /\ vector_of T x v).
Proof.
  split.
  - intros (f & b & H). rewrite read_integers2 in H. apply (read_more _ f (f + S (length r))) in H; [|lia].
    pose proof (read_cases T gv gc [] r (f + S (length r)) ltac:(lia)) as C. rewrite H in C.
    destruct C as (t & u' & -> & V & E). injection E as -> ->. eauto.
  - intros (t & -> & V). exists (length v), (rev t ++ []). rewrite read_integers2. now apply read_text.
Qed.
Lemma diverges r : (forall f, read_integers T gv gc f (good [] r) = Fuel) <-> hangs T r.
Proof.
  split.
  - intros H. pose proof (read_cases T gv gc [] r (S (length r)) ltac:(lia)) as C. specialize (H (S (length r))). rewrite read_integers2 in H. now rewrite H in C.
  - intros S f. rewrite read_integers2. now apply read_hangs.
Qed.
Lemma value_item z : value_of T z -> item T (to_string_Z z) z.
Proof.
  intros V. exists z. split; [apply numeral_signed, to_string_Z_numeral|]. split; [now left|]. unfold becomes, value_of in *.
  destruct (sgn T), (Z.ltb_spec z 0); lia.
Qed.
Lemma joined_items v : v <> [] -> Forall (value_of T) v -> items T (joined (map to_string_Z v)) v.
Proof.
  intros NE F. induction F as [|z v Z F IH]; [congruence|]. pose proof (value_item z Z) as It.
  destruct v as [|z' v].
  - change (items T ([] ++ to_string_Z z) [z]). rewrite <- (app_nil_r (to_string_Z z)). constructor; [constructor|assumption|constructor].
  - change (joined (map to_string_Z (z :: z' :: v))) with ([] ++ to_string_Z z ++ [] ++ ","%char :: ([" "%char] ++ joined (map to_string_Z (z' :: v)))).
    constructor; [constructor|assumption|constructor|]. apply items_ws; [|apply IH; discriminate]. repeat constructor.
Qed.
Lemma print_vector_of v : Forall (value_of T) v -> vector_of T (str "{" ++ joined (map to_string_Z v) ++ str "}") v.
Proof.
  intros F. exists [], (joined (map to_string_Z v)). split; [constructor|]. split; [reflexivity|].
  destruct v as [|z v]; [left; split; [constructor|reflexivity]|]. right. apply joined_items; [discriminate|assumption].
Qed.
Lemma print_num v : Z.of_nat (length v) < 2 ^ 31 -> print_integers T v = Ok (str "{" ++ joined (map to_string_Z v) ++ str "}").
Proof.
  intros L. unfold print_integers. rewrite <- (print_of_spec (fun z => Ok (to_string_Z z)) to_string_Z v L) by reflexivity.
  unfold show_integer. destruct (Z.eqb_spec (bits T) 8); [contradiction|reflexivity].
Qed.
(** stringCast *)
Definition castv (t : ty) (z : Z) : Z := if acc t z then becomes t z else over t z.
Lemma castv_spec z y : cast_value T z y <-> y = castv T z.
Proof.
  unfold cast_value, castv. rewrite <- acc_spec. assert (O : over T z = if sgn T && (z <? 0) then - 2 ^ (bits T - 1) else if sgn T then 2 ^ (bits T - 1) - 1 else 2 ^ bits T - 1).
  { unfold over, tmin, tmax. destruct (sgn T); reflexivity. }
  rewrite <- O. destruct (acc T z); intuition congruence.
Qed.
Lemma castv_zero : castv T 0 = 0.
Proof.
  unfold castv. assert (A : acc T 0 = true); [|rewrite A; reflexivity]. apply acc_spec. left. unfold value_of. destruct (pow_bits T) as [E P]. rewrite E. destruct (sgn T); lia.
Qed.
Lemma num_read g w c r : ws w -> ~ blank c -> snd (get_num2 T (good [] (w ++ c :: r)) g) = castv T (num (CastModel.split_number (c :: r))).
Proof.
  intros W B. unfold get_num2. rewrite sentry_at by assumption. cbn [negb rest before eof fail]. unfold CastModel.split_number, num.
  assert (Gn : forall (neg : bool) (s1 s s3 : stream) (ds : bytes), snd (match ds with [] => (s1, 0) | _ :: _ => if acc T (if neg then - dec_value ds else dec_value ds) then (s, becomes T (if neg then - dec_value ds else dec_value ds)) else (s3, over T (if neg then - dec_value ds else dec_value ds)) end)
    = castv T (if neg then - dec_value ds else dec_value ds)).
  { intros neg s1 s s3 ds. destruct ds as [|x ds]; [destruct neg; symmetry; apply castv_zero|]. unfold castv. now destruct (acc T _). }
  destruct (byteZ c =? 45) eqn:Q1; [|destruct (byteZ c =? 43) eqn:Q2]; cbn [orb].
  - rewrite orb_true_r. cbn [rest before eof fail fst snd]. rewrite Q1. exact (Gn true _ _ _ (span r)).
  - cbn [rest before eof fail fst snd]. rewrite Q1. exact (Gn false _ _ _ (span r)).
  - cbn [rest before eof fail fst snd]. change (43 =? 45) with false. exact (Gn false _ _ _ (span (c :: r))).
Qed.
Lemma cast_num_at g w c r : ws w -> ~ blank c -> cast_integer T g (w ++ c :: r) = Ok (castv T (num (CastModel.split_number (c :: r)))).
Proof. intros W B. unfold cast_integer. rewrite sentry_at by assumption. cbn [snd]. now rewrite integer2, num_read. Qed.
Lemma cast_num_blank g w : ws w -> cast_integer T g w = UB.
Proof.
  intros W. unfold cast_integer. destruct (sentry_spec [] w) as (w' & u & E & W' & [[-> S]|(c & t & -> & N & S)]).
  - now rewrite S.
  - exfalso. subst w. unfold ws in W. rewrite Forall_app in W. destruct W as [_ W]. inversion W; subst. contradiction.
Qed.
Lemma casts_cast g x o : casts T x o -> cast_integer T g x = o.
Proof.
  intros [w t z u y W S N V|w u W U B N|w W].
  - destruct (signed_cons t z S) as (c & t' & -> & C). cbn [app]. rewrite cast_num_at by assumption. change (c :: t' ++ u) with ((c :: t') ++ u).
    destruct (split_signed _ _ u S N) as [<- _]. apply castv_spec in V. now subst.
  - destruct u as [|c r]; [congruence|]. rewrite cast_num_at by (try assumption; now apply (B c r)). unfold num. rewrite (split_none _ N).
    assert (E : (if fst (CastModel.split_number (c :: r)) then - dec_value [] else dec_value []) = 0) by (destruct (fst _); reflexivity). now rewrite E, castv_zero.
  - now apply cast_num_blank.
Qed.
Lemma casts_total x : exists o, casts T x o.
Proof.
  destruct (skip_spec is_space x (good [] x) eq_refl) as (w & u & -> & F & Hu & _). apply ws_spec in F.
  destruct u as [|c r].
  - rewrite app_nil_r. exists UB. now constructor.
  - assert (B : ~ blank c). { destruct Hu as [Hu|(c' & y & Hu & P)]; [discriminate|]. injection Hu as -> ->. now apply not_space. }
    destruct (number_cases (c :: r)) as [(t & z & v & -> & S & N)|N]; [discriminate| |].
    + eexists. apply (casts_number T w t z v (castv T z)); auto. now apply castv_spec.
    + exists (Ok 0). constructor; auto; [discriminate|]. intros c' r' H. injection H as <- <-. exact B.
Qed.
Lemma cast_casts g x o : cast_integer T g x = o <-> casts T x o.
Proof. split; [|apply casts_cast]. intros <-. destruct (casts_total x) as [o' H]. rewrite (casts_cast g x o' H). exact H. Qed.
End Model.

(** *** the types of 8 bits *)
Section Bytes.
Context (T : ty) (gv : nat -> Z) (gc : ascii) (W8 : bits T = 8).
Notation k := (fun c => conv T (byteZ c)).
Notation h := (fun n => char_of (gv n)).
Lemma byteZ_range c : 0 <= byteZ c < 256.
Proof. destruct c as [[] [] [] [] [] [] [] []]; vm_compute; split; congruence. Qed.
Lemma char_byteZ c : char_of (byteZ c) = c.
Proof. destruct c as [[] [] [] [] [] [] [] []]; vm_compute; reflexivity. Qed.
Lemma char_of_mod a b : a mod 256 = b mod 256 -> char_of a = char_of b.
Proof. unfold char_of. now intros ->. Qed.
Lemma conv8_mod z : (conv T z) mod 256 = z mod 256.
Proof.
  unfold conv. rewrite W8. change (2 ^ 8) with 256. rewrite Zplus_mod, Zmod_mod, <- Zplus_mod. f_equal. lia.
Qed.
Lemma conv8_value z : value_of T (conv T z).
Proof.
  unfold value_of, conv, tmin. rewrite W8. change (2 ^ 8) with 256. change (2 ^ (8 - 1)) with 128.
  destruct (sgn T); match goal with |- context[?a mod 256] => pose proof (Z.mod_pos_bound a 256 ltac:(lia)) end; lia.
Qed.
Lemma char_k c : char_of (k c) = c.
Proof. rewrite <- (char_byteZ c) at 2. apply char_of_mod, conv8_mod. Qed.
Lemma byteZ_char z : byteZ (char_of z) = z mod 256.
Proof.
  unfold byteZ, char_of. pose proof (Z.mod_pos_bound z 256 ltac:(lia)). rewrite N_ascii_embedding by lia. lia.
Qed.
Lemma k_char z : value_of T z -> k (char_of z) = z.
Proof.
  intros V. cbv beta. rewrite byteZ_char. unfold conv, value_of, tmin in *. rewrite W8 in *. change (2 ^ 8) with 256 in *. change (2 ^ (8 - 1)) with 128 in *.
  destruct (sgn T); rewrite Zminus_mod_idemp_l, Z.mod_small; lia.
Qed.
Lemma byte_read s g : get_integer T s g = let (s', c) := get_char s (char_of g) in (s', k c).
Proof. unfold get_integer. rewrite W8. reflexivity. Qed.
Definition keep (x : stream * list ascii) : stream * list Z := (fst x, map k (snd x)).
Lemma byte_loop : forall f n s ch v,
  loop_of (fun n s => Ok (get_integer T s (gv n))) f n s ch (map k v) = omap keep (loop_of (fun n s => Ok (get_char s (h n))) f n s ch v).
Proof.
  induction f as [|f IH]; intros n s ch v; cbn [loop_of bind]; [reflexivity|]. rewrite byte_read. destruct (get_char s (h n)) as [s1 x].
  assert (E : seq_push (map k v) (k x) = map k (seq_push v x)) by (unfold seq_push; now rewrite map_app). rewrite E.
  destruct (get_char s1 ch) as [s2 c]. destruct (eof s2); [reflexivity|]. destruct (Ascii.eqb c "}"); [reflexivity|]. destruct (negb (Ascii.eqb c ",")); [reflexivity|]. apply IH.
Qed.
Lemma bytes_read f s n : read_integers T gv gc f s = omap keep (VecAnyModel.get gv h gc f (EVec EChar) n s).
Proof.
  unfold read_integers. cbn [VecAnyModel.get]. unfold read_of. destruct (get_char s gc) as [s1 c]. destruct (negb (Ascii.eqb c "{")); [reflexivity|].
  destruct (get_char s1 c) as [s2 c2]. destruct (negb (Ascii.eqb c2 "}")); [|reflexivity]. exact (byte_loop f 0 (unget s2) c2 []).
Qed.
Lemma map_k_char v : Forall (value_of T) v -> map k (map char_of v) = v.
Proof. intros F. induction F as [|z v V F IH]; [reflexivity|]. cbn [map]. now rewrite IH, k_char. Qed.
Lemma map_char_k v : map char_of (map k v) = v.
Proof. induction v as [|c v IH]; [reflexivity|]. cbn [map]. now rewrite IH, char_k. Qed.
Lemma print_bytes v : Z.of_nat (length v) < 2 ^ 31 -> print_integers T v = Ok (text (EVec EChar) (map char_of v)).
Proof.
  intros L. unfold print_integers. rewrite (print_of_spec _ (fun z => [char_of z]) v L).
  - cbn [text]. now rewrite map_map.
  - intros z _. unfold show_integer. now rewrite W8.
Qed.
Lemma cast_byte_at g w c u : ws w -> ~ blank c -> cast_integer T g (w ++ c :: u) = Ok (k c).
Proof. intros W B. unfold cast_integer. rewrite sentry_at by assumption. cbn [snd]. rewrite byte_read, get_char_at by assumption. reflexivity. Qed.
Lemma cast_byte_blank g w : ws w -> cast_integer T g w = UB.
Proof.
  intros W. unfold cast_integer. destruct (sentry_spec [] w) as (w' & u & E & W' & [[-> S]|(c & t & -> & N & S)]).
  - now rewrite S.
  - exfalso. subst w. unfold ws in W. rewrite Forall_app in W. destruct W as [_ W]. inversion W; subst. contradiction.
Qed.
End Bytes.
