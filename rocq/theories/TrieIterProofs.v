(** Iteration over a trie. *)
From Verif Require Import Base TrieModel TrieSpec TrieProofs TrieOpsProofs TrieMoveProofs TrieSetProofs.
From Coq Require Import Sorting.Sorted Sorting.Permutation.
Local Open Scope Z_scope.

Section Iter.
Context {AL : Alphabet} (mi : Z -> ascii) (mi_ok : forall c, letter c -> mi (code c) = c).
Notation HAS t h := (has (Bt t) (Ct t) (Tt t) h).
Notation PATH t := (path (Bt t) (Ct t)).

Lemma letter_code c : letter c -> 2 <= code c <= 27.
Proof.
  intros [A N]. pose proof (code_range c A). assert (code c <> 1); [|lia].
  intros E. apply N. apply code_inj; [assumption|apply alpha_end|]. now rewrite code_end.
Qed.

(** the iterator rests on a stored word *)
Definition At (t : trie) (n : Z) (buffer : list Z) : Prop :=
  exists w ch b, PATH t n w /\ Forall letter w /\ 0 <= Bt t n /\ alpha ch /\ Ct t (Bt t n + code ch) = n /\
    buffer = b :: code ch :: rev (map code w) /\
    (ch = endChar /\ b = -1 \/ ch <> endChar /\ b = Bt t (Bt t n + code ch) /\ b < -1 /\ term (Tt t (- b - 2))).

Lemma visit_sound t : Good t (-1) -> forall fuel n o w, PATH t n w -> Forall letter w -> 0 <= Bt t n -> 1 <= o ->
  match visit fuel t n o (rev (map code w)) with
  | Ok (true, n', o', b') => At t n' b' /\ 1 <= o'
  | Ok (false, _, _, _) | Fuel => True
  | _ => False
  end.
Proof.
  intros G. pose proof (g_inv _ _ G) as I. induction fuel as [|fu IH]; intros n o w P W B O; [exact Logic.I|]. cbn [visit].
  pose proof (path_nonneg I _ _ P) as Pn.
  destruct (Z.ltb_spec o 28) as [L|L].
  - rewrite igetc_at by assumption. cbn [bind]. fold (Bt t n). rewrite igetc_at by lia. cbn [bind]. fold (Ct t (Bt t n + o)).
    destruct (Z.eqb_spec (Ct t (Bt t n + o)) n) as [E|E]; cbn [negb]; [|apply IH; auto; lia].
    assert (LV : Ct t (Bt t n + o) <> -1) by lia.
    destruct (i_par _ _ _ _ _ _ I _ LV) as (_ & _ & _ & ch & A & X). rewrite E in X. assert (o = code ch) by lia. subst o.
    destruct (Z.eqb_spec (code ch) 1) as [Q|Q].
    + assert (ch = endChar) as -> by (apply code_inj; [assumption|apply alpha_end|now rewrite code_end]).
      split; [|lia]. exists w, endChar, (-1). repeat split; auto.
    + assert (NE : ch <> endChar) by (intros ->; apply Q, code_end).
      rewrite igetc_at by lia. cbn [bind]. fold (Bt t (Bt t n + code ch)).
      destruct (i_kind _ _ _ _ _ _ I _ ch LV ltac:(lia) A) as [_ K]; [now rewrite E|]. specialize (K NE).
      destruct (Z.ltb_spec (Bt t (Bt t n + code ch)) (-1)) as [K1|K1].
      * destruct K as [K|[_ K]]; [lia|]. split; [|lia]. exists w, ch, (Bt t (Bt t n + code ch)). repeat (split; auto).
      * destruct K as [K|[K _]]; [|lia].
        replace (code ch :: rev (map code w)) with (rev (map code (w ++ [ch]))) by (rewrite map_app, rev_app_distr; reflexivity).
        apply IH; [now apply (child_path t n w ch)| |assumption|lia].
        apply Forall_app. split; [assumption|]. constructor; [split; assumption|constructor].
  - destruct w as [|c1 w _] using rev_ind; [exact Logic.I|]. rewrite map_app, rev_app_distr. cbn [map rev app].
    destruct w as [|c2 w _] using rev_ind; [exact Logic.I|]. rewrite map_app, rev_app_distr. cbn [map rev app].
    rewrite igetc_at by assumption. cbn [bind]. fold (Ct t n).
    destruct (path_cases _ _ P) as [[_ Q]|(v & c & Q & PP & _)]; [destruct w; discriminate|].
    apply app_inj_tail in Q as [<- <-]. apply Forall_app in W as [W _].
    assert (BP : 0 <= Bt t (Ct t n)).
    { destruct (path_live I _ _ P) as [[_ Q]|LV]; [destruct w; discriminate|]. now apply (i_par _ _ _ _ _ _ I). }
    specialize (IH (Ct t n) (code c2 + 1) (w ++ [c2]) PP W BP). rewrite map_app, rev_app_distr in IH. apply IH.
    apply Forall_app in W as [_ W]. inversion W as [|? ? W1 _]; subst. pose proof (letter_code c2 W1). lia.
Qed.

Lemma deref_letters t w l : Forall letter w -> deref_loop mi t (map code w ++ l) = (r <- deref_loop mi t l ;; Ok (w ++ r)).
Proof.
  induction w as [|c w IH]; intros W.
  - cbn [map app]. now destruct (deref_loop mi t l).
  - inversion W as [|? ? W1 W2]; subst. pose proof (letter_code c W1). cbn [map app deref_loop].
    replace (code c =? 1) with false by lia. replace (code c <? 0) with false by lia. rewrite IH by assumption.
    destruct (deref_loop mi t l); cbn [bind]; try reflexivity. now rewrite mi_ok.
Qed.
Lemma term_last s : term s -> exists r, s = r ++ [endChar] /\ Forall letter r.
Proof. induction 1 as [|c s L T (r & -> & H)]; [exists []; auto|exists (c :: r)]. split; [reflexivity|now constructor]. Qed.
Lemma deref_at t n o b e : Good t (-1) -> At t n b -> exists w, it_deref mi t (Iter n o b e) = Ok w /\ Forall letter w /\ HAS t (-1) (w ++ [endChar]).
Proof.
  intros G (w & ch & b0 & P & W & B & A & E & -> & K). pose proof (path_nonneg (g_inv _ _ G) _ _ P). 
  assert (L : Ct t (Bt t n + code ch) <> -1) by lia. pose proof (code_range ch A) as CR.
  unfold it_deref. cbn [it_buffer rev]. rewrite rev_involutive, <- app_assoc. cbn [app]. rewrite deref_letters by assumption.
  pose proof (child_path t n w ch P A E) as PX.
  destruct K as [[-> ->]|(NE & -> & K & TM)]; cbn [deref_loop].
  - rewrite code_end. cbn. exists (w ++ []). split; [reflexivity|]. rewrite app_nil_r. split; [assumption|].
    destruct (i_kind _ _ _ _ _ _ (g_inv _ _ G) _ endChar L ltac:(lia) A) as [KE _]; [now rewrite E|]. specialize (KE eq_refl).
    exists (Bt t n + code endChar), (w ++ [endChar]), []. rewrite app_nil_r. repeat split; auto; [lia|].
    destruct KE as [KE|[KE KT]]; [now left|right]. now rewrite KT.
  - assert (LE : letter ch) by (split; assumption). pose proof (letter_code ch LE).
    replace (code ch =? 1) with false by lia. replace (code ch <? 0) with false by lia.
    destruct (Z.eqb_spec (Bt t (Bt t n + code ch)) 1); [lia|]. destruct (Z.ltb_spec (Bt t (Bt t n + code ch)) 0); [|lia].
    pose proof (g_tail _ _ G _ L ltac:(lia) K) as GT. rewrite tget_at by lia. cbn [bind].
    fold (Tt t (- Bt t (Bt t n + code ch) - 2)). destruct (term_last _ TM) as (r & Er & Wr). rewrite Er.
    exists (w ++ ch :: r). split; [|split].
    + destruct (r ++ [endChar]) eqn:Q; [destruct r; discriminate|]. rewrite <- Q, removelast_last, mi_ok by assumption. reflexivity.
    + apply Forall_app. split; [assumption|]. now constructor.
    + exists (Bt t n + code ch), (w ++ [ch]), (r ++ [endChar]). rewrite <- !app_assoc. cbn [app]. repeat split; auto; lia.
Qed.

Lemma next_sound t fuel it : Good t (-1) -> (it_end it = true \/ At t (it_n it) (it_buffer it) /\ 1 <= it_offset it) ->
  match it_next fuel t it with
  | Ok it' => it_end it' = true \/ At t (it_n it') (it_buffer it') /\ 1 <= it_offset it'
  | Fuel => True
  | _ => False
  end.
Proof.
  intros G H. unfold it_next. destruct (it_end it) eqn:E; [now left|]. destruct H as [H|[(w & ch & b & P & W & B & A & E1 & EB & K) O]]; [discriminate|].
  rewrite EB. cbn [bind]. pose proof (visit_sound t G fuel (it_n it) (it_offset it) w P W B O) as V.
  destruct (visit _ _ _ _ _) as [[[[r n'] o'] b']| | |]; cbn [bind]; auto. destruct r; cbn [negb it_end it_n it_buffer it_offset]; auto.
Qed.
Lemma begin_sound t fuel : Good t (-1) ->
  match it_begin fuel t with
  | Ok it => it_end it = true \/ At t (it_n it) (it_buffer it) /\ 1 <= it_offset it
  | Fuel => True
  | _ => False
  end.
Proof.
  intros G. unfold it_begin, it_next. cbn [it_end it_buffer it_n it_offset bind].
  pose proof (visit_sound t G fuel 0 1 [] (path_root _ _) (Forall_nil _)) as V. cbn [map rev] in V.
  specialize (V (proj1 (proj2 (i_root _ _ _ _ _ _ (g_inv _ _ G)))) ltac:(lia)).
  destruct (visit _ _ _ _ _) as [[[[r n'] o'] b']| | |]; cbn [bind]; auto. destruct r; cbn [negb it_end it_n it_buffer it_offset]; auto.
Qed.
Lemma iterate_sound t fuel : Good t (-1) -> forall k it, (it_end it = true \/ At t (it_n it) (it_buffer it) /\ 1 <= it_offset it) ->
  match iterate k fuel mi t it with
  | Ok (l, _) => Forall (fun w => Forall letter w /\ HAS t (-1) (w ++ [endChar])) l
  | Fuel => True
  | _ => False
  end.
Proof.
  intros G. induction k as [|k IH]; intros it H; pose proof (next_sound t fuel it G H) as N; cbn [iterate]; destruct (it_end it) eqn:E; try (now constructor). destruct H as [H|[A O]]; [discriminate|].
  assert (D : exists w, it_deref mi t it = Ok w /\ Forall letter w /\ HAS t (-1) (w ++ [endChar])).
  { destruct it as [n o b e]. now apply deref_at. }
  destruct D as (w & -> & W & HW). cbn [bind].
  destruct (it_next fuel t it) as [it'| | |]; cbn [bind]; auto. specialize (IH it' N).
  destruct (iterate k fuel mi t it') as [[l e]| | |]; cbn [bind]; auto.
Qed.

(** ** Tries all of whose nodes hang at the root *)
Definition flat (t : trie) : Prop := forall x, Ct t x <> -1 -> Ct t x = 0 /\ Bt t x < 0.

Definition wordof (t : trie) (o : Z) : bytes := if o =? 1 then [] else mi o :: removelast (Tt t (- Bt t (Bt t 0 + o) - 2)).
Fixpoint words_from (t : trie) (k : nat) (o : Z) : list bytes :=
  match k with
  | O => []
  | S k => if Ct t (Bt t 0 + o) =? 0 then wordof t o :: words_from t k (o + 1) else words_from t k (o + 1)
  end.

Lemma visit_flat t : Good t (-1) -> flat t -> forall k o fuel, 1 <= o -> o + Z.of_nat k = 28 -> (k < fuel)%nat ->
  (words_from t k o = [] /\ visit fuel t 0 o [] = Ok (false, 0, 28, [])) \/
  exists o' b k', visit fuel t 0 o [] = Ok (true, 0, o' + 1, [b; o']) /\ o <= o' /\ o' + 1 + Z.of_nat k' = 28 /\
    words_from t k o = wordof t o' :: words_from t k' (o' + 1) /\ Ct t (Bt t 0 + o') = 0 /\
    (k' < k)%nat /\
    forall n oo e, it_deref mi t (Iter n oo [b; o'] e) = Ok (wordof t o').
Proof.
  intros G F. pose proof (g_inv _ _ G) as I. destruct (i_root _ _ _ _ _ _ I) as (C0 & B0 & _).
  induction k as [|k IH]; intros o fuel O K FU; (destruct fuel as [|fu]; [lia|]); cbn [visit words_from].
  - left. split; [reflexivity|]. destruct (Z.ltb_spec o 28); [lia|]. do 2 f_equal. f_equal. lia.
  - destruct (Z.ltb_spec o 28); [|lia]. rewrite igetc_at by lia. cbn [bind]. fold (Bt t 0).
    rewrite igetc_at by lia. cbn [bind]. fold (Ct t (Bt t 0 + o)).
    destruct (Z.eqb_spec (Ct t (Bt t 0 + o)) 0) as [E|E]; cbn [negb].
    2: { destruct (IH (o + 1) fu ltac:(lia) ltac:(lia) ltac:(lia)) as [H1|(o' & b & k' & H1 & H2 & H3 & H4 & H5 & H6 & H7)]; [now left|right].
         exists o', b, k'. repeat split; auto; lia. }
    right. assert (LV : Ct t (Bt t 0 + o) <> -1) by lia.
    destruct (Z.eqb_spec o 1) as [->|N].
    + exists 1, (-1), k. repeat split; auto; try lia.
    + rewrite igetc_at by lia. cbn [bind]. fold (Bt t (Bt t 0 + o)).
      destruct (i_par _ _ _ _ _ _ I _ LV) as (_ & _ & _ & ch & A & X). rewrite E in X. assert (o = code ch) by lia. subst o.
      assert (NE : ch <> endChar) by (intros ->; apply N, code_end).
      destruct (i_kind _ _ _ _ _ _ I _ ch LV ltac:(lia) A) as [_ KK]; [now rewrite E|]. specialize (KK NE).
      destruct (F _ LV) as [_ BF]. destruct KK as [KK|[KK TM]]; [lia|].
      destruct (Z.ltb_spec (Bt t (Bt t 0 + code ch)) (-1)); [|lia].
      exists (code ch), (Bt t (Bt t 0 + code ch)), k. repeat split; auto; try lia.
      intros n oo e. unfold it_deref, wordof. cbn [it_buffer rev app deref_loop].
      replace (code ch =? 1) with false by lia. replace (code ch <? 0) with false by lia.
      destruct (Z.eqb_spec (Bt t (Bt t 0 + code ch)) 1); [lia|]. destruct (Z.ltb_spec (Bt t (Bt t 0 + code ch)) 0); [|lia].
      pose proof (g_tail _ _ G _ LV ltac:(lia) KK) as GT. rewrite tget_at by lia. cbn [bind].
      fold (Tt t (- Bt t (Bt t 0 + code ch) - 2)). now destruct (Tt t _).
Qed.
Lemma iterate_flat t fuel : Good t (-1) -> flat t -> (28 < fuel)%nat -> forall k o it r, 1 <= o -> o + Z.of_nat k = 28 ->
  visit fuel t 0 o [] = r -> (r' <- r ;; (let '(a, n, o, b) := r' in Ok (Iter n o b (negb a)))) = Ok it ->
  iterate (length (words_from t k o)) fuel mi t it = Ok (words_from t k o, true).
Proof.
  intros G F FU k. induction k as [k IH] using (well_founded_induction lt_wf). intros o it r O K <- E.
  destruct (visit_flat t G F k o fuel O K ltac:(lia)) as [[-> V]|(o' & b & k' & V & H2 & H3 & -> & H5 & H6 & H7)]; rewrite V in E; cbn [bind negb] in E;
    injection E as <-; cbn [length iterate it_end]; [reflexivity|].
  rewrite H7. cbn [bind it_next it_end it_buffer it_n it_offset].
  destruct (visit_flat t G F k' (o' + 1) fuel ltac:(lia) H3 ltac:(lia)) as [[EW V']|(o2 & b2 & k2 & V' & Q)]; rewrite V'; cbn [bind negb].
  - rewrite EW. reflexivity.
  - rewrite (IH k' H6 (o' + 1) _ _ ltac:(lia) H3 V'); reflexivity.
Qed.

Lemma words_from_in t w : forall k o, In w (words_from t k o) <-> exists o', o <= o' < o + Z.of_nat k /\ Ct t (Bt t 0 + o') = 0 /\ w = wordof t o'.
Proof.
  induction k as [|k IH]; intros o; cbn [words_from].
  - split; [intros []|intros (o' & H & _); lia].
  - destruct (Z.eqb_spec (Ct t (Bt t 0 + o)) 0) as [E|E].
    + cbn [In]. rewrite IH. split.
      * intros [<-|(o' & H & Q)]; [exists o; repeat split; auto; lia|exists o'; split; [lia|assumption]].
      * intros (o' & H & Q1 & Q2). destruct (Z.eq_dec o' o) as [->|N]; [left; auto|right]. exists o'. repeat split; auto; lia.
    + rewrite IH. split.
      * intros (o' & H & Q). exists o'. split; [lia|assumption].
      * intros (o' & H & Q1 & Q2). destruct (Z.eq_dec o' o) as [->|N]; [contradiction|]. exists o'. repeat split; auto; lia.
Qed.
Lemma words_has t w : Good t (-1) -> flat t -> In w (words_from t 27 1) <-> HAS t (-1) (w ++ [endChar]).
Proof.
  intros G F. pose proof (g_inv _ _ G) as I. rewrite words_from_in. split.
  - intros (o & R & E & ->). assert (LV : Ct t (Bt t 0 + o) <> -1) by lia. pose proof (inv_pos I _ LV) as PO.
    destruct (i_par _ _ _ _ _ _ I _ LV) as (_ & _ & _ & ch & A & X). rewrite E in X. assert (o = code ch) by lia. subst o.
    destruct (i_kind _ _ _ _ _ _ I _ ch LV ltac:(lia) A) as [K1 K2]; [now rewrite E|]. destruct (F _ LV) as [_ BF].
    pose proof (child_path t 0 [] ch (path_root _ _) A E) as PX. cbn [app] in PX. unfold wordof.
    destruct (Z.eqb_spec (code ch) 1) as [Q|Q].
    + assert (ch = endChar) as -> by (apply code_inj; [assumption|apply alpha_end|now rewrite code_end]).
      exists (Bt t 0 + code endChar), [endChar], []. repeat split; auto; [lia|].
      destruct (K1 eq_refl) as [?|[? KT]]; [now left|right]. now rewrite KT.
    + assert (NE : ch <> endChar) by (intros ->; apply Q, code_end). destruct (K2 NE) as [?|[K TM]]; [lia|].
      rewrite mi_ok by (split; assumption). destruct (term_last _ TM) as (r & Er & _). 
      exists (Bt t 0 + code ch), [ch], (r ++ [endChar]). rewrite Er, removelast_last. repeat split; auto; lia.
  - intros (x & w1 & w2 & E & P & LV & _ & K). destruct (F x LV) as [EX BX]. pose proof (inv_pos I _ LV) as PO.
    destruct (path_cases _ _ P) as [[-> _]|(v & ch & -> & PV & A & X)]; [rewrite (proj1 (i_root _ _ _ _ _ _ I)) in LV; congruence|].
    rewrite EX in PV, X. pose proof (path_word I 0 _ PV [] (path_root _ _)). subst v. cbn [app] in E. exists (code ch). pose proof (code_range ch A).
    split; [lia|]. split; [now rewrite <- X|]. unfold wordof. rewrite <- X.
    destruct (i_kind _ _ _ _ _ _ I _ ch LV ltac:(lia) A) as [K1 K2]; [now rewrite EX|].
    destruct (Z.eqb_spec (code ch) 1) as [Q|Q].
    + assert (ch = endChar) as -> by (apply code_inj; [assumption|apply alpha_end|now rewrite code_end]).
      destruct w as [|c w]; [reflexivity|]. exfalso. cbn [app] in E. injection E as _ E.
      assert (w2 = []) by (destruct (K1 eq_refl) as [Q1|[Q1 Q2]], K as [[K ->]|[K ->]]; auto; lia). subst w2. destruct w; discriminate.
    + assert (NE : ch <> endChar) by (intros ->; apply Q, code_end). destruct (K2 NE) as [?|[KK TM]]; [lia|].
      destruct K as [[K _]|[_ ->]]; [lia|]. destruct (term_last _ TM) as (r & Er & _). rewrite Er in *. rewrite removelast_last.
      rewrite mi_ok by (split; assumption). apply (app_inj_tail w (ch :: r)) in E as [-> _]. reflexivity.
Qed.
Lemma words_sorted t f : Good t (-1) -> (forall ch, alpha ch -> f ch = Ok (code ch)) ->
  forall k o, 1 <= o -> StronglySorted (before f) (words_from t k o).
Proof.
  intros G FO. pose proof (g_inv _ _ G) as I. induction k as [|k IH]; intros o O; cbn [words_from]; [constructor|].
  destruct (Z.eqb_spec (Ct t (Bt t 0 + o)) 0) as [E|E]; [|apply IH; lia]. constructor; [apply IH; lia|].
  apply Forall_forall. intros w Hw. apply words_from_in in Hw as (o' & R & E' & ->). unfold wordof.
  replace (o' =? 1) with false by lia. destruct (Z.eqb_spec o 1) as [->|N]; [exact Logic.I|]. left.
  assert (M : forall a, 1 < a -> Ct t (Bt t 0 + a) = 0 -> f (mi a) = Ok a).
  { intros a Ha Ea. destruct (i_par _ _ _ _ _ _ I (Bt t 0 + a) ltac:(lia)) as (_ & _ & _ & ch & A & X). rewrite Ea in X.
    assert (a = code ch) by lia. subst a. rewrite mi_ok; [now apply FO|]. split; [assumption|]. intros ->. rewrite code_end in Ha. lia. }
  exists o, o'. rewrite !M by (auto; lia). repeat split; auto; lia.
Qed.
Lemma iterate_flat_all t f fuel : Good t (-1) -> flat t -> (forall ch, alpha ch -> f ch = Ok (code ch)) -> (28 < fuel)%nat ->
  exists it l, it_begin fuel t = Ok it /\ iterate (length l) fuel mi t it = Ok (l, true) /\ StronglySorted (before f) l /\
    forall w, In w l <-> HAS t (-1) (w ++ [endChar]).
Proof.
  intros G F FO FU.
  assert (V : exists it, it_begin fuel t = Ok it).
  { unfold it_begin, it_next. cbn [it_end it_buffer bind it_n it_offset].
    destruct (visit_flat t G F 27 1 fuel ltac:(lia) ltac:(lia) ltac:(lia)) as [[_ ->]|(o' & b & k' & -> & _)]; cbn [bind]; eauto. }
  destruct V as [it V]. exists it, (words_from t 27 1). split; [assumption|]. split; [|split; [apply words_sorted; auto; lia|]].
  - apply (iterate_flat t fuel G F FU 27 1 it (visit fuel t 0 1 [])); [lia|lia|reflexivity|].
    unfold it_begin, it_next in V. cbn [it_end it_buffer bind it_n it_offset] in V. exact V.
  - intros w. now apply words_has.
Qed.
End Iter.

(** ** Histories whose words differ in their first letter *)
Section Spread.
Context (f : ascii -> outcome Z) (sigma : ascii -> Prop) (AD : adapter f sigma).
#[local] Hint Extern 0 Alphabet => exact (a_alphabet f sigma AD) : typeclass_instances.
Notation REP := (Rep f sigma AD).

Lemma flat_insert t X w t' : REP t X -> flat t -> Forall sigma w -> (forall v, In v X -> first v = first w -> v = w) ->
  insert f f t w = Ok t' -> flat t'.
Proof.
  intros R F W FR. destruct (root_ok f sigma AD t X R) as [P0 B0]. pose proof (r_good _ _ _ _ _ R) as G. pose proof (g_inv _ _ G) as I.
  unfold insert. rewrite (contain_ok f sigma AD t X w R W). cbn [bind].
  destruct (memb w X) eqn:M; [intros [= <-]; exact F|]. apply memb_false in M.
  pose proof (term_word _ (sigma_letter f sigma AD _ W)) as TM.
  destruct (w ++ [endChar]) as [|ch rest] eqn:EW; [destruct w; discriminate|].
  pose proof (term_alpha _ _ TM) as A. pose proof (f_ok f sigma AD ch A) as FO. cbn [insert_loop]. rewrite FO. cbn [bind].
  rewrite (path_base t (-1) 0 [] G P0) by lia. cbn [bind]. pose proof (code_range ch A) as CR.
  rewrite igetc_at by lia. cbn [bind]. fold (Ct t (Bt t 0 + code ch)).
  assert (FREE : Ct t (Bt t 0 + code ch) = -1).
  { destruct (Z.eq_dec (Ct t (Bt t 0 + code ch)) (-1)) as [?|LV]; [assumption|exfalso].
    destruct (F _ LV) as [E BF]. pose proof (child_path t 0 [] ch P0 A E) as PX. cbn [app] in PX.
    assert (H : exists r, has (Bt t) (Ct t) (Tt t) (-1) (ch :: r)).
    { destruct (Z.eq_dec (Bt t (Bt t 0 + code ch)) (-1)) as [Q|Q].
      - exists []. exists (Bt t 0 + code ch), [ch], []. repeat split; auto; lia.
      - exists (Tt t (- Bt t (Bt t 0 + code ch) - 2)). eexists (Bt t 0 + code ch), [ch], _. repeat split; [assumption|assumption|lia|]. right. split; [lia|reflexivity]. }
    destruct H as [r H]. apply (r_has _ _ _ _ _ R) in H as (v & Iv & Ev). apply M. rewrite <- (FR v Iv); [assumption|].
    destruct v as [|a v], w as [|b w]; cbn [app first] in *; try reflexivity; injection Ev as E0 _; injection EW as E1 _; rewrite E0 in E1; try (rewrite E1; reflexivity); exfalso.
    - inversion W as [|? ? W1 _]. apply (proj1 (proj2 AD)); congruence.
    - pose proof (r_words _ _ _ _ _ R) as RW. eapply Forall_forall in RW; [|exact Iv]. inversion RW as [|? ? W1 _]. apply (proj1 (proj2 AD)); congruence. }
  rewrite FREE. cbn [Z.eqb]. change (-1 =? -1) with true. cbn iota.
  destruct (nextTail_ok t (-1) I) as (t0 & p & E & E1 & E2 & E3 & E4 & _ & F1 & _). unfold setTail. rewrite E.
  destruct (sett_spec t0 p rest) as (t1 & -> & T1 & T2 & T3 & _); [lia|]. cbn [bind].
  destruct (setb_spec t1 (Bt t 0 + code ch) (- p - 2)) as (t2 & -> & S1 & S2 & _); [lia|]. cbn [bind].
  destruct (setc_spec t2 (Bt t 0 + code ch) 0) as (t3 & -> & R1 & R2 & _); [lia|]. cbn [bind].
  intros [= <-] y. change (Ct (with_size t3 (size t3 + 1))) with (Ct t3). change (Bt (with_size t3 (size t3 + 1))) with (Bt t3).
  rewrite R1, (Bt_eq _ _ R2), S1, (Ct_eq _ _ S2), (Ct_eq _ _ T3), (Ct_eq _ _ E2), (Bt_eq _ _ T2), (Bt_eq _ _ E1).
  destruct (y =? Bt t 0 + code ch); [lia|]. apply F.
Qed.
Lemma flat_remove t X w t' : REP t X -> flat t -> Forall sigma w -> remove f t w = Ok t' -> flat t'.
Proof.
  intros R F W. destruct (root_ok f sigma AD t X R) as [P0 B0]. pose proof (r_good _ _ _ _ _ R) as G. unfold remove.
  pose proof (term_word _ (sigma_letter f sigma AD _ W)) as TM.
  destruct (remove_loop_ok f f (f_ok f sigma AD) (f_ok f sigma AD) t G (w ++ [endChar]) 0 [] P0 B0 TM) as [H1 H2]. cbn [app] in H1, H2.
  destruct (in_dec word_dec w X) as [I|I]; rewrite <- (rep_has f sigma AD t X w R) in I.
  - destruct (H1 I) as (t1 & -> & _ & _ & _ & K & _). cbn [bind]. intros [= <-] y L. change (Ct t1 y <> -1) in L.
    destruct (K y L) as [K1 K2]. change (Ct t1 y = 0 /\ Bt t1 y < 0). rewrite K1, K2. apply F. now rewrite <- K1.
  - destruct (H2 I) as [->| ->]; cbn [bind]; [|discriminate]. intros [= <-]. exact F.
Qed.

Lemma set_run_sub : forall ops X w, In w (set_run X ops) -> In w X \/ In (Insert w) ops.
Proof.
  induction ops as [|o ops IH]; intros X w H; [now left|]. cbn [set_run] in H. apply IH in H as [H|H]; [|right; now right].
  destruct o as [v|v|v]; cbn [set_step] in H.
  - destruct (memb v X); [now left|]. destruct H as [<-|H]; [right; now left|now left].
  - apply filter_In in H. left. tauto.
  - now left.
Qed.
Lemma flat_run : forall ops done t X r, REP t X -> flat t -> over sigma ops ->
  (forall v, In v X -> In (Insert v) done) -> spread (done ++ ops) -> run f t ops = Ok r -> flat (fst r).
Proof.
  induction ops as [|o ops IH]; intros done t X r R F W SUB SP E; cbn [run] in E; [injection E as <-; exact F|].
  inversion W as [|? ? W1 W2]; subst. 
  destruct (step_ok f sigma AD t X o R W1) as [(t1 & ES & R1)|[ES _]]; rewrite ES in E; cbn [bind] in E; [|discriminate].
  destruct (run f t1 ops) as [[t2 b]| | |] eqn:E2; cbn [bind] in E; try discriminate. injection E as <-.
  change (flat (fst (t2, b))). eapply (IH (done ++ [o]) t1); [exact R1| |assumption| |rewrite <- app_assoc; exact SP|exact E2].
  - destruct o as [w|w|w]; cbn [step op_word] in *.
    + destruct (insert f f t w) as [u| | |] eqn:EI; cbn [bind] in ES; try discriminate. injection ES as <-.
      apply (flat_insert t X w u R F W1); [|assumption]. intros v Iv Fv. apply SP; [apply in_or_app; left; now apply SUB|apply in_or_app; right; now left|assumption].
    + destruct (remove f t w) as [u| | |] eqn:EI; cbn [bind] in ES; try discriminate. injection ES as <-.
      now apply (flat_remove t X w u R F W1).
    + destruct (contain f t w) as [c| | |]; cbn [bind] in ES; try discriminate. now injection ES as <- _.
  - intros v Iv. apply in_or_app. destruct o as [w|w|w]; cbn [set_step] in Iv.
    + destruct (memb w X); [left; now apply SUB|]. destruct Iv as [<-|Iv]; [right; now left|left; now apply SUB].
    + apply filter_In in Iv. left. apply SUB. tauto.
    + left. now apply SUB.
Qed.
Lemma flat_client ops t a : over sigma ops -> spread ops -> client f ops = Ok (t, a) -> flat t.
Proof.
  intros W SP. unfold client. destruct (empty_rep f sigma AD) as (t0 & E0 & R0). pose proof E0 as E1. rewrite E0. cbn [bind]. intros E.
  apply (flat_run ops [] t0 [] (t, a) R0); [|assumption|intros v []|assumption|assumption].
  intros x L. exfalso. apply L. vm_compute in E1. injection E1 as <-. unfold Ct, at_. destruct (x <? 0); [reflexivity|]. cbn [check].
  exact (nth_repeat (-1) 26 _).
Qed.

Lemma spread_iterate mi fuel ops t a : (forall c k, sigma c -> f c = Ok k -> mi k = c) -> over sigma ops -> spread ops -> (28 < fuel)%nat ->
  client f ops = Ok (t, a) ->
  exists it l, it_begin fuel t = Ok it /\ iterate (length l) fuel mi t it = Ok (l, true) /\ StronglySorted (before f) l /\
    Permutation l (set_run [] ops).
Proof.
  intros MI W SP FU E. pose proof (flat_client ops t a W SP E) as F.
  destruct (client_ok f sigma AD ops W) as [(t1 & E1 & R)|[E1 _]]; rewrite E in E1; [|discriminate]. injection E1 as <- _.
  assert (MO : forall c, letter c -> mi (code c) = c).
  { intros c L. apply MI; [now apply (letter_sigma f sigma AD)|]. apply (f_ok f sigma AD). apply L. }
  destruct (iterate_flat_all mi MO t f fuel (r_good _ _ _ _ _ R) F (f_ok f sigma AD) FU) as (it & l & H1 & H2 & H3 & H4).
  exists it, l. repeat split; auto. apply NoDup_Permutation.
  - clear -H3. induction H3 as [|a l S IH FA]; constructor; [|assumption]. intros Hin. eapply Forall_forall in FA; [|exact Hin].
    clear -FA. induction a as [|c a IH]; cbn in FA; [assumption|]. destruct FA as [(i & j & E1 & E2 & L)|[_ L]]; [|auto]. rewrite E1 in E2. injection E2 as <-. lia.
  - apply (r_nodup _ _ _ _ _ R).
  - intros w. rewrite H4. apply (rep_has f sigma AD t _ w R).
Qed.

Lemma iterate_words mi fuel k ops t a : (forall c k, sigma c -> f c = Ok k -> mi k = c) -> over sigma ops -> client f ops = Ok (t, a) ->
  match it <- it_begin fuel t ;; iterate k fuel mi t it with
  | Ok (l, _) => incl l (set_run [] ops)
  | Fuel => True
  | _ => False
  end.
Proof.
  intros MI W E. destruct (client_ok f sigma AD ops W) as [(t1 & E1 & R)|[E1 _]]; rewrite E in E1; [|discriminate]. injection E1 as <- _.
  assert (MO : forall c, letter c -> mi (code c) = c).
  { intros c L. apply MI; [now apply (letter_sigma f sigma AD)|]. apply (f_ok f sigma AD). apply L. }
  pose proof (r_good _ _ _ _ _ R) as G.
  pose proof (begin_sound mi MO t fuel G) as B. destruct (it_begin fuel t) as [it| | |]; cbn [bind]; auto.
  pose proof (iterate_sound mi MO t fuel G k it B) as IS. destruct (iterate k fuel mi t it) as [[l e]| | |]; auto.
  intros w Hw. eapply Forall_forall in IS; [|exact Hw]. now apply (rep_has f sigma AD t _ w R).
Qed.
End Spread.

(** ** Fuel *)
Lemma visit_more f t : forall n o b r, visit f t n o b = Ok r -> forall g, (f <= g)%nat -> visit g t n o b = Ok r.
Proof.
  induction f as [|f IH]; intros n o b r E g L; [discriminate|]. destruct g as [|g]; [lia|]. cbn [visit] in *. assert (f <= g)%nat as L' by lia.
  destruct (o <? 28).
  - destruct (igetc (base t) n) as [bn| | |]; cbn [bind] in *; try discriminate.
    destruct (igetc (check t) (bn + o)) as [c| | |]; cbn [bind] in *; try discriminate.
    destruct (negb (c =? n)); [eapply IH; eassumption|]. destruct (o =? 1); [assumption|].
    destruct (igetc (base t) (bn + o)) as [bb| | |]; cbn [bind] in *; try discriminate. destruct (bb <? -1); [assumption|]. eapply IH; eassumption.
  - destruct b as [|b1 [|b2 b]]; try assumption. destruct (igetc (check t) n) as [c| | |]; cbn [bind] in *; try discriminate. eapply IH; eassumption.
Qed.
