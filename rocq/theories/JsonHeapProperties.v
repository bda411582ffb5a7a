(** C57, C77-C81: JSONObject as a value type. *)
From Verif Require Import Base JsonModel JsonSpec JsonProperties JsonHeapModel JsonHeapSpec JsonHeapEnvProofs JsonHeapUseProofs.
From Coq Require Import Lia.
Local Open Scope nat_scope.

Section Properties.
Context {F : Type} (fzero : F) (D : doubles F).
Notation exec := (run fzero D ([], [])).
Notation answer := (answer fzero D).

(** every program: the results are those of the programs on trees, undefined behaviour and
    exceptions included; when the variables are gone nothing is left, and nothing was
    released twice, unless the meaning says that memory was lost *)
Theorem C57_value_semantics os :
  match means fzero D [] os with
  | Ok (_, xs, lost) =>
      exists s h, exec os = Ok (s, xs) /\ finish s = Ok h /\ (lost = false <-> forall a, look h a = None)
  | Err => exec os = Err
  | UB => exec os = UB
  | Fuel => exec os = Fuel
  end.
Proof. apply run_means. Qed.
(** statements that do not name a variable leave it alone *)
Theorem C57_other_variables os os' i p q s xs x s' ys :
  exec (os ++ [OAsk (i, p) q]) = Ok (s, xs ++ [x]) ->
  untouched i (variables os) os' = true -> exec (os ++ os') = Ok (s', ys) ->
  exists s'', exec (os ++ os' ++ [OAsk (i, p) q]) = Ok (s'', ys ++ [x]).
Proof. apply use_other. Qed.
(** a copy gives the same answers, whatever happens to other variables *)
Theorem C57_copy_independent os os' l p q s xs x s' ys :
  let n := variables os in
  exec (os ++ [OAsk (inside l p) q]) = Ok (s, xs ++ [x]) ->
  untouched n (S n) os' = true -> exec (os ++ OCopyNew l :: os') = Ok (s', ys) ->
  exists s'', exec (os ++ OCopyNew l :: os' ++ [OAsk (n, p) q]) = Ok (s'', ys ++ [x]).
Proof. apply use_copy. Qed.
(** what happens to the copy does not change the original *)
Theorem C57_original_independent os os' l p q s xs x s' ys :
  exec (os ++ [OAsk (inside l p) q]) = Ok (s, xs ++ [x]) ->
  untouched (fst l) (S (variables os)) os' = true -> exec (os ++ OCopyNew l :: os') = Ok (s', ys) ->
  exists s'', exec (os ++ OCopyNew l :: os' ++ [OAsk (inside l p) q]) = Ok (s'', ys ++ [x]).
Proof. apply use_original. Qed.
(** a moved value: the new variable has it, the old location is null *)
Theorem C57_move os os' l p q s xs x s' ys :
  let n := variables os in
  exec (os ++ [OAsk (inside l p) q]) = Ok (s, xs ++ [x]) ->
  untouched n (S n) os' = true -> exec (os ++ OMoveNew l :: os') = Ok (s', ys) ->
  exists s'', exec (os ++ OMoveNew l :: os' ++ [OAsk (n, p) q]) = Ok (s'', ys ++ [x]).
Proof. apply use_move. Qed.
Theorem C57_moved_from os l s xs :
  exec os = Ok (s, xs) -> defined os l = true ->
  exists s', exec (os ++ [OMoveNew l; OAsk l QType]) = Ok (s', xs ++ [RNone; RType KNull]).
Proof.
  intros H V. destruct (start _ _ _ _ _ H) as (r & b & E1 & Ln & Dv). rewrite <- Dv in V. pose proof (valid_lt _ _ V) as I.
  destruct (ask_later fzero D os (OMoveNew l) l QType r _ xs _ b _ E1 ltac:(cbn [meaning]; rewrite V; reflexivity)) as (s' & E2).
  - unfold valid in *. apply andb_true_iff in V. destruct V as [_ V]. rewrite V, andb_true_r. apply Nat.ltb_lt. rewrite app_length, eput_length. simpl. lia.
  - exists s'. rewrite E2. unfold eget. rewrite app_nth1 by (now rewrite eput_length).
    change (get (nth (fst l) (eput r l JNull) JNull) (snd l)) with (eget (eput r l JNull) l). now rewrite eget_eput.
Qed.
(** copy assignment between locations none of which contains the other *)
Theorem C57_copy_assign o os l l' p q s xs x :
  exec (os ++ [OAsk (inside l' p) q]) = Ok (s, xs ++ [x]) -> defined os l = true -> erelate l l' = Apart ->
  (exists s', exec (os ++ [OCopy o l l'; OAsk (inside l p) q]) = Ok (s', xs ++ [RNone; x])) /\
  (exists s', exec (os ++ [OCopy o l l'; OAsk (inside l' p) q]) = Ok (s', xs ++ [RNone; x])).
Proof.
  intros H V R. destruct (asked _ _ _ _ _ _ _ _ H) as (r & b & E1 & Ln & V' & ->). rewrite valid_inside in V'. apply andb_true_iff in V'. destruct V' as [V' Lp].
  assert (Vl : valid r l = true) by (unfold valid, defined in *; now rewrite Ln). clear V. rename Vl into V.
  destruct (touch2_apart (is_left o) r l l' R V V') as [_ T2].
  assert (M : meaning fzero D r (OCopy o l l') = Ok (eput (touch2 (is_left o) r l l') l (eget r l'), RNone, false)).
  { cbn [meaning]. rewrite V, V', R. cbv zeta. cbn [andb]. now rewrite T2. }
  assert (Vp : legal p = true -> forall l0, valid r l0 = true -> valid (eput (touch2 (is_left o) r l l') l (eget r l')) (inside l0 p) = true).
  { intros _ l0 V0. now rewrite valid_inside, Lp, valid_eput, valid_touch2, V0. }
  split.
  - destruct (ask_later fzero D os _ (inside l p) q r _ xs _ b _ E1 M (Vp Lp l V)) as (s' & E2). exists s'. rewrite E2. do 4 f_equal.
    rewrite !eget_inside, eget_eput; [reflexivity|]. rewrite touch2_len. now apply valid_lt.
  - destruct (ask_later fzero D os _ (inside l' p) q r _ xs _ b _ E1 M (Vp Lp l' V')) as (s' & E2). exists s'. rewrite E2. do 4 f_equal.
    rewrite !eget_inside, eget_eput_apart, T2; rewrite ?valid_touch2; auto.
Qed.

(** assignment and access *)
Theorem C77_set_then_get os l x q s xs :
  exec os = Ok (s, xs) -> defined os l = true ->
  exists s', exec (os ++ [OAssign l x; OAsk l q]) = Ok (s', xs ++ [RNone; answer (scalar x) q]).
Proof.
  intros H V. destruct (start _ _ _ _ _ H) as (r & b & E1 & Ln & Dv). rewrite <- Dv in V. pose proof (valid_lt _ _ V) as I.
  destruct (ask_later fzero D os (OAssign l x) l q r _ xs _ b _ E1 ltac:(cbn [meaning]; rewrite V; reflexivity)) as (s' & E2).
  - now rewrite valid_eput.
  - exists s'. now rewrite E2, eget_eput.
Qed.
Theorem C77_others_kept os l l' x q s xs y :
  exec (os ++ [OAsk l' q]) = Ok (s, xs ++ [y]) -> defined os l = true -> erelate l l' = Apart ->
  exists s', exec (os ++ [OAssign l x; OAsk l' q]) = Ok (s', xs ++ [RNone; y]).
Proof.
  intros H V R. destruct (asked _ _ _ _ _ _ _ _ H) as (r & b & E1 & Ln & V' & ->).
  assert (Vl : valid r l = true) by (unfold valid, defined in *; now rewrite Ln).
  destruct (ask_later fzero D os (OAssign l x) l' q r _ xs _ b _ E1 ltac:(cbn [meaning]; rewrite Vl; reflexivity)) as (s' & E2).
  - now rewrite valid_eput.
  - exists s'. now rewrite E2, eget_eput_apart.
Qed.
(** reading an element twice *)
Theorem C77_read_again os l q s xs x :
  exec (os ++ [OAsk l q]) = Ok (s, xs ++ [x]) -> exists s', exec (os ++ [OAsk l q; OAsk l q]) = Ok (s', xs ++ [x; x]).
Proof.
  intros H. destruct (asked _ _ _ _ _ _ _ _ H) as (r & b & E1 & Ln & V & ->). pose proof (valid_lt _ _ V) as I.
  destruct (ask_later fzero D os (OAsk l q) l q r _ xs _ b _ E1 ltac:(cbn [meaning]; rewrite V; reflexivity)) as (s' & E2).
  - now rewrite valid_touch.
  - exists s'. now rewrite E2, eget_touch.
Qed.
(** reading a key makes its container an object that has the key *)
Theorem C77_read_creates os l k q s xs :
  exec os = Ok (s, xs) -> defined os l = true ->
  exists s' x, exec (os ++ [OAsk (inside l [Key k]) q; OAsk l (QHasKey k)]) = Ok (s', xs ++ [x; RBool true]).
Proof.
  intros H V. destruct (start _ _ _ _ _ H) as (r & b & E1 & Ln & Dv). rewrite <- Dv in V. pose proof (valid_lt _ _ V) as I.
  destruct (ask_later fzero D os (OAsk (inside l [Key k]) q) l (QHasKey k) r _ xs _ b _ E1 ltac:(cbn [meaning]; rewrite valid_inside, V; reflexivity)) as (s' & E2).
  - now rewrite valid_touch.
  - eexists s', _. rewrite E2, eget_touch_inside by exact I. unfold touch. cbn [put set1 JsonHeapSpec.answer entries]. rewrite has_store.
    now rewrite (proj2 (JsonHeapNavProofs.same_key_true k k) eq_refl).
Qed.
(** anything that is not an object is replaced by an object with this key alone *)
Theorem C77_read_retypes os l a q k s xs :
  exec (os ++ [OAsk l QType]) = Ok (s, xs ++ [RType k]) -> k <> KObject ->
  exists s', exec (os ++ [OAsk (inside l [Key a]) q; OAsk l QSize]) = Ok (s', xs ++ [answer JNull q; RInt 1]).
Proof.
  intros H K. destruct (asked _ _ _ _ _ _ _ _ H) as (r & b & E1 & Ln & V & Ek). pose proof (valid_lt _ _ V) as I.
  assert (Em : entries (eget r l) = []) by (inversion Ek; subst k; destruct (eget r l); auto; now elim K).
  destruct (ask_later fzero D os (OAsk (inside l [Key a]) q) l QSize r _ xs _ b _ E1 ltac:(cbn [meaning]; rewrite valid_inside, V; reflexivity)) as (s' & E2).
  - now rewrite valid_touch.
  - exists s'. rewrite E2, eget_touch_inside, eget_inside by exact I. unfold touch. cbn [put get get1 set1]. rewrite Em. reflexivity.
Qed.
(** reading an index: an array grows up to it, a value of another type (length -1) is
    replaced; negative indices and INT_MAX are undefined *)
Theorem C77_index_grows os l i q n s xs :
  exec (os ++ [OAsk l QLength]) = Ok (s, xs ++ [RInt n]) -> (0 <= i < int32_max)%Z ->
  exists s' x, exec (os ++ [OAsk (inside l [Idx i]) q; OAsk l QLength]) = Ok (s', xs ++ [x; RInt (Z.max n (i + 1))]) /\
    ((n <= i)%Z -> x = answer JNull q).
Proof.
  intros H B. destruct (asked _ _ _ _ _ _ _ _ H) as (r & b & E1 & Ln & V & En). pose proof (valid_lt _ _ V) as I.
  assert (Lg : legal [Idx i] = true) by (unfold legal; simpl; rewrite andb_true_r; apply andb_true_iff; rewrite Z.leb_le, Z.ltb_lt; exact B).
  destruct (ask_later fzero D os (OAsk (inside l [Idx i]) q) l QLength r _ xs _ b _ E1 ltac:(cbn [meaning]; rewrite valid_inside, V, Lg; reflexivity)) as (s' & E2).
  - now rewrite valid_touch.
  - eexists s', _. rewrite E2, eget_touch_inside by exact I. unfold touch. cbn [put get].
    pose proof (set_length (eget r l) (get1 (eget r l) (Idx i)) i (proj1 B)) as Ls.
    assert (Ln' : n = match eget r l with JArr vs => Z.of_nat (length vs) | _ => (-1)%Z end /\ (n <= int32_max)%Z).
    { injection En as ->. destruct (eget r l) as [| | | | |vs|] eqn:Ev; simpl; try (split; [reflexivity|unfold int32_max; lia]).
      pose proof (array_bound _ _ _ _ _ _ _ _ E1 V Ev). rewrite wrap_id; [split; [reflexivity|assumption]|unfold int32_min, int32_max in *; lia]. }
    destruct Ln' as [En' Bn]. split.
    + repeat f_equal. unfold set1 in Ls |- *. cbv zeta in Ls |- *. cbn [JsonHeapSpec.answer items] in Ls |- *. f_equal. rewrite Ls. clear Ls E2 H E1 En.
      rewrite wrap_id; [|unfold int32_min, int32_max in *; destruct (eget r l); simpl; lia].
      destruct (eget r l); simpl; lia.
    + intros Ni. rewrite eget_inside. cbn [get get1]. rewrite nth_overflow; [reflexivity|]. clear Ls E2 H E1 En. destruct (eget r l); simpl in *; lia.
Qed.
Theorem C77_index_range os l i p q s xs :
  exec os = Ok (s, xs) -> ~ (0 <= i < int32_max)%Z -> exec (os ++ [OAsk (inside l (Idx i :: p)) q]) = UB.
Proof.
  intros H B. destruct (start _ _ _ _ _ H) as (r & b & E1 & Ln & Dv). eapply stuck; [exact E1|]. cbn [meaning]. rewrite valid_inside.
  replace (legal (Idx i :: p)) with false; [now rewrite andb_false_r|]. unfold legal. cbn [forallb]. symmetry. apply andb_false_iff. left.
  apply andb_false_iff. rewrite Z.leb_gt, Z.ltb_ge. lia.
Qed.
(** a string stays what it is under const access only: reading an element of it loses it *)
Theorem C77_read_keeps_refuted :
  exists os l p, (exists s, exec (os ++ [OAsk l QString]) = Ok (s, [RNone; RNone; RText (str "ab")])) /\
    (exists s, exec (os ++ [OAsk (inside l p) QType; OAsk l QString]) = Ok (s, [RNone; RNone; RType KNull; RText []])).
Proof. exists [OBuild KNull; OAssign (0, []) (SStr (str "ab"))], (0, []), [Key (str "k")]. split; eexists; vm_compute; reflexivity. Qed.

(** a location assigned to itself, to a part of itself, or from a part of itself *)
Theorem C78_self_copy o os l k s xs :
  exec (os ++ [OAsk l QType]) = Ok (s, xs ++ [RType k]) -> (exec (os ++ [OCopy o l l]) = UB <-> owner k = true).
Proof.
  intros H. destruct (asked _ _ _ _ _ _ _ _ H) as (r & b & E1 & Ln & V & Ek). pose proof (valid_lt _ _ V) as I. injection Ek as ->. rewrite owner_kind.
  pose proof (touch2_same (is_left o) r l I) as T2. pose proof (eget_touch r l I) as T3. split.
  - intros U. destruct (owning (eget r l)) eqn:Eo; [reflexivity|]. destruct (went fzero D os (OCopy o l l) r xs b (eput (etouch r l) l (eget r l)) RNone false E1) as (s' & h & E2 & _).
    + cbn [meaning]. rewrite V, erelate_refl, T2, T3, Eo. reflexivity.
    + congruence.
  - intros Eo. eapply stuck; [exact E1|]. cbn [meaning]. rewrite V, erelate_refl, T2, T3, Eo. reflexivity.
Qed.
Theorem C78_self_copy_scalar o os l p q s xs k s' x :
  exec (os ++ [OAsk l QType]) = Ok (s, xs ++ [RType k]) -> owner k = false -> exec (os ++ [OAsk (inside l p) q]) = Ok (s', xs ++ [x]) ->
  exists s'', exec (os ++ [OCopy o l l; OAsk (inside l p) q]) = Ok (s'', xs ++ [RNone; x]).
Proof.
  intros H K H'. destruct (asked _ _ _ _ _ _ _ _ H) as (r & b & E1 & Ln & V & Ek). pose proof (valid_lt _ _ V) as I. injection Ek as ->. rewrite owner_kind in K.
  destruct (asked _ _ _ _ _ _ _ _ H') as (r2 & b2 & E1' & _ & V' & ->). assert (r2 = r) by congruence. subst r2.
  pose proof (touch2_same (is_left o) r l I) as T2. pose proof (eget_touch r l I) as T3.
  destruct (ask_later fzero D os (OCopy o l l) (inside l p) q r (eput (etouch r l) l (eget r l)) xs RNone b false E1) as (s'' & E2).
  - cbn [meaning]. rewrite V, erelate_refl, T2, T3, K. reflexivity.
  - rewrite valid_eput, valid_touch. exact V'.
  - exists s''. rewrite E2. rewrite !eget_inside, eget_eput by (now rewrite etouch_length). reflexivity.
Qed.
Theorem C78_from_element o os l p s xs :
  exec os = Ok (s, xs) -> p <> [] -> exec (os ++ [OCopy o l (inside l p)]) = UB /\ exec (os ++ [OMove o l (inside l p)]) = UB.
Proof.
  intros H N. destruct (start _ _ _ _ _ H) as (r & b & E1 & Ln & Dv).
  split; (eapply stuck; [exact E1|]; cbn [meaning]; rewrite erelate_inside by exact N; now destruct (_ && _)).
Qed.
Theorem C78_into_element o os l p k s xs :
  exec (os ++ [OAsk (inside l p) QType]) = Ok (s, xs ++ [RType k]) -> p <> [] -> (exec (os ++ [OCopy o (inside l p) l]) = UB <-> owner k = true).
Proof.
  intros H N. destruct (asked _ _ _ _ _ _ _ _ H) as (r & b & E1 & Ln & V & Ek). injection Ek as ->. rewrite owner_kind. pose proof V as V0.
  rewrite valid_inside in V0. apply andb_true_iff in V0. destruct V0 as [Vl Lp].
  assert (T : eget (touch2 (is_left o) r (inside l p) l) (inside l p) = eget r (inside l p)).
  { pose proof (touch2_inside (negb (is_left o)) r l p Vl) as X. unfold touch2 in *. now destruct o. }
  split.
  - intros U. destruct (owning (eget r (inside l p))) eqn:Eo; [reflexivity|].
    destruct (went fzero D os (OCopy o (inside l p) l) r xs b (eput (touch2 (is_left o) r (inside l p) l) (inside l p) (eget (touch2 (is_left o) r (inside l p) l) l)) RNone false E1) as (s' & h & E2 & _).
    + cbn [meaning]. rewrite V, Vl, erelate_outside, T, Eo by exact N. reflexivity.
    + congruence.
  - intros Eo. eapply stuck; [exact E1|]. cbn [meaning]. rewrite V, Vl, erelate_outside, T, Eo by exact N. reflexivity.
Qed.
Theorem C78_self_move o os l s xs :
  exec os = Ok (s, xs) -> defined os l = true ->
  exists s', exec (os ++ [OMove o l l; OAsk l QType]) = Ok (s', xs ++ [RNone; RType KNull]).
Proof.
  intros H V. destruct (start _ _ _ _ _ H) as (r & b & E1 & Ln & Dv). rewrite <- Dv in V. pose proof (valid_lt _ _ V) as I.
  destruct (ask_later fzero D os (OMove o l l) l QType r (eput (touch2 (is_left o) r l l) l JNull) xs RNone b false E1) as (s' & E2).
  - cbn [meaning]. now rewrite V, erelate_refl.
  - now rewrite valid_eput, valid_touch2.
  - exists s'. rewrite E2, eget_eput; [reflexivity|]. now rewrite touch2_len.
Qed.
(** moving a location into its own element: null, and memory is lost *)
Theorem C78_move_into_element o os l p s xs :
  exec os = Ok (s, xs) -> defined os (inside l p) = true -> p <> [] ->
  (exists s' h a, exec (os ++ [OMove o (inside l p) l]) = Ok (s', xs ++ [RNone]) /\ finish s' = Ok h /\ look h a <> None) /\
  exists s', exec (os ++ [OMove o (inside l p) l; OAsk l QType]) = Ok (s', xs ++ [RNone; RType KNull]).
Proof.
  intros H V N. destruct (start _ _ _ _ _ H) as (r & b & E1 & Ln & Dv). rewrite <- Dv in V. pose proof V as V0.
  rewrite valid_inside in V0. apply andb_true_iff in V0. destruct V0 as [Vl Lp]. pose proof (valid_lt _ _ Vl) as I.
  assert (M : meaning fzero D r (OMove o (inside l p) l) = Ok (eput (touch2 (is_left o) r (inside l p) l) l JNull, RNone, true)).
  { cbn [meaning]. now rewrite V, Vl, erelate_outside. }
  split.
  - destruct (went _ _ _ _ _ _ _ _ _ _ E1 M) as (s' & h & E2 & E3 & E4). rewrite orb_true_r in E4.
    destruct (live h) as [(a & A)|A]; [exists s', h, a; auto|]. exfalso. apply E4 in A. discriminate.
  - destruct (ask_later fzero D os _ l QType r _ xs _ b _ E1 M) as (s' & E2); [now rewrite valid_eput, valid_touch2|].
    exists s'. rewrite E2, eget_eput; [reflexivity|]. now rewrite touch2_len.
Qed.
(** one location needs an object where the other one needs an array *)
Theorem C78_clash o os l p k i q s xs :
  exec os = Ok (s, xs) ->
  exec (os ++ [OCopy o (inside l (Key k :: p)) (inside l (Idx i :: q))]) = UB /\
  exec (os ++ [OMove o (inside l (Key k :: p)) (inside l (Idx i :: q))]) = UB /\
  exec (os ++ [OCopy o (inside l (Idx i :: q)) (inside l (Key k :: p))]) = UB /\
  exec (os ++ [OMove o (inside l (Idx i :: q)) (inside l (Key k :: p))]) = UB.
Proof.
  intros H. destruct (start _ _ _ _ _ H) as (r & b & E1 & Ln & Dv).
  assert (R : erelate (inside l (Key k :: p)) (inside l (Idx i :: q)) = Clash).
  { unfold erelate, inside. simpl. rewrite Nat.eqb_refl. induction (snd l) as [|t u IH]; simpl; [reflexivity|].
    replace (sel_eqb t t) with true; [exact IH|]. destruct t; simpl; [now rewrite (proj2 (JsonHeapNavProofs.same_key_true k0 k0) eq_refl)|now rewrite Z.eqb_refl]. }
  pose proof (erelate_sym (inside l (Key k :: p)) (inside l (Idx i :: q))) as R'. rewrite R in R'.
  repeat split; (eapply stuck; [exact E1|]; cbn [meaning]; rewrite ?R, ?R'; now destruct (_ && _)).
Qed.
(** self assignment keeps the value? not for an array *)
Theorem C78_self_copy_refuted :
  exists os l, (exists s, exec os = Ok (s, [RNone; RNone])) /\ exec (os ++ [OCopy LeftFirst l l]) = UB.
Proof. exists [OBuild KArray; OAppendScal (0, []) (SInt 1)], (0, []). split; [eexists|]; vm_compute; reflexivity. Qed.

(** const access *)
Theorem C79_const_key os l k q s xs :
  exec (os ++ [OAsk l QType]) = Ok (s, xs ++ [RType KObject]) ->
  (exists s' x s'', exec (os ++ [OConstKey l k q]) = Ok (s', xs ++ [x]) /\ exec (os ++ [OAsk (inside l [Key k]) q]) = Ok (s'', xs ++ [x])) /\
  (exists s' x, exec (os ++ [OConstKey l k q; OAsk l (QHasKey k)]) = Ok (s', xs ++ [x; RBool true])).
Proof.
  intros H. destruct (asked _ _ _ _ _ _ _ _ H) as (r & b & E1 & Ln & V & Ek). pose proof (valid_lt _ _ V) as I.
  destruct (eget r l) as [| | | | | |m] eqn:Ev; try discriminate Ek.
  assert (M : meaning fzero D r (OConstKey l k q) = Ok (eput r l (JObj (store m k (lookup m k))), answer (lookup m k) q, false)).
  { cbn [meaning]. now rewrite V, Ev. }
  split.
  - destruct (went _ _ _ _ _ _ _ _ _ _ E1 M) as (s' & h & E2 & _).
    destruct (ask_after fzero D os (inside l [Key k]) q r xs b E1) as (s'' & E3); [rewrite valid_inside, V; reflexivity|].
    exists s', (answer (lookup m k) q), s''. split; [exact E2|]. rewrite E3, eget_inside, Ev. reflexivity.
  - destruct (ask_later fzero D os _ l (QHasKey k) r _ xs _ b _ E1 M) as (s' & E2); [now rewrite valid_eput|].
    eexists s', _. rewrite E2, eget_eput by exact I. cbn [JsonHeapSpec.answer entries]. rewrite has_store.
    now rewrite (proj2 (JsonHeapNavProofs.same_key_true k k) eq_refl).
Qed.
(** looking at an object through a const reference changes it *)
Theorem C79_const_keeps_refuted :
  exists os l k, (exists s, exec (os ++ [OAsk l QSize]) = Ok (s, [RNone; RInt 0])) /\
    (exists s, exec (os ++ [OConstKey l k QType; OAsk l QSize]) = Ok (s, [RNone; RType KNull; RInt 1])).
Proof. exists [OBuild KObject], (0, []), (str "k"). split; eexists; vm_compute; reflexivity. Qed.
Theorem C79_const_type os l k i q t s xs :
  exec (os ++ [OAsk l QType]) = Ok (s, xs ++ [RType t]) ->
  (t <> KObject -> exec (os ++ [OConstKey l k q]) = UB) /\ (t <> KArray -> exec (os ++ [OConstIdx l i q]) = UB).
Proof.
  intros H. destruct (asked _ _ _ _ _ _ _ _ H) as (r & b & E1 & Ln & V & Ek). injection Ek as ->.
  split; intros K; (eapply stuck; [exact E1|]; cbn [meaning]; rewrite V; destruct (eget r l); try reflexivity; now elim K).
Qed.
Theorem C79_const_index os l i q n s xs :
  exec (os ++ [OAsk l QLength]) = Ok (s, xs ++ [RInt n]) -> (0 <= n)%Z -> (int32_min <= i <= int32_max)%Z ->
  if (0 <=? i)%Z && (i <? n)%Z then
    exists s' x s'', exec (os ++ [OConstIdx l i q]) = Ok (s', xs ++ [x]) /\ exec (os ++ [OAsk (inside l [Idx i]) q]) = Ok (s'', xs ++ [x])
  else exec (os ++ [OConstIdx l i q]) = Err.
Proof.
  intros H N B. destruct (asked _ _ _ _ _ _ _ _ H) as (r & b & E1 & Ln & V & En).
  destruct (eget r l) as [| | | | |vs|] eqn:Ev; try (injection En as ->; lia). injection En as ->.
  pose proof (array_bound _ _ _ _ _ _ _ _ E1 V Ev) as Bv. cbv zeta in *. rewrite wrap_id in * by (unfold int32_min, int32_max in *; lia).
  assert (M : meaning fzero D r (OConstIdx l i q) = if (0 <=? i)%Z && (i <? Z.of_nat (length vs))%Z then Ok (etouch r l, answer (nth (Z.to_nat i) vs JNull) q, false) else Err).
  { cbn [meaning]. rewrite V, Ev. cbv zeta. destruct (0 <=? i)%Z eqn:Ei.
    - apply Z.leb_le in Ei. rewrite Z.mod_small; [reflexivity|]. unfold int32_max in B. lia.
    - apply Z.leb_gt in Ei. cbn [andb]. replace (i mod 2 ^ 32)%Z with (i + 2 ^ 32)%Z.
      + rewrite (proj2 (Z.ltb_ge _ _)); [reflexivity|]. unfold int32_min, int32_max in *. lia.
      + rewrite <- (Z.mod_small (i + 2 ^ 32) (2 ^ 32)) by (unfold int32_min in B; lia). rewrite <- (Z.mul_1_l (2 ^ 32)) at 1. now rewrite Z_mod_plus_full. }
  destruct (_ && _) eqn:Ei.
  - apply andb_true_iff in Ei. rewrite Z.leb_le, Z.ltb_lt in Ei. destruct (went _ _ _ _ _ _ _ _ _ _ E1 M) as (s' & h & E2 & _).
    destruct (ask_after fzero D os (inside l [Idx i]) q r xs b E1) as (s'' & E3).
    { rewrite valid_inside, V. unfold legal. simpl. rewrite andb_true_r. apply andb_true_iff. rewrite Z.leb_le, Z.ltb_lt. lia. }
    exists s', (answer (nth (Z.to_nat i) vs JNull) q), s''. split; [exact E2|]. rewrite E3, eget_inside, Ev. reflexivity.
  - eapply thrown; eauto.
Qed.

(** initializer lists; [l] is the list of the keys and values *)
Theorem C80_entries os (l : list (scal F * scal F)) k q s xs :
  exec os = Ok (s, xs) -> l <> [] ->
  let n := variables os in
  let o := OInit (flat_map (fun e => [AScal (fst e); AScal (snd e)]) l) in
  let written := find (fun e => same_key (toString (scalar (fst e))) k) (rev l) in
  (exists s', exec (os ++ [o; OAsk (n, []) (QHasKey k)]) = Ok (s', xs ++ [RNone; RBool (match written with Some _ => true | None => false end)])) /\
  (exists s', exec (os ++ [o; OAsk (n, [Key k]) q]) = Ok (s', xs ++ [RNone; answer (match written with Some e => scalar (snd e) | None => JNull end) q])).
Proof.
  intros H N n o written. destruct (start _ _ _ _ _ H) as (r & b & E1 & Ln & Dv).
  set (vs := map (fun e : scal F * scal F => (scalar (fst e), scalar (snd e))) l).
  assert (Ea : flat_map (fun e => [AScal (fst e); AScal (snd e)]) l = map AScal (flat_map (fun e => [fst e; snd e]) l)).
  { clear. induction l as [|[a v] l IH]; simpl; congruence. }
  assert (Ev : map scalar (flat_map (fun e => [fst e; snd e]) l) = flat_map (fun e => [fst e; snd e]) vs).
  { unfold vs. clear. induction l as [|[a v] l IH]; simpl; congruence. }
  destruct (pairs_even vs []) as (m & Em).
  assert (M : meaning fzero D r o = Ok (r ++ [JObj m], RNone, false)).
  { unfold o. destruct l as [|e0 l0] eqn:El; [contradiction|]. rewrite <- El in *. cbn [meaning]. rewrite Ea.
    destruct (flat_map (fun e => [fst e; snd e]) l) as [|z zs] eqn:Ef; [rewrite El in Ef; discriminate|]. rewrite <- Ef in *. clear Ef.
    destruct (map AScal _) as [|y ys] eqn:Ey; [|rewrite <- Ey].
    - rewrite El in Ey. discriminate.
    - rewrite args_scal. cbn [bind]. now rewrite Ev, Em. }
  assert (Nt : nth n (r ++ [JObj m]) JNull = JObj m) by (unfold n; rewrite <- Ln, app_nth2, Nat.sub_diag by lia; reflexivity).
  assert (Vn : forall p, legal p = true -> valid (r ++ [JObj m]) (n, p) = true).
  { intros p Lp. unfold valid. simpl. rewrite Lp, andb_true_r. apply Nat.ltb_lt. rewrite app_length. simpl. unfold n. lia. }
  destruct (pairs_lookup vs [] m k Em) as [Lk Hk].
  assert (Ew : find (fun e => same_key (toString (fst e)) k) (rev vs) = option_map (fun e => (scalar (fst e), scalar (snd e))) written).
  { unfold written, vs. rewrite <- map_rev. clear. induction (rev l) as [|e u IH]; simpl; [reflexivity|]. destruct (same_key _ k); auto. }
  rewrite Ew in Lk, Hk. split.
  - destruct (ask_later fzero D os o (n, []) (QHasKey k) r _ xs _ b _ E1 M (Vn [] eq_refl)) as (s' & E2). exists s'. rewrite E2.
    unfold eget. cbn [fst snd get]. rewrite Nt. cbn [JsonHeapSpec.answer entries]. rewrite Hk. now destruct written.
  - destruct (ask_later fzero D os o (n, [Key k]) q r _ xs _ b _ E1 M (Vn [Key k] eq_refl)) as (s' & E2). exists s'. rewrite E2.
    unfold eget. cbn [fst snd get get1]. rewrite Nt. cbn [entries]. rewrite Lk. now destruct written.
Qed.
Theorem C80_odd os l s xs : exec os = Ok (s, xs) -> Nat.odd (length l) = true -> exec (os ++ [OInit l]) = UB.
Proof.
  intros H O. destruct (start _ _ _ _ _ H) as (r & b & E1 & Ln & Dv). eapply stuck; [exact E1|]. destruct l as [|x l]; [discriminate|].
  cbn [meaning]. destruct (args_ub (x :: l) r) as [E2|(r' & vs & E2)]; rewrite E2; [reflexivity|]. cbn [bind].
  rewrite (pairs_odd (length vs) vs); auto. now rewrite (args_length _ _ _ _ E2).
Qed.
Theorem C80_empty os s xs : exec os = Ok (s, xs) ->
  exists s', exec (os ++ [OInit []; OAsk (variables os, []) QType]) = Ok (s', xs ++ [RNone; RType KNull]).
Proof.
  intros H. destruct (start _ _ _ _ _ H) as (r & b & E1 & Ln & Dv).
  destruct (ask_later fzero D os (OInit []) (variables os, []) QType r _ xs _ b _ E1 eq_refl) as (s' & E2).
  - unfold valid. simpl. rewrite andb_true_r. apply Nat.ltb_lt. rewrite app_length. simpl. lia.
  - exists s'. rewrite E2. unfold eget. cbn [fst snd get]. now rewrite <- Ln, app_nth2, Nat.sub_diag by lia.
Qed.
(** a key with a quote or a backslash is not found again; [= nullptr] *)
Theorem C80_key_refuted :
  exists k, exists s, exec [OInit [AScal (SStr k); AScal (SInt 1)]; OAsk (0, []) (QHasKey k)] = Ok (s, [RNone; RBool false]).
Proof. exists [Ascii.ascii_of_nat 34]. eexists. vm_compute. reflexivity. Qed.
Theorem C80_nullptr os l s xs : exec os = Ok (s, xs) -> exec (os ++ [ONullptr l]) = UB.
Proof. intros H. destruct (start _ _ _ _ _ H) as (r & b & E1 & Ln & Dv). eapply stuck; [exact E1|reflexivity]. Qed.

(** append *)
Theorem C81_append os l x n s xs :
  exec (os ++ [OAsk l QLength]) = Ok (s, xs ++ [RInt n]) -> (n < int32_max)%Z ->
  (exists s', exec (os ++ [OAppendScal l x; OAsk l QLength]) = Ok (s', xs ++ [RNone; RInt (Z.max n 0 + 1)])) /\
  (forall q, (n < int32_max)%Z -> exists s', exec (os ++ [OAppendScal l x; OAsk (inside l [Idx (Z.max n 0)]) q]) = Ok (s', xs ++ [RNone; answer (scalar x) q])) /\
  (forall i p q s' y, (0 <= i < n)%Z -> exec (os ++ [OAsk (inside l (Idx i :: p)) q]) = Ok (s', xs ++ [y]) ->
     exists s'', exec (os ++ [OAppendScal l x; OAsk (inside l (Idx i :: p)) q]) = Ok (s'', xs ++ [RNone; y])).
Proof.
  intros H N. destruct (asked _ _ _ _ _ _ _ _ H) as (r & b & E1 & Ln & V & En). pose proof (valid_lt _ _ V) as I.
  assert (En' : n = match eget r l with JArr vs => Z.of_nat (length vs) | _ => (-1)%Z end).
  { injection En as ->. destruct (eget r l) as [| | | | |vs|] eqn:Ev; auto. apply wrap_id.
    pose proof (array_bound _ _ _ _ _ _ _ _ E1 V Ev). unfold int32_min, int32_max in *. lia. }
  assert (Ni : Z.of_nat (length (items (eget r l))) = Z.max n 0) by (rewrite En'; destruct (eget r l); simpl; lia).
  set (v := JArr (items (eget r l) ++ [scalar x])).
  assert (M : meaning fzero D r (OAppendScal l x) = Ok (eput r l v, RNone, false)).
  { cbn [meaning]. rewrite V. unfold appended. rewrite (proj2 (Z.ltb_lt _ _)); [reflexivity|]. rewrite Ni. unfold int32_max in *. lia. }
  assert (Vp : forall p, legal p = true -> valid (eput r l v) (inside l p) = true) by (intros p Lp; now rewrite valid_inside, valid_eput, V, Lp).
  split; [|split].
  - destruct (ask_later fzero D os _ l QLength r _ xs _ b _ E1 M) as (s' & E2); [now rewrite valid_eput|]. exists s'. rewrite E2, eget_eput by exact I.
    unfold v. cbn [JsonHeapSpec.answer]. rewrite app_length. cbn [length]. rewrite wrap_id; [repeat f_equal; lia|]. unfold int32_min, int32_max in *. lia.
  - intros q N'. destruct (ask_later fzero D os _ (inside l [Idx (Z.max n 0)]) q r _ xs _ b _ E1 M) as (s' & E2).
    { apply Vp. unfold legal. simpl. rewrite andb_true_r. apply andb_true_iff. rewrite Z.leb_le, Z.ltb_lt. unfold int32_max in *. lia. }
    exists s'. rewrite E2, eget_inside, eget_eput by exact I. unfold v. cbn [get get1 items]. rewrite <- Ni, Nat2Z.id, app_nth2, Nat.sub_diag by lia. reflexivity.
  - intros i p q s' y Bi H'. destruct (asked _ _ _ _ _ _ _ _ H') as (r2 & b2 & E1' & _ & V' & ->). assert (r2 = r) by congruence. subst r2.
    destruct (ask_later fzero D os _ (inside l (Idx i :: p)) q r _ xs _ b _ E1 M) as (s'' & E2).
    { rewrite valid_inside in *. rewrite valid_eput. exact V'. }
    exists s''. rewrite E2, !eget_inside, eget_eput by exact I. unfold v. cbn [get get1 items]. rewrite app_nth1 by lia. reflexivity.
Qed.
Theorem C81_append_object o os l l' p q n s xs s' x :
  exec (os ++ [OAsk l QLength]) = Ok (s, xs ++ [RInt n]) -> (n < int32_max)%Z -> erelate l l' = Apart ->
  exec (os ++ [OAsk (inside l' p) q]) = Ok (s', xs ++ [x]) ->
  exists s'', exec (os ++ [OAppend o l l'; OAsk (inside l (Idx (Z.max n 0) :: p)) q]) = Ok (s'', xs ++ [RNone; x]).
Proof.
  intros H N R H'. destruct (asked _ _ _ _ _ _ _ _ H) as (r & b & E1 & Ln & V & En). pose proof (valid_lt _ _ V) as I.
  destruct (asked _ _ _ _ _ _ _ _ H') as (r2 & b2 & E1' & _ & V' & ->). assert (r2 = r) by congruence. subst r2.
  rewrite valid_inside in V'. apply andb_true_iff in V'. destruct V' as [V' Lp]. pose proof (valid_lt _ _ V') as I'.
  assert (En' : n = match eget r l with JArr vs => Z.of_nat (length vs) | _ => (-1)%Z end).
  { injection En as ->. destruct (eget r l) as [| | | | |vs|] eqn:Ev; auto. apply wrap_id.
    pose proof (array_bound _ _ _ _ _ _ _ _ E1 V Ev). unfold int32_min, int32_max in *. lia. }
  assert (Ni : Z.of_nat (length (items (eget r l))) = Z.max n 0) by (rewrite En'; destruct (eget r l); simpl; lia).
  set (v := JArr (items (eget r l) ++ [eget r l'])).
  assert (Ap : appended (eget r l) (eget r l') = Ok v).
  { unfold appended. rewrite (proj2 (Z.ltb_lt _ _)); [reflexivity|]. rewrite Ni. unfold int32_max in *. lia. }
  destruct (touch2_apart (is_left o) r l l' R V V') as [T1 T2].
  assert (M : exists r', meaning fzero D r (OAppend o l l') = Ok (eput r' l v, RNone, false) /\ length r' = length r).
  { exists (touch2 (is_left o) r l l'). split; [|apply touch2_len]. destruct o; cbn [meaning]; rewrite V, V', ?R; cbv zeta; cbn [andb].
    - now rewrite T1, T2, Ap.
    - change (etouch (etouch r l') l) with (touch2 false r l l'). cbn [is_left] in T1, T2. rewrite T1, (eget_touch r l') by exact I'. now rewrite Ap.
    - now rewrite T1, T2, Ap. }
  destruct M as (r' & M & Lr).
  destruct (ask_later fzero D os _ (inside l (Idx (Z.max n 0) :: p)) q r _ xs _ b _ E1 M) as (s'' & E2).
  - rewrite valid_inside, valid_eput. unfold valid in *. rewrite Lr, V. change (Idx (Z.max n 0) :: p) with ([Idx (Z.max n 0)] ++ p). rewrite legal_app, Lp.
    unfold legal. simpl. rewrite !andb_true_r. apply andb_true_iff. rewrite Z.leb_le, Z.ltb_lt. unfold int32_max in *. lia.
  - exists s''. rewrite E2, !eget_inside, eget_eput by (now rewrite Lr). unfold v. cbn [get get1 items].
    rewrite <- Ni, Nat2Z.id, app_nth2, Nat.sub_diag by lia. reflexivity.
Qed.
(** [v["a"].append(v)]: the compiler may choose what is appended *)
Theorem C81_append_order_refuted :
  exists os l l' q s s' x y, exec (os ++ [OAppend LeftFirst l l'; q]) = Ok (s, [RNone; RNone; x]) /\
    exec (os ++ [OAppend RightFirst l l'; q]) = Ok (s', [RNone; RNone; y]) /\ x <> y.
Proof.
  exists [OBuild KNull], (0, [Key (str "a")]), (0, []), (OAsk (0, [Key (str "a"); Idx 0]) QType).
  eexists _, _, _, _. split; [vm_compute; reflexivity|]. split; [vm_compute; reflexivity|]. discriminate.
Qed.
End Properties.

(** instances; [Z] serves as the type of doubles *)
Notation prog := (list (op Z)).
Notation results os := (omap snd (run 0%Z toy ([], []) os)).
Notation K k := (Key (str k)).
Definition C57_program : prog :=
  [OBuild KNull; OAssign (0, [K "b"; Idx 1]) (SStr (str "x")); OAssign (0, [K "a"]) (SInt 7);
   OCopyNew (0, [K "b"]); OAssign (0, [K "b"; Idx 1]) (SInt 1); OAppendScal (1, []) (SBool true); OMoveNew (0, []);
   OAsk (0, []) QType; OAsk (1, []) (QDump 1 []); OAsk (2, []) (QDump 1 [])].
Example C57_example :
  results C57_program = Ok [RNone; RNone; RNone; RNone; RNone; RNone; RNone; RType KNull;
    RText (str "[null, ""x"", true]"); RText (str "{" ++ [LF] ++ str """a"" : 7," ++ [LF] ++ str """b"" : [null, 1]" ++ [LF] ++ str "}")] /\
  (exists r xs, means 0%Z toy [] C57_program = Ok (r, xs, false)) /\
  untouched 1 2 (skipn 4 (firstn 5 C57_program) ++ [OMoveNew (0, [])]) = true /\ untouched 1 2 (skipn 4 C57_program) = false.
Proof. split; [vm_compute; reflexivity|]. split; [eexists _, _; vm_compute; reflexivity|]. split; reflexivity. Qed.
Example C77_example :
  results [OBuild KNull; OAssign (0, [K "a"; Idx 2]) (SInt 5); OAsk (0, [K "a"; Idx 0]) QType; OAsk (0, [K "a"]) QLength; OAsk (0, [K "a"; Idx 2]) QInt;
           OAsk (0, [K "b"]) QInt; OAsk (0, []) QSize; OAsk (0, [Idx 0]) QType; OAsk (0, []) QSize]
    = Ok [RNone; RNone; RType KNull; RInt 3; RInt 5; RInt 0; RInt 2; RType KNull; RInt 1] /\
  erelate (0, [K "a"; Idx 2]) (0, [K "b"]) = Apart /\ results [OBuild KNull; OAsk (0, [Idx (-1)]) QType] = UB.
Proof. repeat split; vm_compute; reflexivity. Qed.
Example C78_example :
  let a : prog := [OBuild KNull; OAssign (0, [K "a"]) (SInt 5)] in
  results (a ++ [OCopy LeftFirst (0, [K "a"]) (0, []); OAsk (0, []) (QDump 1 [])]) =
    Ok [RNone; RNone; RNone; RText (str "{" ++ [LF] ++ str """a"" : {" ++ [LF] ++ str """a"" : 5" ++ [LF] ++ str "}" ++ [LF] ++ str "}")] /\
  results (a ++ [OCopy LeftFirst (0, []) (0, [K "a"])]) = UB /\ results (a ++ [OCopy LeftFirst (0, []) (0, [])]) = UB /\
  results (a ++ [OMove LeftFirst (0, []) (0, []); OAsk (0, []) QType]) = Ok [RNone; RNone; RNone; RType KNull] /\
  (exists r xs, means 0%Z toy [] (a ++ [OMove LeftFirst (0, [K "b"]) (0, [])]) = Ok (r, xs, true)).
Proof. do 4 (split; [vm_compute; reflexivity|]). eexists _, _. vm_compute. reflexivity. Qed.
Example C79_example :
  let a : prog := [OBuild KNull; OAssign (0, [K "a"; Idx 2]) (SInt 5)] in
  results (a ++ [OConstIdx (0, [K "a"]) 2 QInt]) = Ok [RNone; RNone; RInt 5] /\ results (a ++ [OConstIdx (0, [K "a"]) 3 QInt]) = Err /\
  results (a ++ [OConstIdx (0, [K "a"]) (-1) QInt]) = Err /\ results (a ++ [OConstIdx (0, []) 0 QInt]) = UB /\
  results (a ++ [OConstKey (0, []) (str "b") QType; OAsk (0, []) QSize]) = Ok [RNone; RNone; RType KNull; RInt 2].
Proof. repeat split; vm_compute; reflexivity. Qed.
Example C80_example :
  results ([OInit [AScal (SStr (str "a")); AScal (SInt 1); AScal (SStr (str "b")); AScal (SBool true); AScal (SStr (str "a")); AScal (SInt 2)];
            OAsk (0, [K "a"]) QInt; OAsk (0, []) QSize] : prog) = Ok [RNone; RInt 2; RInt 2] /\
  results ([OInit [AScal (SInt 1); AScal (SInt 1)]; OAsk (0, []) (QHasKey [])] : prog) = Ok [RNone; RBool true] /\
  results ([OInit [AScal (SStr (str "a"))]] : prog) = UB.
Proof. repeat split; vm_compute; reflexivity. Qed.
Example C81_example :
  results ([OBuild KString; OAppendScal (0, []) (SInt 1); OAppendScal (0, []) (SInt 2); OBuild KObject; OAppend RightFirst (0, []) (1, []);
            OAsk (0, []) QLength; OAsk (0, [Idx 1]) QInt; OAsk (0, [Idx 2]) QType] : prog) =
  Ok [RNone; RNone; RNone; RNone; RNone; RInt 3; RInt 2; RType KObject].
Proof. vm_compute. reflexivity. Qed.
Print Assumptions C57_value_semantics.
Print Assumptions C57_other_variables.
Print Assumptions C57_copy_independent.
Print Assumptions C57_original_independent.
Print Assumptions C57_move.
Print Assumptions C57_moved_from.
Print Assumptions C57_copy_assign.
Print Assumptions C77_set_then_get.
Print Assumptions C77_others_kept.
Print Assumptions C77_read_again.
Print Assumptions C77_read_creates.
Print Assumptions C77_read_retypes.
Print Assumptions C77_index_grows.
Print Assumptions C77_index_range.
Print Assumptions C77_read_keeps_refuted.
Print Assumptions C78_self_copy.
Print Assumptions C78_self_copy_scalar.
Print Assumptions C78_from_element.
Print Assumptions C78_into_element.
Print Assumptions C78_self_move.
Print Assumptions C78_move_into_element.
Print Assumptions C78_clash.
Print Assumptions C78_self_copy_refuted.
Print Assumptions C79_const_key.
Print Assumptions C79_const_keeps_refuted.
Print Assumptions C79_const_type.
Print Assumptions C79_const_index.
Print Assumptions C80_entries.
Print Assumptions C80_odd.
Print Assumptions C80_empty.
Print Assumptions C80_key_refuted.
Print Assumptions C80_nullptr.
Print Assumptions C81_append.
Print Assumptions C81_append_object.
Print Assumptions C81_append_order_refuted.
