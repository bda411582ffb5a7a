(** C82: members of a JSON object text. *)
From Verif Require Import Base JsonModel JsonSpec JsonRoundProofs JsonProperties JsonHeapSpec JsonHeapNavProofs JsonHeapUseProofs.
Local Open Scope nat_scope.

Lemma find_map_set {F} (m : list (bytes * json F)) k v k' :
  find (fun e => same_key (fst e) k') (map_set m k v) = if same_key k k' then Some (k, v) else find (fun e => same_key (fst e) k') m.
Proof.
  induction m as [|[a w] m IH]; cbn [map_set find fst]; [reflexivity|]. destruct (bless k a) eqn:E1; cbn [find fst].
  - reflexivity.
  - destruct (bless a k) eqn:E2; cbn [find fst].
    + rewrite IH. destruct (same_key k k') eqn:Ek; [|reflexivity]. apply same_key_true in Ek. subst k'.
      destruct (same_key a k) eqn:Ea; [|reflexivity]. apply same_key_true in Ea. subst a. rewrite bless_refl in E2. discriminate.
    + assert (a = k). { apply bless_false in E1, E2. destruct (lex_total a k) as [?|[?|?]]; auto; contradiction. } subst a. now destruct (same_key k k').
Qed.
Lemma find_insert_all {F} (ms : list (bytes * json F)) k : forall acc,
  find (fun e => same_key (fst e) k) (insert_all acc ms) =
  match find (fun e => same_key (jsonEscape (fst e)) k) (rev ms) with Some e => Some (k, snd e) | None => find (fun e => same_key (fst e) k) acc end.
Proof.
  induction ms as [|[t v] ms IH]; intros acc; [reflexivity|]. cbn [insert_all fold_left fst snd].
  change (fold_left _ ms _) with (insert_all (map_set acc (jsonEscape t) v) ms). rewrite IH. cbn [rev]. rewrite find_app.
  destruct (find _ (rev ms)); [reflexivity|]. cbn [find fst snd]. rewrite find_map_set. destruct (same_key (jsonEscape t) k) eqn:Ek; [|reflexivity].
  apply same_key_true in Ek. now subst k.
Qed.
Lemma increasing_insert_all {F} (ms : list (bytes * json F)) : forall acc, increasing (map fst acc) -> increasing (map fst (insert_all acc ms)).
Proof.
  induction ms as [|[t v] ms IH]; intros acc H; [exact H|]. cbn [insert_all fold_left fst snd]. apply IH. now apply map_set_increasing.
Qed.
Lemma escape_inj a b : jsonEscape a = jsonEscape b -> a = b.
Proof.
  intros H. pose proof (C52_escape_round_trip Z toy a) as A. rewrite H, (C52_escape_round_trip Z toy b) in A. congruence.
Qed.

(** the members of the text in any order and with any repetitions: the result has its keys
    in increasing order, and every key has the value it is given last *)
Theorem C82_members F (D : doubles F) depth tab (ms : list (bytes * json F)) :
  Forall (fun e => value escaped (float_stable D) (snd e)) ms -> forallb isspace tab = true ->
  exists m, loadJSON D (dump D depth tab (JObj (map (fun e => (jsonEscape (fst e), snd e)) ms))) = Ok (JObj m) /\
    increasing (map fst m) /\
    forall k, find (fun e => same_key (fst e) k) m =
      option_map (fun e => (k, snd e)) (find (fun e => same_key (jsonEscape (fst e)) k) (rev ms)).
Proof.
  intros V T. exists (insert_all [] ms). split; [|split].
  - apply load_reads. apply reads_obj; [exact T|]. clear - V T. induction V as [|[t v] ms V _ IH]; simpl; constructor; auto.
    cbn [fst snd] in *. split; [apply key_escape|]. split; [now apply reads_dump|]. eapply starts_dump; eauto.
  - apply increasing_insert_all. exact I.
  - intros k. rewrite find_insert_all. cbn [find]. now destruct (find _ (rev ms)).
Qed.
(** members with different names are not merged *)
Theorem C82_no_merging F (D : doubles F) depth tab (ms : list (bytes * json F)) :
  Forall (fun e => value escaped (float_stable D) (snd e)) ms -> forallb isspace tab = true -> NoDup (map fst ms) ->
  exists m, loadJSON D (dump D depth tab (JObj (map (fun e => (jsonEscape (fst e), snd e)) ms))) = Ok (JObj m) /\
    forall t v, In (t, v) ms -> lookup m (jsonEscape t) = v.
Proof.
  intros V T N. destruct (C82_members F D depth tab ms V T) as (m & E & _ & Fd). exists m. split; [exact E|]. intros t v I.
  unfold lookup. rewrite Fd. clear - N I. apply in_rev in I. assert (N' : NoDup (map fst (rev ms))) by (rewrite map_rev; now apply NoDup_rev).
  clear N. induction (rev ms) as [|[a w] l IH]; [destruct I|]. cbn [find fst]. simpl in N'. inversion N'; subst. destruct I as [I|I].
  - inversion I; subst. now rewrite (proj2 (same_key_true _ _) eq_refl).
  - destruct (same_key (jsonEscape a) (jsonEscape t)) eqn:Ek; [|now apply IH]. apply same_key_true in Ek. apply escape_inj in Ek. subst a. exfalso.
    apply H1. apply (in_map fst) in I. exact I.
Qed.
Example C82_example :
  loadJSON toy (str "{""b"" : 1, ""a"" : 2, ""b"" : [3]}") = Ok (JObj [(str "a", JInt 2); (str "b", JArr [JInt 3])]).
Proof. vm_compute. reflexivity. Qed.
Print Assumptions C82_members.
Print Assumptions C82_no_merging.
