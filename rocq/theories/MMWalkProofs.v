(** Proofs about loops over a MultiMap. *)
From Coq Require Import Permutation Sorted.
From Verif Require Import Base ContModel ContSpec ContProofs ListRefModel ListRefProofs WalkModel WalkProofs MMWalkModel MMWalkSpec.
Local Open Scope Z_scope.

Section Proofs.
Context {K V : Type} (lt : K -> K -> bool) (WO : weak_order lt).
Implicit Types (l A B : list (nat * (K * V))) (d r vs : list (K * V)).
Definition fine (l : list (nat * (K * V))) : Prop := NoDup (map fst l) /\ StronglySorted (fun a b => lt b a = false) (map mkey l).
Lemma ss_map {X Y} (f : X -> Y) (R : Y -> Y -> Prop) (l : list X) : StronglySorted (fun a b => R (f a) (f b)) l <-> StronglySorted R (map f l).
Proof.
  induction l as [|x l IH]; cbn [map]; [split; constructor|]. split; intros S; inversion S as [|? ? S' F]; subst; constructor; try (now apply IH).
  - apply Forall_map. exact F.
  - exact (proj1 (Forall_map f (R (f x)) l) F).
Qed.
Lemma deref_gone (id : nat) l : ~ In id (map fst l) -> deref id l = UB.
Proof.
  induction l as [|x l IH]; intros N; [reflexivity|]. cbn [deref map] in *. destruct (Nat.eqb_spec (fst x) id) as [Q|Q]; [exfalso; apply N; now left|]. apply IH. intros J. apply N. now right.
Qed.
Lemma filter_fine p l : fine l -> fine (filter p l).
Proof.
  intros [N S]. split; [now apply nodup_filter|]. apply (ss_map mkey (fun a b => lt b a = false)). apply filter_ss. now apply (ss_map mkey (fun a b => lt b a = false)).
Qed.
Lemma del_filter k l : fine l -> t_erase mkey lt k l = filter (fun n => spared lt [MDel k] (snd n)) l.
Proof.
  intros [_ S]. rewrite (erase_filter mkey lt WO) by now apply (ss_map mkey (fun a b => lt b a = false)). apply filter_ext. intros n. unfold spared. cbn [existsb kills]. rewrite orb_false_r. reflexivity.
Qed.
Lemma wipe_filter (l : list (K * V)) : filter (spared lt [MWipe]) l = [].
Proof. induction l as [|x l IH]; [reflexivity|]. exact IH. Qed.
(** the node of the loop, while it is there *)
Definition held_at (id : nat) (c : option (K * V)) : list (nat * (K * V)) := match c with Some e => [(id, e)] | None => [] end.
Lemma filter_held id c (p : K * V -> bool) : filter (fun n => p (snd n)) (held_at id c) = held_at id (match c with Some e => if p e then Some e else None | None => None end).
Proof. destruct c as [e|]; [|reflexivity]. cbn. now destruct (p e). Qed.
Lemma step_act id A c B o : fine (A ++ held_at id c ++ B) -> (c = None -> ~ In id (map fst (A ++ B))) ->
  match act lt (map snd A) c (map snd B) o with
  | Ok (d, c', r) => exists A' B', mcall_step lt id (A ++ held_at id c ++ B) o = Ok (A' ++ held_at id c' ++ B') /\ map snd A' = d /\ map snd B' = r /\
      fine (A' ++ held_at id c' ++ B') /\ (c' = None -> ~ In id (map fst (A' ++ B')))
  | UB => mcall_step lt id (A ++ held_at id c ++ B) o = UB
  | _ => False
  end.
Proof.
  intros F G. destruct o as [k| |v]; cbn [act mcall_step].
  - exists (filter (fun n => spared lt [MDel k] (snd n)) A), (filter (fun n => spared lt [MDel k] (snd n)) B). rewrite del_filter by exact F. pose proof (filter_fine (fun n => spared lt [MDel k] (snd n)) _ F) as F'.
    rewrite !filter_app, filter_held in F'. rewrite !filter_app, filter_held. split; [reflexivity|]. split; [symmetry; apply filter_map_comm|]. split; [symmetry; apply filter_map_comm|]. split; [exact F'|].
    intros C. assert (NI : ~ In id (map fst (A ++ B))).
    { destruct c as [e|]; [|now apply G]. destruct F as [N _]. rewrite map_app in N. cbn [held_at app map fst] in N. apply NoDup_remove_2 in N. now rewrite map_app. }
    intros J. apply NI. rewrite <- filter_app in J. apply in_map_iff in J as (n & <- & J). apply filter_In in J as [J _]. now apply in_map.
  - exists [], []. rewrite !wipe_filter. replace (match c with Some e => if spared lt [MWipe] e then Some e else None | None => None end) with (@None (K * V)) by now destruct c. split; [reflexivity|]. split; [reflexivity|]. split; [reflexivity|]. split; [|intros _ []].
    split; constructor.
  - destruct c as [[k w]|].
    + exists A, B. pose proof F as [N S]. cbn [held_at app] in *. pose proof (deref_at A (id, (k, w)) B N) as D. cbn [fst snd] in D. rewrite D. cbn [bind fst]. rewrite overwrite_mid by exact N.
      split; [reflexivity|]. split; [reflexivity|]. split; [reflexivity|]. split; [|discriminate]. split; rewrite map_app in *; assumption.
    + cbn [held_at app]. rewrite deref_gone by now apply G. reflexivity.
Qed.
Lemma calls_acts id os : forall A c B, fine (A ++ held_at id c ++ B) -> (c = None -> ~ In id (map fst (A ++ B))) ->
  match acts lt (map snd A) c (map snd B) os with
  | Ok (d, c', r) => exists A' B', mcalls lt id (A ++ held_at id c ++ B) os = Ok (A' ++ held_at id c' ++ B') /\ map snd A' = d /\ map snd B' = r /\
      fine (A' ++ held_at id c' ++ B') /\ (c' = None -> ~ In id (map fst (A' ++ B')))
  | UB => mcalls lt id (A ++ held_at id c ++ B) os = UB
  | _ => False
  end.
Proof.
  induction os as [|o os IH]; intros A c B F G; cbn [acts mcalls]; [exists A, B; auto|]. pose proof (step_act id A c B o F G) as S.
  destruct (act lt (map snd A) c (map snd B) o) as [[[d c'] r]| | |]; try contradiction; cbn [bind fst snd]; [|rewrite S; reflexivity].
  destruct S as (A' & B' & -> & <- & <- & F' & G'). cbn [bind]. exact (IH A' c' B' F' G').
Qed.
Definition shown (x : list (nat * (K * V)) * list (K * V)) : list (K * V) * list (K * V) := (map snd (fst x), snd x).
Section Loop.
Context (body : list (K * V) -> list (mcall K V) * bool).
Lemma loop_tour : forall f A B vs, fine (A ++ B) -> omap shown (mloop lt body f (A ++ B) (head B) vs) = tour lt body f (map snd A) (map snd B) vs.
Proof.
  induction f as [|f IH]; intros A [|n B] vs F; cbn [head mloop tour map]; try (cbn [omap shown fst snd]; now rewrite ?app_nil_r).
  - pose proof F as [N _]. rewrite deref_at by exact N. cbn [bind]. destruct n as [id e]. cbn [fst snd] in *. pose proof (calls_acts id (fst (body (vs ++ [e]))) A (Some e) B F) as C. cbn [held_at app] in C. specialize (C ltac:(discriminate)).
    destruct (acts lt (map snd A) (Some e) (map snd B) (fst (body (vs ++ [e])))) as [[[d c] r]| | |]; try contradiction; cbn [bind fst snd]; [|now rewrite C].
    destruct C as (A' & B' & -> & <- & <- & F' & G'). cbn [bind]. destruct (snd (body (vs ++ [e]))).
    + destruct c as [e'|].
      * cbn [held_at app] in *. pose proof (after_at A' (id, e') B' (proj1 F')) as X. cbn [fst] in X. rewrite X. cbn [bind]. replace (A' ++ (id, e') :: B') with ((A' ++ [(id, e')]) ++ B') in * by now rewrite <- app_assoc.
        rewrite IH by exact F'. now rewrite map_app.
      * cbn [held_at app] in *. rewrite after_gone by now apply G'. reflexivity.
    + unfold shown. cbn. rewrite !map_app. destruct c; reflexivity.
Qed.
Lemma number_fine (m : list (K * V)) : ordered lt m -> fine (number O m).
Proof.
  intros S. split; [rewrite number_fst; apply seq_NoDup|]. replace (map mkey (number 0 m)) with (map fst m); [now apply (ss_map fst (fun a b => lt b a = false))|].
  rewrite <- (number_snd O m) at 1. now rewrite map_map.
Qed.
Lemma each_tour f m : ordered lt m -> omap shown (mm_each lt body f m) = tour lt body f [] m [].
Proof.
  intros S. unfold mm_each. pose proof (loop_tour f [] (number O m) [] (number_fine m S)) as L. cbn [app map] in L. rewrite number_snd in L. exact L.
Qed.
Lemma each_ok f m l vs : ordered lt m -> mm_each lt body f m = Ok (l, vs) -> tour lt body f [] m [] = Ok (map snd l, vs).
Proof. intros S E. rewrite <- (each_tour f m S), E. reflexivity. Qed.
(** ** what the calls do *)
Lemma spared_cons o os (e : K * V) : spared lt (o :: os) e = spared lt [o] e && spared lt os e.
Proof. unfold spared. cbn [existsb]. rewrite orb_false_r. apply negb_orb. Qed.
Lemma filter_spared o os r : filter (spared lt (o :: os)) r = filter (spared lt os) (filter (spared lt [o]) r).
Proof. induction r as [|x r IH]; [reflexivity|]. cbn [filter]. rewrite spared_cons. destruct (spared lt [o] x); cbn [andb filter]; rewrite IH; reflexivity. Qed.
Lemma spared_all r : filter (spared lt []) r = r.
Proof. apply filter_all. reflexivity. Qed.
Lemma filter_write v r : filter (spared lt [MWrite v]) r = r.
Proof. apply filter_all. reflexivity. Qed.
Lemma acts_spec os : forall d c r d' c' r', acts lt d c r os = Ok (d', c', r') ->
  d' = filter (spared lt os) d /\ r' = filter (spared lt os) r /\ map fst (opt c') = map fst (filter (spared lt os) (opt c)).
Proof.
  induction os as [|o os IH]; intros d c r d' c' r' E; cbn [acts] in E; [injection E as <- <- <-; rewrite !spared_all; auto|].
  rewrite (filter_spared o os d), (filter_spared o os r), (filter_spared o os (opt c)). destruct o as [k| |v]; cbn [act bind fst snd] in E.
  - apply IH in E as (-> & -> & ->). split; [reflexivity|]. split; [reflexivity|]. destruct c as [e|]; [|reflexivity]. cbn [opt filter]. now destruct (spared lt [MDel k] e).
  - apply IH in E as (-> & -> & ->). split; [reflexivity|]. split; [reflexivity|]. destruct c as [e|]; reflexivity.
  - destruct c as [[k w]|]; [|discriminate]. cbn [bind fst snd] in E. apply IH in E as (-> & -> & ->). rewrite !filter_write. split; [reflexivity|]. split; [reflexivity|]. cbn [opt filter]. unfold spared. cbn [fst]. now destruct (negb (existsb (kills lt k) os)).
Qed.
Lemma acts_def os : forall d c r, acts lt d c r os <> Fuel /\ acts lt d c r os <> Err.
Proof.
  induction os as [|o os IH]; intros d c r; cbn [acts]; [split; discriminate|]. destruct o as [k| |v]; cbn [act]; try (cbn [bind]; apply IH). destruct c as [[k w]|]; cbn [bind]; [apply IH|split; discriminate].
Qed.
Lemma acts_safe os : forall d e r, existsb (kills lt (fst e)) os = false -> exists d' e' r', acts lt d (Some e) r os = Ok (d', Some e', r').
Proof.
  induction os as [|o os IH]; intros d e r H; cbn [acts]; [eauto|]. cbn [existsb] in H. apply orb_false_iff in H as [H1 H2]. destruct o as [k| |v]; cbn [act bind fst snd].
  - replace (spared lt [MDel k] e) with true by (unfold spared; cbn [existsb]; now rewrite H1). now apply IH.
  - discriminate H1.
  - destruct e as [k w]. cbn [bind fst snd]. apply IH. exact H2.
Qed.
Lemma filter_len {X} (p : X -> bool) (l : list X) : (length (filter p l) <= length l)%nat.
Proof. induction l as [|x l IH]; cbn [filter length]; [lia|]. destruct (p x); cbn [length]; lia. Qed.
Lemma tour_ends : forall f d r vs, (length r <= f)%nat -> tour lt body f d r vs <> Fuel /\ tour lt body f d r vs <> Err.
Proof.
  induction f as [|f IH]; intros d [|e r] vs L; cbn [tour length] in *; try (split; discriminate); [lia|]. pose proof (acts_def (fst (body (vs ++ [e]))) d (Some e) r) as [D1 D2].
  destruct (acts lt d (Some e) r (fst (body (vs ++ [e])))) as [[[d' c] r']| | |] eqn:E; cbn [bind fst snd]; try (split; congruence). apply acts_spec in E as (_ & -> & _).
  destruct (snd (body (vs ++ [e]))); [|split; discriminate]. destruct c as [e'|]; [|split; discriminate]. apply IH. pose proof (filter_len (spared lt (fst (body (vs ++ [e])))) r). lia.
Qed.
Lemma tour_safe : (forall vs e, existsb (kills lt (fst e)) (fst (body (vs ++ [e]))) = false) -> forall f d r vs, tour lt body f d r vs <> UB.
Proof.
  intros H. induction f as [|f IH]; intros d [|e r] vs; cbn [tour]; try discriminate. destruct (acts_safe _ d e r (H vs e)) as (d' & e' & r' & ->). cbn [bind fst snd]. destruct (snd (body (vs ++ [e]))); [apply IH|discriminate].
Qed.
Lemma tour_grows : forall f d r vs m' vs', tour lt body f d r vs = Ok (m', vs') -> exists new, vs' = vs ++ new.
Proof.
  induction f as [|f IH]; intros d [|e r] vs m' vs' E; cbn [tour] in E; try discriminate; try (injection E as <- <-; exists []; now rewrite app_nil_r).
  destruct (acts lt d (Some e) r (fst (body (vs ++ [e])))) as [[[d' c] r']| | |]; cbn [bind fst snd] in E; try discriminate. destruct (snd (body (vs ++ [e]))).
  - destruct c as [e'|]; [|discriminate]. apply IH in E as [new ->]. exists (e :: new). now rewrite <- app_assoc.
  - injection E as <- <-. now exists [e].
Qed.
Lemma made_step vs e new : made_from body (length vs) (vs ++ e :: new) = fst (body (vs ++ [e])) ++ made_from body (length (vs ++ [e])) (vs ++ e :: new).
Proof.
  unfold made_from. rewrite !app_length. cbn [length]. replace (length vs + S (length new) - length vs)%nat with (S (length new)) by lia. replace (length vs + S (length new) - (length vs + 1))%nat with (length new) by lia.
  cbn [seq flat_map]. f_equal; [|now rewrite Nat.add_1_r]. f_equal. f_equal. replace (vs ++ e :: new) with ((vs ++ [e]) ++ new) by now rewrite <- app_assoc. replace (S (length vs)) with (length (vs ++ [e])) by (rewrite app_length; cbn [length]; lia).
  now rewrite firstn_app, firstn_all, Nat.sub_diag, firstn_O, app_nil_r.
Qed.
Lemma made_none vs : made_from body (length vs) vs = [].
Proof. unfold made_from. now rewrite Nat.sub_diag. Qed.
Lemma spared_app a b (e : K * V) : spared lt (a ++ b) e = spared lt a e && spared lt b e.
Proof. unfold spared. rewrite existsb_app. apply negb_orb. Qed.
Lemma filter_app2 a b r : filter (spared lt (a ++ b)) r = filter (spared lt b) (filter (spared lt a) r).
Proof. induction r as [|x r IH]; [reflexivity|]. cbn [filter]. rewrite spared_app. destruct (spared lt a x); cbn [andb filter]; rewrite IH; reflexivity. Qed.
Lemma spared_keys os r r' : map fst r = map fst r' -> map fst (filter (spared lt os) r) = map fst (filter (spared lt os) r').
Proof.
  revert r'. induction r as [|x r IH]; intros [|y r'] E; cbn [map] in E; try discriminate; [reflexivity|]. injection E as E1 E2. cbn [filter].
  assert (X : spared lt os x = spared lt os y) by (unfold spared; now rewrite E1). rewrite X. destruct (spared lt os y); cbn [map]; rewrite (IH _ E2), ?E1; reflexivity.
Qed.
Lemma tour_left : forall f d r vs m' vs', tour lt body f d r vs = Ok (m', vs') -> map fst m' = map fst (filter (spared lt (made_from body (length vs) vs')) (d ++ r)).
Proof.
  induction f as [|f IH]; intros d [|e r] vs m' vs' E; cbn [tour] in E; try discriminate; try (injection E as <- <-; rewrite made_none, spared_all; now rewrite app_nil_r).
  destruct (acts lt d (Some e) r (fst (body (vs ++ [e])))) as [[[d' c] r']| | |] eqn:Q; cbn [bind fst snd] in E; try discriminate. apply acts_spec in Q as (-> & -> & C).
  assert (X : map fst (filter (spared lt (fst (body (vs ++ [e])))) d ++ opt c ++ filter (spared lt (fst (body (vs ++ [e])))) r) = map fst (filter (spared lt (fst (body (vs ++ [e])))) (d ++ e :: r))).
  { change (e :: r) with (opt (Some e) ++ r). rewrite !filter_app, !map_app, C. reflexivity. }
  destruct (snd (body (vs ++ [e]))).
  - destruct c as [e'|]; [|discriminate]. pose proof E as E'. apply IH in E as ->. apply tour_grows in E' as [new ->]. rewrite <- !app_assoc. cbn [app]. rewrite made_step, filter_app2. apply spared_keys. exact X.
  - injection E as <- <-. rewrite X. pose proof (made_step vs e []) as Y. rewrite made_none, app_nil_r in Y. rewrite Y. reflexivity.
Qed.
Lemma some_refl {X} (l : list X) : some_of l l. Proof. induction l; constructor; auto. Qed.
Lemma some_none {X} (l : list X) : some_of [] l. Proof. induction l; constructor; auto. Qed.
Lemma some_filter {X} (p : X -> bool) (l : list X) : some_of (filter p l) l.
Proof. induction l as [|x l IH]; cbn [filter]; [constructor|]. destruct (p x); constructor; exact IH. Qed.
Lemma some_trans {X} (b c : list X) : some_of b c -> forall a, some_of a b -> some_of a c.
Proof. induction 1 as [|x b c H IH|x b c H IH]; intros a S; [exact S| |constructor; auto]. inversion S; subst; constructor; auto. Qed.
Lemma tour_order : forall f d r vs m' vs', tour lt body f d r vs = Ok (m', vs') -> exists new, vs' = vs ++ new /\ some_of new r.
Proof.
  induction f as [|f IH]; intros d [|e r] vs m' vs' E; cbn [tour] in E; try discriminate; try (injection E as <- <-; exists []; rewrite app_nil_r; split; [reflexivity|constructor]).
  destruct (acts lt d (Some e) r (fst (body (vs ++ [e])))) as [[[d' c] r']| | |] eqn:Q; cbn [bind fst snd] in E; try discriminate. apply acts_spec in Q as (_ & -> & _). destruct (snd (body (vs ++ [e]))).
  - destruct c as [e'|]; [|discriminate]. apply IH in E as (new & -> & S). exists (e :: new). rewrite <- app_assoc. split; [reflexivity|]. constructor. exact (some_trans _ _ (some_filter _ r) _ S).
  - injection E as <- <-. exists [e]. split; [reflexivity|]. constructor. apply some_none.
Qed.
Lemma tour_sees : (forall vs, snd (body vs) = true) -> forall f d r vs m' vs', tour lt body f d r vs = Ok (m', vs') ->
  forall os, (forall x, In x (made_from body (length vs) vs') -> In x os) -> exists new, vs' = vs ++ new /\ filter (spared lt os) new = filter (spared lt os) r.
Proof.
  intros H. induction f as [|f IH]; intros d [|e r] vs m' vs' E os I; cbn [tour] in E; try discriminate; try (injection E as <- <-; exists []; rewrite app_nil_r; split; reflexivity).
  destruct (acts lt d (Some e) r (fst (body (vs ++ [e])))) as [[[d' c] r']| | |] eqn:Q; cbn [bind fst snd] in E; try discriminate. apply acts_spec in Q as (_ & -> & _). rewrite H in E. destruct c as [e'|]; [|discriminate].
  destruct (tour_grows _ _ _ _ _ _ E) as [nw ->]. rewrite <- app_assoc in I. cbn [app] in I. rewrite made_step in I.
  destruct (IH _ _ _ _ _ E os) as (new & X & S). { intros x J. apply I, in_or_app. right. rewrite <- app_assoc in J. exact J. }
  exists (e :: new). rewrite X, <- app_assoc. split; [reflexivity|]. cbn [filter]. rewrite S.
  assert (Y : filter (spared lt os) (filter (spared lt (fst (body (vs ++ [e])))) r) = filter (spared lt os) r).
  { clear - I. induction r as [|x r IHr]; [reflexivity|]. cbn [filter]. destruct (spared lt (fst (body (vs ++ [e]))) x) eqn:P; cbn [filter]; rewrite IHr; [reflexivity|].
    replace (spared lt os x) with false; [reflexivity|]. symmetry. unfold spared in *. apply negb_false_iff in P. apply negb_false_iff. apply existsb_exists in P as (o & J & P). apply existsb_exists. exists o. split; [|exact P]. apply I, in_or_app. now left. }
  now rewrite Y.
Qed.
End Loop.
End Proofs.
