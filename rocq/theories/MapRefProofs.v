(** Proofs about references into a Map. *)
From Coq Require Import Permutation Sorted.
From Verif Require Import Base ContModel ContSpec ContProofs MapRefModel MapRefSpec.
Local Open Scope Z_scope.

Section Proofs.
Context {K V : Type} (lt : K -> K -> bool) (WO : weak_order lt) (default : V).
Implicit Types (st : mstore K V) (t : table K V) (m : list (K * (nat * V))).
Local Notation sss := (StronglySorted (fun a b : K * (nat * V) => lt (fst a) (fst b) = true)).
Local Notation at_key k m := (t_find fst lt k m).
Definition ids m : list nat := map (fun e => fst (snd e)) m.

Lemma at_in m k e : sss m -> (at_key k m = Some e <-> In e m /\ same lt (fst e) k = true).
Proof.
  intros S. pose proof (sss_ss fst lt WO m S) as SS. split; [apply (find_some fst lt WO k m e SS)|]. intros [I E].
  destruct (at_key k m) as [x|] eqn:F.
  - destruct (find_some fst lt WO k m x SS F) as [J E2]. f_equal. apply (sss_unique fst lt m x e S J I). apply (same_trans lt WO _ k); [exact E2|]. now rewrite same_sym.
  - pose proof (find_none fst lt WO k m SS F e I). congruence.
Qed.
Lemma at_none m k : sss m -> at_key k m = None -> forall e, In e m -> same lt (fst e) k = false.
Proof. intros S. apply (find_none fst lt WO). now apply sss_ss. Qed.
(** two maps with the same entries around a key *)
Lemma at_ext m m' k : sss m -> sss m' -> (forall e, same lt (fst e) k = true -> In e m <-> In e m') -> at_key k m = at_key k m'.
Proof.
  intros S S' H. destruct (at_key k m) as [e|] eqn:E.
  - symmetry. apply at_in; [exact S'|]. apply at_in in E as [I Q]; [|exact S]. split; [now apply (H e Q)|exact Q].
  - destruct (at_key k m') as [e|] eqn:E'; [|reflexivity]. apply at_in in E' as [I Q]; [|exact S']. apply (H e Q) in I. rewrite (at_none m k S E e I) in Q. discriminate.
Qed.
Lemma at_erase m k q : sss m -> at_key q (t_erase fst lt k m) = if same lt k q then None else at_key q m.
Proof.
  intros S. pose proof (sss_ss fst lt WO m S) as SS. rewrite (erase_filter fst lt WO k m SS).
  assert (S' : sss (filter (fun e => negb (is fst lt k e)) m)) by now apply filter_ss.
  assert (Q : forall e, In e (filter (fun e => negb (is fst lt k e)) m) <-> In e m /\ same lt k (fst e) = false) by (intros e; rewrite filter_In; unfold is; now rewrite negb_true_iff).
  destruct (same lt k q) eqn:E.
  - destruct (at_key q (filter (fun e => negb (is fst lt k e)) m)) as [e|] eqn:F; [|reflexivity]. apply at_in in F as [I J]; [|exact S']. apply Q in I as [_ I].
    rewrite (same_trans lt WO k q (fst e) E) in I; [discriminate|]. now rewrite same_sym.
  - apply at_ext; [exact S'|exact S|]. intros e J. rewrite Q. split; [tauto|]. intros I. split; [exact I|]. destruct (same lt k (fst e)) eqn:X; [|reflexivity].
    rewrite (same_trans lt WO k (fst e) q X J) in E. discriminate.
Qed.
Lemma at_insert m e q : sss m -> at_key q (t_insert fst lt e m) = if same lt (fst e) q then match at_key q m with Some x => Some x | None => Some e end else at_key q m.
Proof.
  intros S. pose proof (insert_sss fst lt WO e m S) as S'. destruct (at_key (fst e) m) as [x|] eqn:F.
  - rewrite (insert_found fst lt e m) by congruence. destruct (same lt (fst e) q) eqn:E; [|reflexivity]. destruct (at_key q m) eqn:G; [reflexivity|].
    apply at_in in F as [I J]; [|exact S]. pose proof (at_none m q S G x I) as X. rewrite (same_trans lt WO (fst x) (fst e) q J E) in X. discriminate.
  - pose proof (insert_new fst lt e m F) as P. destruct (same lt (fst e) q) eqn:E.
    + replace (at_key q m) with (@None (K * (nat * V))).
      * apply at_in; [exact S'|]. split; [|exact E]. apply (Permutation_in _ P). now left.
      * symmetry. destruct (at_key q m) as [x|] eqn:G; [|reflexivity]. apply at_in in G as [I J]; [|exact S]. pose proof (at_none m (fst e) S F x I) as X.
        rewrite (same_trans lt WO (fst x) q (fst e) J) in X; [discriminate|]. now rewrite same_sym.
    + apply at_ext; [exact S'|exact S|]. intros x J. split; intros I.
      * apply (Permutation_in _ (Permutation_sym P)) in I. destruct I as [<-|I]; [congruence|exact I].
      * apply (Permutation_in _ P). now right.
Qed.

(** ** the invariant *)
Definition link st (id : nat) (q : option K) : Prop :=
  (id < mnext st)%nat /\
  match q with
  | Some k => exists k' v, at_key k (entries st) = Some (k', (id, v))
  | None => ~ In id (ids (entries st))
  end.
Definition mrep st t : Prop :=
  shows lt st t /\ sss (entries st) /\ NoDup (ids (entries st)) /\ Forall (fun id => id < mnext st)%nat (ids (entries st)) /\ Forall2 (link st) (mheld st) (keys t).
Lemma id_unique m e e' : NoDup (ids m) -> In e m -> In e' m -> fst (snd e) = fst (snd e') -> e = e'.
Proof.
  induction m as [|x m IH]; intros D I J E; [destruct I|]. cbn [ids map] in D. apply NoDup_cons_iff in D as [D1 D2]. destruct I as [<-|I], J as [<-|J]; [reflexivity| | |auto].
  - exfalso. apply D1. rewrite E. apply (in_map (fun e => fst (snd e)) _ _ J).
  - exfalso. apply D1. rewrite <- E. apply (in_map (fun e => fst (snd e)) _ _ I).
Qed.
Lemma find_id m e : NoDup (ids m) -> In e m -> find (fun x => Nat.eqb (fst (snd x)) (fst (snd e))) m = Some e.
Proof.
  intros D I. destruct (find _ m) as [x|] eqn:F.
  - apply List.find_some in F as [J E]. apply Nat.eqb_eq in E. f_equal. now apply (id_unique m).
  - apply (List.find_none _ _ F) in I. cbn in I. rewrite Nat.eqb_refl in I. discriminate.
Qed.
Lemma find_no_id m id : ~ In id (ids m) -> find (fun x => Nat.eqb (fst (snd x)) id) m = None.
Proof.
  intros N. destruct (find _ m) as [x|] eqn:F; [|reflexivity]. apply List.find_some in F as [J E]. apply Nat.eqb_eq in E. exfalso. apply N. rewrite <- E. apply (in_map (fun e => fst (snd e)) _ _ J).
Qed.
Lemma forall2_nth {X Y} (P : X -> Y -> Prop) us vs h : Forall2 P us vs ->
  match nth_error us h, nth_error vs h with Some u, Some v => P u v | None, None => True | _, _ => False end.
Proof. intros H. revert h. induction H as [|u v us vs P1 _ IH]; intros [|h]; cbn [nth_error]; [exact I|exact I|exact P1|apply IH]. Qed.
Lemma node_spec st t h : mrep st t ->
  match nth_error (keys t) h with
  | Some (Some k) => exists k' id v, node_of st h = Ok (id, v) /\ at_key k (entries st) = Some (k', (id, v)) /\ value t k = Some v
  | _ => node_of st h = UB
  end.
Proof.
  intros (Sh & S & D & B & H). pose proof (forall2_nth _ _ _ h H) as N. unfold node_of. destruct (nth_error (mheld st) h) as [id|]; destruct (nth_error (keys t) h) as [q|]; try contradiction; [|reflexivity].
  destruct N as [_ N]. destruct q as [k|]; [|now rewrite find_no_id]. destruct N as (k' & v & N). exists k', id, v. split; [|split; [exact N|rewrite Sh, N; reflexivity]].
  apply at_in in N as [I _]; [|exact S]. pose proof (find_id _ _ D I) as F. cbn [fst snd] in F. now rewrite F.
Qed.
Definition view st (qs : list (option K)) : table K V := Table (fun k => match at_key k (entries st) with Some e => Some (snd (snd e)) | None => None end) qs.
Lemma view_shows st qs : shows lt st (view st qs). Proof. intros k. reflexivity. Qed.
Lemma forall2_map {X Y} (P Q : X -> Y -> Prop) (f : Y -> Y) us vs : (forall u v, P u v -> Q u (f v)) -> Forall2 P us vs -> Forall2 Q us (map f vs).
Proof. intros H. induction 1; cbn; constructor; auto. Qed.
Lemma forall2_weak {X Y} (P Q : X -> Y -> Prop) us vs : (forall u v, P u v -> Q u v) -> Forall2 P us vs -> Forall2 Q us vs.
Proof. intros H. induction 1; constructor; auto. Qed.

(** making a node *)
Lemma touched_rep st t k : mrep st t -> let st' := touched lt default st k in
  mrep st' (view st' (keys t)) /\
  (forall q, value (view st' (keys t)) q = if same lt k q then Some (match value t k with Some v => v | None => default end) else value t q) /\
  exists k' id v, at_key k (entries st') = Some (k', (id, v)).
Proof.
  intros (Sh & S & D & B & H) st'. assert (S' : sss (entries st')) by (apply insert_sss; assumption).
  assert (At : forall q, at_key q (entries st') = if same lt k q then match at_key q (entries st) with Some x => Some x | None => Some (k, (mnext st, default)) end else at_key q (entries st)).
  { intros q. unfold st', touched, map_touch. cbn [entries]. now rewrite at_insert. }
  assert (Ids : forall id, In id (ids (entries st')) -> In id (ids (entries st)) \/ id = mnext st).
  { intros id I. unfold ids in I. apply in_map_iff in I as (e & <- & I). unfold st', touched, map_touch in I. cbn [entries] in I. apply insert_incl in I as [-> |I]; [now right|].
    left. apply (in_map (fun e => fst (snd e)) _ _ I). }
  assert (Cg : forall q, same lt k q = true -> at_key q (entries st) = at_key k (entries st)).
  { intros q E. destruct (at_key k (entries st)) as [e|] eqn:F.
    - apply at_in in F as [I J]; [|exact S]. apply at_in; [exact S|]. split; [exact I|]. exact (same_trans lt WO _ k q J E).
    - destruct (at_key q (entries st)) as [e|] eqn:G; [|reflexivity]. apply at_in in G as [I J]; [|exact S]. pose proof (at_none _ k S F e I) as X.
      rewrite (same_trans lt WO _ q k J) in X; [discriminate|]. now rewrite same_sym. }
  split; [|split].
  - split; [apply view_shows|]. split; [exact S'|]. split; [|split].
    + destruct (at_key k (entries st)) as [x|] eqn:F.
      * unfold st', touched, map_touch. cbn [entries]. rewrite insert_found; [exact D|]. cbn [fst]. congruence.
      * pose proof (insert_new fst lt (k, (mnext st, default)) (entries st) F) as P. apply (Permutation_NoDup (l := mnext st :: ids (entries st))).
        -- apply (Permutation_map (fun e => fst (snd e))) in P. exact P.
        -- constructor; [|exact D]. intros I. apply (proj1 (Forall_forall _ _) B) in I. lia.
    + apply Forall_forall. intros id I. cbn [touched mnext st']. apply Ids in I as [I|I]; [apply (proj1 (Forall_forall _ _) B) in I|]; lia.
    + cbn [view keys]. refine (forall2_weak _ _ _ _ _ H). intros id q (L & N). split; [cbn; lia|]. destruct q as [q|]; [|intros I; apply Ids in I as [I|I]; [contradiction|lia]].
      destruct N as (k' & v & N). exists k', v. rewrite At, N. now destruct (same lt k q).
  - intros q. cbn [view value]. rewrite At, !Sh. destruct (same lt k q) eqn:E; [|reflexivity]. rewrite (Cg q E). destruct (at_key k (entries st)) as [e|]; reflexivity.
  - rewrite At, (same_refl lt WO). destruct (at_key k (entries st)) as [[k' [id v]]|]; eauto.
Qed.
(** writing into a node *)
Lemma written_rep st t k k' id v w : mrep st t -> at_key k (entries st) = Some (k', (id, v)) -> let st' := written st id w in
  mrep st' (view st' (keys t)) /\ forall q, value (view st' (keys t)) q = if same lt k q then Some w else value t q.
Proof.
  intros (Sh & S & D & B & H) F st'. set (g := fun e : K * (nat * V) => if Nat.eqb (fst (snd e)) id then (fst e, (id, w)) else e).
  assert (Gk : forall e, fst (g e) = fst e) by (intros e; unfold g; destruct (Nat.eqb _ id); reflexivity).
  assert (Gi : forall e, fst (snd (g e)) = fst (snd e)) by (intros e; unfold g; destruct (Nat.eqb_spec (fst (snd e)) id); cbn; congruence).
  change (entries st') with (map g (entries st)) in *.
  assert (At : forall q m, at_key q (map g m) = match at_key q m with Some e => Some (g e) | None => None end).
  { intros q m. induction m as [|e m IH]; [reflexivity|]. cbn [map t_find]. rewrite Gk. destruct (lt (fst e) q); [exact IH|]. destruct (lt q (fst e)); reflexivity. }
  assert (Ids : ids (map g (entries st)) = ids (entries st)) by (unfold ids; rewrite map_map; apply map_ext; exact Gi).
  assert (S' : sss (map g (entries st))).
  { clear - S Gk. induction S as [|e m _ IH F]; cbn [map]; constructor; [exact IH|]. apply Forall_map. eapply Forall_impl; [|exact F]. intros x. cbn. now rewrite !Gk. }
  assert (E' : entries st' = map g (entries st)) by reflexivity. split.
  - split; [apply view_shows|]. rewrite E', Ids. split; [exact S'|]. split; [exact D|]. split; [exact B|]. cbn [view keys]. refine (forall2_weak _ _ _ _ _ H). intros i q (L & N). split; [exact L|]. rewrite E', Ids.
    destruct q as [q|]; [|exact N]. destruct N as (q' & u & N). rewrite At, N. unfold g. cbn [fst snd]. destruct (Nat.eqb_spec i id) as [->|]; eauto.
  - intros q. cbn [view value]. rewrite E', At, Sh. apply at_in in F as [I J]; [|exact S]. cbn [fst] in J. destruct (same lt k q) eqn:E.
    + assert (Q : at_key q (entries st) = Some (k', (id, v))) by (apply at_in; [exact S|split; [exact I|exact (same_trans lt WO _ k q J E)]]). rewrite Q. unfold g. cbn [fst snd]. now rewrite Nat.eqb_refl.
    + destruct (at_key q (entries st)) as [e|] eqn:Q; [|reflexivity]. apply at_in in Q as [I2 J2]; [|exact S]. unfold g. destruct (Nat.eqb_spec (fst (snd e)) id) as [X|]; [|reflexivity].
      rewrite (id_unique _ e (k', (id, v)) D I2 I X) in J2. cbn [fst] in J2. rewrite (same_trans lt WO k k' q) in E; [discriminate| |exact J2]. now rewrite same_sym.
Qed.
Lemma get_spec m k : map_get lt m k = match at_key k m with Some e => Ok (snd e) | None => Err end.
Proof. unfold map_get. destruct (at_key k m) as [[k' n]|]; reflexivity. Qed.
Lemma kept_rep st t k k' id v : mrep st t -> at_key k (entries st) = Some (k', (id, v)) -> mrep (kept st (id, v)) (Table (value t) (keys t ++ [Some k])).
Proof.
  intros (Sh & S & D & B & H) F. split; [exact Sh|]. split; [exact S|]. split; [exact D|]. split; [exact B|]. cbn [kept mheld keys fst]. apply Forall2_app; [exact H|].
  constructor; [|constructor]. split; [|exists k', v; exact F]. apply (proj1 (Forall_forall _ _) B). apply at_in in F as [I _]; [|exact S]. apply (in_map (fun e => fst (snd e)) _ _ I).
Qed.

Lemma gstep_ok : step_ok (gstep lt default) mrep glegal gloose (gpost lt default) (fun _ => True) (fun _ _ => True).
Proof.
  intros st t o n R _ _ _. destruct o as [k v|k h|k| |k|k|k|h|h v]; cbn [gstep glegal gloose].
  - destruct (touched_rep st t k R) as (R1 & V1 & k' & id & u & F). rewrite get_spec, F. cbn [bind fst snd]. destruct (written_rep _ _ k k' id u v R1 F) as [R2 V2].
    split; [exact I|]. split; [exact I|]. eexists. split; [exact R2|]. cbn [gpost]. split; [reflexivity|]. split; [|reflexivity]. intros q. rewrite V2, V1. now destruct (same lt k q).
  - destruct (touched_rep st t k R) as (R1 & V1 & k' & id & u & F). rewrite get_spec, F. cbn [bind fst snd]. pose proof (node_spec _ _ h R1) as N. pose proof (node_spec _ _ h R) as N0. cbn [view keys] in N.
    unfold alive. destruct (nth_error (keys t) h) as [[q|]|] eqn:E; [|rewrite N; cbn [bind]; split; [intros [x X]; discriminate|exact I] ..].
    destruct N as (q' & i & w & -> & Fq & Vq). cbn [bind fst snd]. split; [eauto|]. split; [exact I|]. destruct (written_rep _ _ k k' id u w R1 F) as [R2 V2]. eexists. split; [exact R2|].
    cbn [gpost]. split; [reflexivity|]. split; [reflexivity|]. exists q, w. split; [exact E|]. destruct N0 as (q0 & i0 & w0 & _ & F0 & V0).
    split; [|intros x; rewrite V2, V1; now destruct (same lt k x)].
    change (value (view (touched lt default st k) (keys t)) q = Some w) in Vq. rewrite V1 in Vq. destruct (same lt k q) eqn:X; [|exact Vq]. rewrite V0. rewrite <- Vq. f_equal.
    (* the node of the reference is that of the key *)
    pose proof R as (Sh & S & _). rewrite Sh in *. apply at_in in F0 as [I0 J0]; [|exact S].
    assert (Q : at_key k (entries st) = Some (q0, (i0, w0))) by (apply at_in; [exact S|split; [exact I0|apply (same_trans lt WO _ q k J0); now rewrite same_sym]]). now rewrite Q.
  - pose proof R as (Sh & S & D & B & H). split; [exact I|]. split; [exact I|].
    set (st' := MStore (t_erase fst lt k (entries st)) (mnext st) (mheld st)). set (f := fun o : option K => match o with Some q => if same lt k q then None else Some q | None => None end).
    assert (Er : t_erase fst lt k (entries st) = filter (fun e => negb (is fst lt k e)) (entries st)) by (apply (erase_filter fst lt WO), sss_ss; assumption).
    assert (Ids : forall id, In id (ids (entries st')) -> exists e, In e (entries st) /\ same lt k (fst e) = false /\ fst (snd e) = id).
    { intros id J. unfold ids in J. apply in_map_iff in J as (e & <- & J). unfold st' in J. cbn [entries] in J. rewrite Er in J. apply filter_In in J as [J1 J2]. apply negb_true_iff in J2. now exists e. }
    exists (view st' (map f (keys t))). split.
    + split; [apply view_shows|]. split; [unfold st'; cbn [entries]; rewrite Er; now apply filter_ss|]. split; [|split].
      * unfold st'. cbn [entries]. rewrite Er. clear - D. induction (entries st) as [|e m IH]; [constructor|]. cbn [ids map filter] in *. apply NoDup_cons_iff in D as [D1 D2].
        destruct (negb (is fst lt k e)); [|auto]. cbn [ids map]. constructor; [|auto]. intros J. apply D1. unfold ids in J. apply in_map_iff in J as (x & E & J). apply filter_In in J as [J _]. rewrite <- E. apply (in_map (fun e => fst (snd e)) _ _ J).
      * apply Forall_forall. intros id J. apply Ids in J as (e & J & _ & <-). apply (proj1 (Forall_forall _ _) B). apply (in_map (fun e => fst (snd e)) _ _ J).
      * cbn [view keys]. refine (forall2_map _ _ _ _ _ _ H). intros id q (L & N). split; [exact L|]. destruct q as [q|]; cbn [f].
        -- destruct N as (q' & u & N). destruct (same lt k q) eqn:E; [|exists q', u; unfold st'; cbn [entries]; now rewrite at_erase, E].
           intros J. apply Ids in J as (e & J & X & Y). apply at_in in N as [N1 N2]; [|exact S]. rewrite (id_unique _ e (q', (id, u)) D J N1 Y) in X. cbn [fst] in *.
           rewrite (same_trans lt WO k q q' E) in X; [discriminate|]. now rewrite same_sym.
        -- intros J. apply N. apply Ids in J as (e & J & _ & <-). apply (in_map (fun e => fst (snd e)) _ _ J).
    + cbn [gpost]. split; [reflexivity|]. split; [|reflexivity]. intros q. cbn [view value st' entries]. rewrite at_erase by exact S. rewrite Sh. now destruct (same lt k q).
  - pose proof R as (Sh & S & D & B & H). split; [exact I|]. split; [exact I|]. exists (Table (fun _ => None) (map (fun _ => None) (keys t))). split.
    + split; [intros q; reflexivity|]. split; [constructor|]. split; [constructor|]. split; [constructor|]. cbn [keys mheld]. refine (forall2_map _ _ _ _ _ _ H). intros id q (L & _). split; [exact L|]. intros [].
    + cbn [gpost]. auto.
  - pose proof R as (Sh & _). rewrite get_spec, Sh. destruct (at_key k (entries st)) as [e|] eqn:F; cbn [bind]; [|split; [congruence|auto]]. split; [discriminate|]. split; [exact I|]. exists t. split; [exact R|].
    cbn [gpost]. exists (snd (snd e)). rewrite Sh, F. auto.
  - pose proof R as (Sh & _). rewrite get_spec, Sh. destruct (at_key k (entries st)) as [[k' [id v]]|] eqn:F; cbn [bind]; [|split; [congruence|auto]]. split; [discriminate|]. split; [exact I|].
    eexists. split; [exact (kept_rep st t k k' id v R F)|]. cbn [gpost]. auto.
  - destruct (touched_rep st t k R) as (R1 & V1 & k' & id & u & F). rewrite get_spec, F. cbn [bind snd]. split; [exact I|]. split; [exact I|]. eexists. split; [exact (kept_rep _ _ k k' id u R1 F)|].
    cbn [gpost]. split; [reflexivity|]. split; [reflexivity|]. intros q. cbn [value]. rewrite V1. destruct (same lt k q); [|reflexivity]. now destruct (value t k).
  - pose proof (node_spec st t h R) as N. unfold alive. destruct (nth_error (keys t) h) as [[q|]|] eqn:E; [|rewrite N; cbn [bind]; split; [intros [x X]; discriminate|exact I] ..].
    destruct N as (q' & i & w & -> & _ & Vq). cbn [bind snd]. split; [eauto|]. split; [exact I|]. exists t. split; [exact R|]. cbn [gpost]. split; [reflexivity|]. exists q, w. auto.
  - pose proof (node_spec st t h R) as N. unfold alive. destruct (nth_error (keys t) h) as [[q|]|] eqn:E; [|rewrite N; cbn [bind]; split; [intros [x X]; discriminate|exact I] ..].
    destruct N as (q' & i & w & -> & F & _). cbn [bind fst]. split; [eauto|]. split; [exact I|]. destruct (written_rep st t q q' i w v R F) as [R2 V2]. eexists. split; [exact R2|].
    cbn [gpost]. split; [reflexivity|]. split; [reflexivity|]. exists q. split; [exact E|]. exact V2.
Qed.
End Proofs.
