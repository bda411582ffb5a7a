(** Storage of JSON values: ownership, release and copying. *)
From Coq Require Import Permutation.
From Verif Require Import Base JsonModel JsonSpec JsonHeapModel JsonHeapSpec.
Local Open Scope nat_scope.

Lemma nodup_left {A} (l l' : list A) : NoDup (l ++ l') -> NoDup l.
Proof.
  induction l as [|x l IH]; simpl; intros H; constructor; inversion H; subst; auto.
  intros G. apply H2, in_or_app. auto.
Qed.

Section Own.
Context {F : Type}.
Notation heap := (heap F).
Notation cell := (cell F).

Lemma look_some (h : heap) a c : look h a = Some c -> a < length h.
Proof.
  unfold look. intros H. destruct (Nat.lt_ge_cases a (length h)) as [|G]; auto.
  rewrite nth_overflow in H by assumption. discriminate.
Qed.
Lemma look_alive (h : heap) a : look h a <> None -> a < length h.
Proof. destruct (look h a) eqn:E; [|congruence]. intros _. eauto using look_some. Qed.
Lemma look_app_old (h : heap) x a : a < length h -> look (h ++ [x]) a = look h a.
Proof. intros H. unfold look. now rewrite app_nth1. Qed.
Lemma look_app_new (h : heap) x : look (h ++ [x]) (length h) = x.
Proof. unfold look. rewrite app_nth2, Nat.sub_diag by lia. reflexivity. Qed.
Lemma look_upd_eq (h : heap) a x : a < length h -> look (upd h a x) a = x.
Proof. intros H. unfold look. now rewrite nth_upd_eq. Qed.
Lemma look_upd_neq (h : heap) a b x : a <> b -> look (upd h a x) b = look h b.
Proof. intros H. unfold look. now rewrite nth_upd_neq. Qed.

(** exactly the addresses of [l] are in use *)
Definition own (h : heap) (l : list addr) : Prop := NoDup l /\ forall x, look h x <> None <-> In x l.
Definition agree (l : list addr) (h h' : heap) : Prop := forall x, In x l -> look h' x = look h x.
(** released addresses stay released *)
Definition later (h h' : heap) : Prop :=
  length h <= length h' /\ forall x, x < length h -> look h x = None -> look h' x = None.

Lemma own_perm h l l' : own h l -> Permutation l l' -> own h l'.
Proof.
  intros [N I] P. split; [eapply Permutation_NoDup; eauto|].
  intros x. rewrite I. split; apply Permutation_in; auto using Permutation_sym.
Qed.
Lemma own_lt h l x : own h l -> In x l -> x < length h.
Proof. intros [_ I] H. apply look_alive. now apply I. Qed.
Lemma own_len h l l' : own h (l ++ l') -> length l <= length h.
Proof.
  intros O. assert (H : NoDup l) by (destruct O as [N _]; now apply nodup_left in N).
  rewrite <- (seq_length (length h) 0). apply NoDup_incl_length; [exact H|].
  intros x Hx. apply in_seq. split; [lia|]. eapply own_lt; eauto using in_or_app.
Qed.
Lemma own_disj h l l' x : own h (l ++ l') -> In x l -> In x l' -> False.
Proof.
  intros [N _]. revert N. induction l as [|y l IH]; simpl; intros N; [tauto|].
  inversion N; subst. intros [->|H] H'; [|eauto]. apply H1, in_or_app. auto.
Qed.
Lemma agree_refl l h : agree l h h. Proof. now intros x. Qed.
Lemma agree_trans l h h' h'' : agree l h h' -> agree l h' h'' -> agree l h h''.
Proof. intros A B x Hx. rewrite B by assumption. auto. Qed.
Lemma agree_incl l l' h h' : agree l h h' -> incl l' l -> agree l' h h'.
Proof. intros A I x Hx. auto. Qed.
Lemma later_refl h : later h h. Proof. split; auto. Qed.
Lemma later_trans h h' h'' : later h h' -> later h' h'' -> later h h''.
Proof. intros [A B] [C E]. split; [lia|]. intros x Hx H. apply E; [lia|]. auto. Qed.

Lemma alloc_own h l c : own h l -> own (h ++ [Some c]) (length h :: l).
Proof.
  intros O. split.
  - constructor; [|apply O]. intros H. apply (own_lt _ _ _ O) in H. lia.
  - intros x. simpl. destruct (Nat.eq_dec x (length h)) as [->|N].
    + rewrite look_app_new. split; [auto|discriminate].
    + destruct (Nat.lt_ge_cases x (length h)).
      * rewrite look_app_old by assumption. destruct O as [_ I]. rewrite I. split; [auto|]. intros [E|E]; [congruence|auto].
      * unfold look. rewrite nth_overflow by (rewrite app_length; simpl; lia). split; [congruence|].
        intros [E|E]; [congruence|]. apply (own_lt _ _ _ O) in E. lia.
Qed.
Lemma alloc_agree h l c : own h l -> agree l h (h ++ [c]).
Proof. intros O x Hx. apply look_app_old. eapply own_lt; eauto. Qed.
Lemma alloc_later (h : heap) c : later h (h ++ [c]).
Proof. split; [rewrite app_length; lia|]. intros x Hx. now rewrite look_app_old. Qed.
Lemma wr_ok h a l c : own h (a :: l) -> exists h', wr h a c = Ok h' /\ own h' (a :: l) /\ agree l h h' /\ look h' a = Some c /\ length h' = length h.
Proof.
  intros O. assert (La : a < length h) by (eapply own_lt; eauto; now left).
  exists (upd h a (Some c)). unfold wr.
  destruct (look h a) eqn:E. 2:{ exfalso. destruct O as [_ I]. apply (I a); [now left|]. assumption. }
  assert (Nl : ~ In a l) by (destruct O as [N _]; now inversion N).
  repeat split; try apply O; try (apply look_upd_eq; assumption); try apply upd_length.
  - intros H. destruct (Nat.eq_dec a x) as [->|N]; [now left|].
    rewrite look_upd_neq in H by assumption. now apply O.
  - intros H. destruct (Nat.eq_dec a x) as [->|N].
    + rewrite look_upd_eq by assumption. discriminate.
    + rewrite look_upd_neq by assumption. now apply O.
  - intros x Hx. apply look_upd_neq. congruence.
Qed.
Lemma release_ok h a l : own h (a :: l) -> exists h', release h a = Ok h' /\ own h' l /\ agree l h h' /\ look h' a = None.
Proof.
  intros O. assert (La : a < length h) by (eapply own_lt; eauto; now left).
  exists (upd h a None). unfold release.
  destruct (look h a) eqn:E. 2:{ exfalso. destruct O as [_ I]. apply (I a); [now left|]. assumption. }
  assert (Nl : ~ In a l) by (destruct O as [N _]; now inversion N).
  split; [reflexivity|]. split; [split|split].
  - destruct O as [N _]. now inversion N.
  - intros x. destruct (Nat.eq_dec a x) as [->|N].
    + rewrite look_upd_eq by assumption. tauto.
    + rewrite look_upd_neq by assumption. destruct O as [_ I]. rewrite I. simpl. split; [|auto]. intros [E'|E']; [congruence|auto].
  - intros x Hx. apply look_upd_neq. congruence.
  - now apply look_upd_eq.
Qed.
Lemma wr_later h a (c : cell) h' : wr h a c = Ok h' -> later h h'.
Proof.
  unfold wr. destruct (look h a) eqn:E; [|discriminate]. intros [= <-].
  split; [rewrite upd_length; lia|]. intros x Hx H. rewrite look_upd_neq by congruence. assumption.
Qed.
Lemma release_later (h : heap) a h' : release h a = Ok h' -> later h h'.
Proof.
  unfold release. destruct (look h a) eqn:E; [|discriminate]. intros [= <-].
  split; [rewrite upd_length; lia|]. intros x Hx H. rewrite look_upd_neq by congruence. assumption.
Qed.

(** [h] stores [v] in an object with members [n], using exactly the cells [f] besides the
    object itself; [reps]: a row of objects and all cells they use *)
Inductive nrep (h : heap) : node F -> json F -> list addr -> Prop :=
| rep_null : nrep h NNull JNull []
| rep_bool b : nrep h (NBool b) (JBool b) []
| rep_int z : nrep h (NInt z) (JInt z) []
| rep_flt x : nrep h (NFlt x) (JFlt x) []
| rep_str c s : look h c = Some (CStr s) -> nrep h (NStr c) (JStr s) [c]
| rep_arr c l vs f : look h c = Some (CArr l) -> (Z.of_nat (length l) <= int32_max)%Z -> reps h l vs f -> nrep h (NArr c) (JArr vs) (c :: f)
| rep_obj c m vs f : look h c = Some (CObj m) -> map fst m = map fst vs -> increasing (map fst vs) ->
    reps h (map snd m) (map snd vs) f -> nrep h (NObj c) (JObj vs) (c :: f)
with reps (h : heap) : list addr -> list (json F) -> list addr -> Prop :=
| reps_nil : reps h [] [] []
| reps_cons a n v f1 l vs f2 : look h a = Some (CNode n) -> nrep h n v f1 -> reps h l vs f2 ->
    reps h (a :: l) (v :: vs) (a :: f1 ++ f2).
Scheme nrep_mut := Minimality for nrep Sort Prop
  with reps_mut := Minimality for reps Sort Prop.
Combined Scheme rep_ind from nrep_mut, reps_mut.

Definition holds (h : heap) (a : addr) (v : json F) (f : list addr) : Prop :=
  exists n, look h a = Some (CNode n) /\ nrep h n v f.

Lemma rep_frame h h' :
  (forall n v f, nrep h n v f -> agree f h h' -> nrep h' n v f) /\
  (forall l vs f, reps h l vs f -> agree f h h' -> reps h' l vs f).
Proof.
  apply rep_ind; intros; econstructor; eauto.
  - rewrite H0; [exact H|now left].
  - rewrite H3; [exact H|now left].
  - apply H2. eapply agree_incl; eauto. intros x Hx. now right.
  - rewrite H4; [exact H|now left].
  - apply H3. eapply agree_incl; eauto. intros x Hx. now right.
  - rewrite H4; [exact H|now left].
  - apply H1. eapply agree_incl; eauto. intros x Hx. right. apply in_or_app. auto.
  - apply H3. eapply agree_incl; eauto. intros x Hx. right. apply in_or_app. auto.
Qed.
Lemma nrep_frame h h' n v f : nrep h n v f -> agree f h h' -> nrep h' n v f.
Proof. apply rep_frame. Qed.
Lemma reps_frame h h' l vs f : reps h l vs f -> agree f h h' -> reps h' l vs f.
Proof. apply rep_frame. Qed.
Lemma holds_frame h h' a v f : holds h a v f -> agree (a :: f) h h' -> holds h' a v f.
Proof.
  intros [n [L R]] A. exists n. split; [rewrite A; [exact L|now left]|].
  eapply nrep_frame; eauto. eapply agree_incl; eauto. intros x. now right.
Qed.
Lemma reps_length h l vs f : reps h l vs f -> length l = length vs.
Proof. revert l vs f. fix IH 4. intros l vs f []; simpl; [reflexivity|]. f_equal. eauto. Qed.
Lemma reps_cons_inv h a l vs f : reps h (a :: l) vs f -> exists n v f1 vs' f2, vs = v :: vs' /\ f = a :: f1 ++ f2 /\
  look h a = Some (CNode n) /\ nrep h n v f1 /\ reps h l vs' f2.
Proof. intros H. inversion H; subst. repeat eexists; eauto. Qed.
Lemma reps_nil_inv h vs f : reps h [] vs f -> vs = [] /\ f = [].
Proof. intros H. now inversion H. Qed.
Lemma reps_app h l1 vs1 f1 : reps h l1 vs1 f1 -> forall l2 vs2 f2, reps h l2 vs2 f2 -> reps h (l1 ++ l2) (vs1 ++ vs2) (f1 ++ f2).
Proof.
  revert vs1 f1. induction l1 as [|a l1 IH]; intros vs1 f1 H l2 vs2 f2 H2.
  - apply reps_nil_inv in H. destruct H as [-> ->]. exact H2.
  - apply reps_cons_inv in H. destruct H as (n & v & g1 & vs' & g2 & -> & -> & L & R1 & R2).
    simpl. rewrite <- app_assoc. econstructor; eauto.
Qed.
Lemma reps_app_inv h l1 : forall l2 vs f, reps h (l1 ++ l2) vs f ->
  exists vs1 vs2 f1 f2, vs = vs1 ++ vs2 /\ f = f1 ++ f2 /\ reps h l1 vs1 f1 /\ reps h l2 vs2 f2.
Proof.
  induction l1 as [|a l1 IH]; simpl; intros l2 vs f H.
  - exists [], vs, [], f. repeat split; auto. constructor.
  - apply reps_cons_inv in H. destruct H as (n & v & f1 & vs' & f2 & -> & -> & L & R & H).
    destruct (IH _ _ _ H) as (vs1 & vs2 & g1 & g2 & -> & -> & R1 & R2).
    exists (v :: vs1), vs2, (a :: f1 ++ g1), g2. repeat split; auto.
    + simpl. now rewrite app_assoc.
    + econstructor; eauto.
Qed.
Lemma reps_one h a v f : reps h [a] [v] f <-> exists g, f = a :: g /\ holds h a v g.
Proof.
  split.
  - intros H. apply reps_cons_inv in H. destruct H as (n & w & f1 & vs' & f2 & E & -> & L & R & H).
    apply reps_nil_inv in H. destruct H as [-> ->]. injection E as <-. exists f1. rewrite app_nil_r. split; [reflexivity|]. now exists n.
  - intros (g & -> & n & L & R). rewrite <- (app_nil_r g). econstructor; eauto. constructor.
Qed.
Lemma reps_split h l vs f i a : reps h l vs f -> nth_error l i = Some a ->
  exists v g f1 f2, f = f1 ++ (a :: g) ++ f2 /\ nth_error vs i = Some v /\ holds h a v g /\
    forall h' v' g', agree (f1 ++ f2) h h' -> holds h' a v' g' -> reps h' l (upd vs i v') (f1 ++ (a :: g') ++ f2).
Proof.
  revert vs f i. induction l as [|b l IH]; intros vs f i H N; [destruct i; discriminate|].
  apply reps_cons_inv in H. destruct H as (n & v & f1 & vs' & f2 & -> & -> & H2 & H3 & H6). destruct i as [|i]; simpl in N.
  - injection N as <-. exists v, f1, [], f2. repeat split; auto; [now exists n|].
    intros h' v' g' A (n' & L & R). simpl. econstructor; eauto. eapply reps_frame; eauto.
  - destruct (IH _ _ _ H6 N) as (w & g & g1 & g2 & -> & E & Hd & W).
    exists w, g, (b :: f1 ++ g1), g2. split; [simpl; now rewrite !app_assoc|]. split; [exact E|]. split; [exact Hd|].
    intros h' v' g' A Hd'. simpl in *. rewrite <- app_assoc. econstructor.
    + rewrite A; [exact H2|now left].
    + eapply nrep_frame; eauto. eapply agree_incl; eauto. intros x Hx. right. rewrite !in_app_iff. auto.
    + apply W; auto. eapply agree_incl; eauto. intros x. rewrite !in_app_iff. simpl. rewrite !in_app_iff. intuition.
Qed.
Lemma rep_alive h :
  (forall n v f, nrep h n v f -> forall x, In x f -> look h x <> None) /\
  (forall l vs f, reps h l vs f -> forall x, In x f -> look h x <> None).
Proof.
  apply rep_ind; simpl; intros; try tauto; repeat match goal with H : _ \/ _ |- _ => destruct H as [->|H] end; try congruence; try tauto; eauto.
  match goal with H : In _ (_ ++ _) |- _ => apply in_app_iff in H; destruct H; eauto end.
Qed.

(** release of everything below an object *)
Lemma clear_ok fuel : forall h n v f r, nrep h n v f -> own h (f ++ r) -> length f < fuel ->
  exists h', clear fuel h n = Ok h' /\ own h' r /\ agree r h h'.
Proof.
  induction fuel as [|fuel IH]; intros h n v f r R O L; [lia|].
  set (destroy := fun (h : heap) (a : addr) => n <- rd_node h a ;; h <- clear fuel h n ;; release h a).
  assert (E : forall l vs g h r, reps h l vs g -> own h (g ++ r) -> length g < S fuel ->
    exists h', each destroy h l = Ok h' /\ own h' r /\ agree r h h').
  { induction l as [|a l IHl]; intros vs g h0 r0 R0 O0 L0.
    - apply reps_nil_inv in R0. destruct R0 as [-> ->]. exists h0. auto using agree_refl.
    - apply reps_cons_inv in R0. destruct R0 as (n0 & v0 & f1 & vs0 & f2 & -> & -> & H1 & H2 & H3). simpl. simpl in L0. rewrite app_length in L0.
      unfold destroy at 1, rd_node. rewrite H1. simpl.
      destruct (IH h0 n0 v0 f1 (a :: f2 ++ r0)) as (h1 & E1 & O1 & A1); auto; [|lia|].
      { eapply own_perm; eauto. simpl. rewrite <- app_assoc. apply Permutation_middle. }
      rewrite E1. simpl. destruct (release_ok h1 a (f2 ++ r0)) as (h2 & E2 & O2 & A2 & _); auto.
      rewrite E2. simpl. destruct (IHl vs0 f2 h2 r0) as (h3 & E3 & O3 & A3); auto; try lia.
      { eapply reps_frame; eauto. intros x Hx. rewrite A2 by (apply in_or_app; auto). apply A1. right. apply in_or_app. auto. }
      exists h3. split; [exact E3|]. split; [exact O3|]. intros x Hx. rewrite A3 by assumption.
      rewrite A2 by (apply in_or_app; auto). apply A1. right. apply in_or_app. auto. }
  destruct R; simpl in *; try (exists h; auto using agree_refl; fail).
  - unfold rd_str. rewrite H. simpl. destruct (release_ok h c r) as (h' & E' & O' & A' & _); auto. eauto.
  - unfold rd_arr. rewrite H. simpl. fold destroy. destruct (E l vs f h (c :: r)) as (h1 & E1 & O1 & A1); auto; try lia.
    { eapply own_perm; eauto. apply Permutation_middle. }
    rewrite E1. simpl. destruct (release_ok h1 c r) as (h2 & E2 & O2 & A2 & _); auto. exists h2. repeat split; auto; try apply O2.
    intros x Hx. rewrite A2 by assumption. apply A1. now right.
  - unfold rd_obj. rewrite H. simpl. fold destroy. destruct (E (map snd m) (map snd vs) f h (c :: r)) as (h1 & E1 & O1 & A1); auto; try lia.
    { eapply own_perm; eauto. apply Permutation_middle. }
    rewrite E1. simpl. destruct (release_ok h1 c r) as (h2 & E2 & O2 & A2 & _); auto. exists h2. repeat split; auto; try apply O2.
    intros x Hx. rewrite A2 by assumption. apply A1. now right.
Qed.
End Own.
