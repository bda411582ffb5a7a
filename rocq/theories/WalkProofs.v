(** Proofs about loops over ordered containers that are changed by the body. *)
From Coq Require Import Permutation Sorted.
From Verif Require Import Base ContModel ContSpec ContProofs WalkModel WalkSpec.
Local Open Scope Z_scope.

Lemma filter_map_comm {A B} (f : A -> B) (p : B -> bool) l : filter p (map f l) = map f (filter (fun x => p (f x)) l).
Proof. induction l as [|x l IH]; [reflexivity|]. cbn [map filter]. destruct (p (f x)); cbn [map]; now rewrite IH. Qed.
Lemma filter_none {A} (p : A -> bool) l : (forall x, In x l -> p x = false) -> filter p l = [].
Proof.
  induction l as [|x l IH]; intros H; [reflexivity|]. cbn [filter]. rewrite (H x (or_introl eq_refl)). apply IH. intros y Y. apply H. now right.
Qed.
Lemma filter_perm {A} (p : A -> bool) l : Permutation l (filter (fun x => negb (p x)) l ++ filter p l).
Proof.
  induction l as [|x l IH]; [constructor|]. cbn [filter]. destruct (p x); cbn [negb app].
  - rewrite IH at 1. apply Permutation_middle.
  - now constructor.
Qed.
Lemma filter_length_add {A} (p q : A -> bool) l : (forall x, In x l -> p x = negb (q x)) -> (length (filter p l) + length (filter q l) = length l)%nat.
Proof.
  induction l as [|x l IH]; intros H; [reflexivity|]. cbn [filter]. rewrite (H x (or_introl eq_refl)). specialize (IH (fun y Y => H y (or_intror Y))).
  destruct (q x); cbn [negb length]; lia.
Qed.
Lemma ss_app {A} (R : A -> A -> Prop) a b : StronglySorted R (a ++ b) <-> StronglySorted R a /\ StronglySorted R b /\ forall x y, In x a -> In y b -> R x y.
Proof.
  induction a as [|x a IH]; cbn [app].
  - split; [intros H; split; [constructor|split; [exact H|intros ? ? []]]|tauto].
  - split.
    + intros H. inversion H as [|? ? S F]; subst. apply IH in S as (S1 & S2 & S3). rewrite Forall_app in F. destruct F as [F1 F2]. split; [now constructor|]. split; [exact S2|].
      intros u v [<-|U] V; [now apply (proj1 (Forall_forall _ _) F2)|auto].
    + intros (S1 & S2 & S3). inversion S1 as [|? ? S F]; subst. constructor.
      * apply IH. split; [exact S|]. split; [exact S2|]. intros u v U V. apply S3; [now right|exact V].
      * apply Forall_app. split; [exact F|]. apply Forall_forall. intros v V. apply S3; [now left|exact V].
Qed.

Section Lists.
Context {E K : Type} (key : E -> K) (lt : K -> K -> bool) (WO : weak_order lt) (multi : bool).
Notation ss := (StronglySorted (fun a b => lt (key b) (key a) = false)).
Notation sss := (StronglySorted (fun a b => lt (key a) (key b) = true)).
Notation change := (change key lt multi).
Notation changes := (changes key lt multi).
Notation smaller := (smaller key lt).
Notation removes := (@removes E K lt).
Definition inv (l : list E) : Prop := if multi then ss l else sss l.
Lemma inv_ss l : inv l -> ss l.
Proof. unfold inv. destruct multi; [auto|apply (sss_ss key lt WO)]. Qed.
Lemma key_irr a : lt a a = false. Proof. apply (lt_irr lt WO). Qed.
Lemma between a b c : lt b a = false -> lt c b = false -> lt c a = false. Proof. apply (nlt_trans lt WO). Qed.
Lemma lt_le a b c : lt a b = true -> lt c b = false -> lt a c = true.
Proof. intros H N. destruct (lt_neg lt WO a c b H) as [H'|H']; [exact H'|congruence]. Qed.
Lemma le_lt a b c : lt b a = false -> lt b c = true -> lt a c = true.
Proof. intros N H. destruct (lt_neg lt WO b a c H) as [H'|H']; [congruence|exact H']. Qed.
Lemma has_key_find k l : ss l -> has_key key lt k l = match t_find key lt k l with Some _ => true | None => false end.
Proof.
  intros S. rewrite (find_filter key lt WO k l S). unfold has_key. clear S. induction l as [|x l IH]; [reflexivity|]. cbn [existsb filter]. unfold is at 1. destruct (same lt k (key x)); [reflexivity|exact IH].
Qed.
Lemma multi_filter e l : ss l -> t_insert_multi key lt e l = filter (fun x => negb (lt (key e) (key x))) l ++ e :: filter (fun x => lt (key e) (key x)) l.
Proof.
  induction l as [|x l IH]; intros S; [reflexivity|]. cbn [t_insert_multi filter]. inversion S as [|? ? S' F]; subst. destruct (lt (key e) (key x)) eqn:L; cbn [negb].
  - rewrite Forall_forall in F. rewrite filter_none, filter_all; [reflexivity| |]; intros y Y.
    + apply (lt_le _ (key x)); [exact L|now apply F].
    + apply negb_false_iff. apply (lt_le _ (key x)); [exact L|now apply F].
  - cbn [app]. now rewrite IH.
Qed.
Lemma same_lt a b : same lt a b = false -> lt a b = false -> lt b a = true.
Proof. unfold same. destruct (lt a b), (lt b a); cbn; congruence. Qed.
Lemma unique_filter e l : sss l -> t_insert key lt e l =
  if has_key key lt (key e) l then l else filter (fun x => negb (lt (key e) (key x))) l ++ e :: filter (fun x => lt (key e) (key x)) l.
Proof.
  intros S. pose proof (sss_ss key lt WO l S) as SS. rewrite (has_key_find (key e) l SS). destruct (t_find key lt (key e) l) eqn:F; [apply insert_found; congruence|].
  rewrite <- (multi_filter e l SS). clear S SS. revert F. induction l as [|x l IH]; intros F; [reflexivity|]. cbn [t_find t_insert t_insert_multi] in *.
  destruct (lt (key x) (key e)) eqn:A.
  - rewrite (lt_asym lt WO _ _ A). now rewrite IH.
  - destruct (lt (key e) (key x)); [reflexivity|discriminate].
Qed.
Lemma change_ins e l : inv l -> change l (TIns e) = Ok ((if multi then t_insert_multi key lt else t_insert key lt) e l).
Proof.
  unfold inv, WalkSpec.change. destruct multi; cbn [negb andb]; intros S; [now rewrite multi_filter|]. rewrite unique_filter by exact S. now destruct (has_key key lt (key e) l).
Qed.
Lemma change_del k l : inv l -> change l (TDel k) = if multi && match t_find key lt k l with None => true | _ => false end then Err else Ok (t_erase key lt k l).
Proof.
  intros I. pose proof (inv_ss l I) as S. unfold WalkSpec.change. rewrite (has_key_find k l S), (erase_filter key lt WO k l S). now destruct (t_find key lt k l).
Qed.
Lemma change_inv l o l' : inv l -> change l o = Ok l' -> inv l'.
Proof.
  intros I H. destruct o as [e|k|].
  - rewrite (change_ins e l I) in H. injection H as <-. unfold inv in *. destruct multi; [now apply multi_ss|now apply insert_sss].
  - rewrite (change_del k l I) in H. destruct (multi && _); [discriminate|]. injection H as <-. pose proof (inv_ss l I) as S. rewrite (erase_filter key lt WO k l S). unfold inv in *. destruct multi; now apply filter_ss.
  - injection H as <-. unfold inv. destruct multi; constructor.
Qed.
Lemma inv_split A n B : inv (A ++ n :: B) ->
  (forall x, In x A -> lt (key n) (key x) = false) /\ (forall x, In x B -> lt (key x) (key n) = false) /\
  (multi = false -> (forall x, In x A -> lt (key x) (key n) = true) /\ (forall x, In x B -> lt (key n) (key x) = true)).
Proof.
  intros I. pose proof (inv_ss _ I) as S. apply ss_app in S as (_ & S2 & S3). inversion S2 as [|? ? _ F]; subst. rewrite Forall_forall in F. split; [intros x X; apply (S3 x n X); now left|]. split; [exact F|].
  intros M. unfold inv in I. rewrite M in I. apply ss_app in I as (_ & I2 & I3). inversion I2 as [|? ? _ F']; subst. rewrite Forall_forall in F'. split; [intros x X; apply (I3 x n X); now left|exact F'].
Qed.
Lemma smaller_split A n B : inv (A ++ n :: B) -> smaller (key n) (A ++ n :: B) = smaller (key n) A.
Proof.
  intros I. apply inv_split in I as (_ & HB & _). unfold WalkSpec.smaller. rewrite filter_app, app_length. rewrite (filter_none _ (n :: B)); [cbn; lia|].
  intros x [<-|X]; [apply key_irr|now apply HB].
Qed.
Lemma smaller_le k l : (smaller k l <= length l)%nat.
Proof. unfold WalkSpec.smaller. induction l as [|x l IH]; [reflexivity|]. cbn [filter]. destruct (lt (key x) k); cbn [length]; lia. Qed.
(** the element at which the loop stands keeps its place among the equal ones *)
Definition stays (os : list (tcall E K)) A n B A' B' : Prop :=
  (length A' + smaller (key n) A = length A + smaller (key n) A')%nat /\
  (forall x, In x B -> existsb (removes (key x)) os = false -> In x B') /\
  (forall x, In x B' -> In x B \/ In (TIns x) os) /\
  ((forall e, In (TIns e) os -> backward key lt multi n e) -> (length B' <= length B)%nat).
Lemma has_key_in k l : has_key key lt k l = true <-> exists x, In x l /\ same lt k (key x) = true.
Proof. unfold has_key. rewrite existsb_exists. reflexivity. Qed.
Lemma change_split A n B o l' : inv (A ++ n :: B) -> change (A ++ n :: B) o = Ok l' -> removes (key n) o = false ->
  exists A' B', l' = A' ++ n :: B' /\ stays [o] A n B A' B'.
Proof.
  intros I H R. pose proof (inv_split A n B I) as (HA & HB & HU). destruct o as [e|k|]; [| |discriminate].
  - cbn [WalkSpec.change] in H. destruct (negb multi && has_key key lt (key e) (A ++ n :: B)) eqn:Q.
    + injection H as <-. exists A, B. split; [reflexivity|]. unfold stays. repeat split; auto.
    + injection H as <-. destruct (lt (key e) (key n)) eqn:L.
      * exists (filter (fun x => negb (lt (key e) (key x))) A ++ e :: filter (fun x => lt (key e) (key x)) A), B. split.
        -- rewrite !filter_app. rewrite (filter_none _ (n :: B)), (filter_all _ (n :: B)).
           ++ rewrite app_nil_r, <- !app_assoc. reflexivity.
           ++ intros x [<-|X]; [exact L|]. apply (lt_le _ (key n)); auto.
           ++ intros x [<-|X]; apply negb_false_iff; [exact L|]. apply (lt_le _ (key n)); auto.
        -- assert (P : Permutation (e :: A) (filter (fun x => negb (lt (key e) (key x))) A ++ e :: filter (fun x => lt (key e) (key x)) A)).
           { rewrite <- Permutation_middle. constructor. apply filter_perm. }
           split; [|split; [auto|split; [auto|lia]]]. rewrite <- (Permutation_length P). unfold WalkSpec.smaller.
           assert (P2 : forall X Y, Permutation X Y -> length (filter (fun x => lt (key x) (key n)) X) = length (filter (fun x => lt (key x) (key n)) Y)).
           { clear. induction 1; cbn [filter]; auto; try (destruct (lt _ _)); try (destruct (lt _ _)); cbn [length]; lia. }
           rewrite <- (P2 _ _ P). cbn [filter]. rewrite L. cbn [length]. lia.
      * exists A, (filter (fun x => negb (lt (key e) (key x))) B ++ e :: filter (fun x => lt (key e) (key x)) B). split.
        -- rewrite !filter_app. rewrite (filter_all _ A), (filter_none _ A).
           ++ cbn [filter app]. rewrite L. cbn [negb app]. rewrite <- !app_assoc. reflexivity.
           ++ intros x X. apply (between (key x) (key n)); auto.
           ++ intros x X. apply negb_true_iff. apply (between (key x) (key n)); auto.
        -- split; [lia|]. split; [|split].
           ++ intros x X _. apply in_or_app. destruct (lt (key e) (key x)) eqn:G; [right; right|left]; apply filter_In; rewrite ?G; auto.
           ++ intros x X. apply in_app_or in X as [X|[<-|X]]; [left; now apply filter_In in X|right; now left|left; now apply filter_In in X].
           ++ intros Bk. specialize (Bk e (or_introl eq_refl)). unfold backward in Bk. destruct multi; [congruence|]. exfalso. cbn [negb andb] in Q.
              assert (T : has_key key lt (key e) (A ++ n :: B) = true); [|congruence]. apply has_key_in. exists n. split; [apply in_or_app; right; now left|]. unfold same. now rewrite L, Bk.
  - cbn [WalkSpec.change] in H. destruct (multi && negb (has_key key lt k (A ++ n :: B))); [discriminate|]. injection H as <-. cbn [WalkSpec.removes] in R.
    exists (filter (fun x => negb (same lt k (key x))) A), (filter (fun x => negb (same lt k (key x))) B). split.
    + rewrite filter_app. cbn [filter]. now rewrite R.
    + split; [|split; [|split]].
      * unfold WalkSpec.smaller. clear I HU. induction A as [|x A IH]; [reflexivity|]. cbn [filter]. specialize (IH (fun y Y => HA y (or_intror Y))). pose proof (HA x (or_introl eq_refl)) as Hx.
        destruct (same lt k (key x)) eqn:G; cbn [negb].
        -- assert (Lx : lt (key x) (key n) = true).
           { destruct (lt (key x) (key n)) eqn:L; [reflexivity|]. assert (same lt k (key n) = true); [|congruence]. apply (same_trans lt WO k (key x)); [exact G|]. unfold same. now rewrite L, Hx. }
           rewrite Lx. cbn [length]. lia.
        -- cbn [filter]. destruct (lt (key x) (key n)); cbn [length]; lia.
      * intros x X N. apply filter_In. split; [exact X|]. cbn [existsb WalkSpec.removes] in N. now rewrite orb_false_r in N; rewrite N.
      * intros x X. left. now apply filter_In in X.
      * intros _. clear. induction B as [|x B IH]; [reflexivity|]. cbn [filter]. destruct (negb _); cbn [length]; lia.
Qed.
Lemma changes_split os : forall A n B l', inv (A ++ n :: B) -> changes (A ++ n :: B) os = Ok l' -> existsb (removes (key n)) os = false ->
  exists A' B', l' = A' ++ n :: B' /\ stays os A n B A' B'.
Proof.
  induction os as [|o os IH]; intros A n B l' I H R.
  - injection H as <-. exists A, B. split; [reflexivity|]. unfold stays. repeat split; auto.
  - cbn [WalkSpec.changes existsb] in *. apply orb_false_iff in R as [R1 R2]. destruct (change (A ++ n :: B) o) as [l1| | |] eqn:C; try discriminate. cbn [bind] in H.
    destruct (change_split A n B o l1 I C R1) as (A1 & B1 & -> & T1). pose proof (change_inv _ _ _ I C) as I1. destruct (IH A1 n B1 l' I1 H R2) as (A2 & B2 & -> & T2).
    exists A2, B2. split; [reflexivity|]. destruct T1 as (a1 & a2 & a3 & a4), T2 as (b1 & b2 & b3 & b4). split; [lia|]. split; [|split].
    + intros x X N. apply orb_false_iff in N as [N1 N2]. apply b2; [|exact N2]. apply a2; [exact X|]. cbn [existsb]. now rewrite N1.
    + intros x X. destruct (b3 x X) as [Y|Y]; [|right; now right]. destruct (a3 x Y) as [Z|[Z|[]]]; [now left|right; left; exact Z].
    + intros Bk. specialize (b4 (fun e He => Bk e (or_intror He))). specialize (a4 (fun e He => Bk e (match He with or_introl q => or_introl q | or_intror q => match q with end end))). lia.
Qed.
Lemma changes_inv os : forall l l', inv l -> changes l os = Ok l' -> inv l'.
Proof.
  induction os as [|o os IH]; intros l l' I H; [now injection H as <-|]. cbn [WalkSpec.changes] in H. destruct (change l o) as [l1| | |] eqn:C; try discriminate. apply (IH l1); [|exact H]. now apply (change_inv l o).
Qed.
End Lists.

Section Trees.
Context {E K : Type} (key : E -> K) (lt : K -> K -> bool) (WO : weak_order lt) (multi : bool).
Notation nk := (nkey key).
Notation ids st := (map fst (nodes st)).
Definition lift (id : nat) (o : tcall E K) : tcall (nat * E) K := match o with TIns e => TIns (id, e) | TDel k => TDel k | TWipe => TWipe end.
Definition wf (st : tree E) : Prop := inv nk lt multi (nodes st) /\ NoDup (ids st) /\ Forall (fun i => i < fresh st)%nat (ids st).
Definition count (o : tcall E K) : nat := match o with TIns _ => 1 | _ => 0 end.
Lemma step_change st o : wf st -> tcall_step key lt multi st o = omap (fun l => Tree l (count o + fresh st)) (change nk lt multi (nodes st) (lift (fresh st) o)).
Proof.
  intros (I & _). destruct o as [e|k|]; cbn [lift count].
  - rewrite (change_ins nk lt WO multi (fresh st, e) _ I). cbn [tcall_step omap bind]. now destruct multi.
  - rewrite (change_del nk lt WO multi k _ I). cbn [tcall_step]. now destruct (multi && _).
  - reflexivity.
Qed.
Lemma has_key_map k l : has_key nk lt k l = has_key key lt k (map snd l).
Proof. unfold has_key. induction l as [|x l IH]; [reflexivity|]. cbn [existsb map]. now rewrite IH. Qed.
Lemma change_map id o l : omap (map snd) (change nk lt multi l (lift id o)) = change key lt multi (map snd l) o.
Proof.
  destruct o as [e|k|]; cbn [lift change]; [| |reflexivity].
  - unfold nkey at 1. cbn [snd]. rewrite has_key_map. destruct (negb multi && _); cbn [omap bind]; [reflexivity|]. now rewrite map_app, !filter_map_comm.
  - rewrite has_key_map. destruct (multi && _); cbn [omap bind]; [reflexivity|]. now rewrite filter_map_comm.
Qed.
Lemma change_ids id o l l' x : change nk lt multi l (lift id o) = Ok l' -> In x l' -> In x l \/ (fst x = id /\ count o = 1%nat).
Proof.
  destruct o as [e|k|]; cbn [lift change count]; intros H X.
  - destruct (negb multi && _); injection H as <-; [now left|]. apply in_app_or in X as [X|[<-|X]]; [left; now apply filter_In in X|right; auto|left; now apply filter_In in X].
  - destruct (multi && _); [discriminate|]. injection H as <-. left. now apply filter_In in X.
  - injection H as <-. destruct X.
Qed.
Lemma nodup_filter {A} (f : A -> nat) p l : NoDup (map f l) -> NoDup (map f (filter p l)).
Proof.
  induction l as [|x l IH]; intros D; [constructor|]. cbn [map filter] in *. apply NoDup_cons_iff in D as [D1 D2]. destruct (p x); [|auto]. cbn [map]. apply NoDup_cons_iff. split; [|auto].
  intros J. apply D1. apply in_map_iff in J as (y & <- & Y). apply filter_In in Y as [Y _]. now apply in_map.
Qed.
Lemma step_wf st o st' : wf st -> tcall_step key lt multi st o = Ok st' -> wf st' /\ (fresh st <= fresh st')%nat /\ (forall i, (i < fresh st)%nat -> ~ In i (ids st) -> ~ In i (ids st')).
Proof.
  intros W H. pose proof W as (I & D & F). rewrite (step_change st o W) in H. destruct (change nk lt multi (nodes st) (lift (fresh st) o)) as [l| | |] eqn:C; try discriminate. injection H as <-.
  rewrite Forall_forall in F. assert (G : forall i, In i (map fst l) -> In i (ids st) \/ (i = fresh st /\ count o = 1%nat)).
  { intros i J. apply in_map_iff in J as (x & <- & X). destruct (change_ids _ _ _ _ x C X) as [Y|Y]; [left; now apply in_map|right; exact Y]. }
  split; [split; [|split]|].
  - exact (change_inv nk lt WO multi _ _ _ I C).
  - cbn [nodes]. destruct o as [e|k|]; cbn [lift change] in C.
    + destruct (negb multi && _); injection C as <-; [exact D|].
      assert (P : Permutation (fresh st :: ids st) (map fst (filter (fun x => negb (lt (nk (fresh st, e)) (nk x))) (nodes st) ++ (fresh st, e) :: filter (fun x => lt (nk (fresh st, e)) (nk x)) (nodes st)))).
      { change (fresh st :: ids st) with (map fst ((fresh st, e) :: nodes st)). apply Permutation_map. rewrite <- Permutation_middle. constructor. apply filter_perm. }
      apply (Permutation_NoDup P). apply NoDup_cons_iff. split; [|exact D]. intros J. apply F in J. lia.
    + destruct (multi && _); [discriminate|]. injection C as <-. now apply nodup_filter.
    + injection C as <-. constructor.
  - cbn [nodes fresh]. apply Forall_forall. intros i J. destruct (G i J) as [X|[-> ->]]; [apply F in X; lia|lia].
  - cbn [nodes fresh]. split; [lia|]. intros i L N J. destruct (G i J) as [X|[X _]]; [contradiction|lia].
Qed.
Lemma step_contents st o : wf st -> omap (@contents E) (tcall_step key lt multi st o) = change key lt multi (contents st) o.
Proof.
  intros W. rewrite (step_change st o W). unfold contents at 2. rewrite <- (change_map (fresh st)). now destruct (change nk lt multi (nodes st) _).
Qed.
Lemma removes_lift n id o : removes lt (nk n) (lift id o) = removes lt (key (snd n)) o.
Proof. now destruct o. Qed.
Lemma tcalls_contents os : forall st, wf st -> omap (@contents E) (tcalls key lt multi st os) = changes key lt multi (contents st) os.
Proof.
  induction os as [|o os IH]; intros st W; [reflexivity|]. cbn [tcalls changes]. rewrite <- (step_contents st o W).
  destruct (tcall_step key lt multi st o) as [st1| | |] eqn:S; try reflexivity. cbn [omap bind]. apply IH. now apply (step_wf st o).
Qed.
Lemma tcalls_wf os : forall st st', wf st -> tcalls key lt multi st os = Ok st' -> wf st' /\ (fresh st <= fresh st')%nat /\ (forall i, (i < fresh st)%nat -> ~ In i (ids st) -> ~ In i (ids st')).
Proof.
  induction os as [|o os IH]; intros st st' W H; [injection H as <-; auto|]. cbn [tcalls] in H. destruct (tcall_step key lt multi st o) as [st1| | |] eqn:S; try discriminate.
  destruct (step_wf st o st1 W S) as (W1 & L1 & N1). destruct (IH st1 st' W1 H) as (W2 & L2 & N2). split; [exact W2|]. split; [lia|]. intros i L N. apply N2; [lia|]. now apply N1.
Qed.
Lemma tcalls_split os : forall st A n B st', wf st -> nodes st = A ++ n :: B -> tcalls key lt multi st os = Ok st' ->
  if existsb (removes lt (key (snd n))) os then ~ In (fst n) (ids st')
  else exists A' B', nodes st' = A' ++ n :: B' /\ (length A' + smaller nk lt (nk n) A = length A + smaller nk lt (nk n) A')%nat.
Proof.
  induction os as [|o os IH]; intros st A n B st' W HN H.
  - injection H as <-. exists A, B. auto.
  - cbn [tcalls existsb] in *. destruct (tcall_step key lt multi st o) as [st1| | |] eqn:S; try discriminate. cbn [bind] in H. destruct (step_wf st o st1 W S) as (W1 & L1 & N1).
    pose proof W as (I & D & F). rewrite HN in I. rewrite (step_change st o W), HN in S. destruct (change nk lt multi (A ++ n :: B) (lift (fresh st) o)) as [l| | |] eqn:C; try discriminate. injection S as <-.
    destruct (removes lt (key (snd n)) o) eqn:R; cbn [orb].
    + assert (B1 : (fst n < fresh st)%nat) by (rewrite Forall_forall in F; apply F, in_map; rewrite HN; apply in_or_app; right; now left).
      apply (tcalls_wf os _ _ W1 H); cbn [fresh nodes]; [lia|].
      destruct o as [e|k|]; [discriminate| |injection C as <-; intros []]. cbn [lift change] in C. destruct (multi && _); [discriminate|]. injection C as <-. cbn [WalkSpec.removes] in R.
      intros J. apply in_map_iff in J as (y & Ey & Y). apply filter_In in Y as [Y NY]. assert (y = n); [|subst y; unfold nkey in NY; now rewrite R in NY].
      rewrite HN in D. assert (Nn : In n (A ++ n :: B)) by (apply in_or_app; right; now left). clear - D Y Nn Ey. induction (A ++ n :: B) as [|z l IHl]; [destruct Y|]. cbn [map] in D. apply NoDup_cons_iff in D as [D1 D2].
      destruct Y as [->|Y], Nn as [->|Nn]; [reflexivity| | |auto]; exfalso; apply D1; [rewrite Ey|rewrite <- Ey]; now apply in_map.
    + destruct (change_split nk lt WO multi A n B _ l I C) as (A1 & B1 & -> & T1 & _); [now rewrite removes_lift|].
      specialize (IH _ A1 n B1 st' W1 eq_refl H). destruct (existsb (removes lt (key (snd n))) os); [exact IH|]. destruct IH as (A2 & B2 & E2 & T2). exists A2, B2. split; [exact E2|lia].
Qed.
Lemma deref_at A (n : nat * E) B : NoDup (map fst (A ++ n :: B)) -> deref (fst n) (A ++ n :: B) = Ok (snd n).
Proof.
  induction A as [|x A IH]; intros D; cbn [app deref]; [now rewrite Nat.eqb_refl|]. cbn [app map] in D. apply NoDup_cons_iff in D as [D1 D2]. destruct (Nat.eqb_spec (fst x) (fst n)) as [Q|Q]; [|auto].
  exfalso. apply D1. rewrite Q. apply in_map, in_or_app. right. now left.
Qed.
Lemma after_at A (n : nat * E) B : NoDup (map fst (A ++ n :: B)) -> after (fst n) (A ++ n :: B) = Ok (head B).
Proof.
  induction A as [|x A IH]; intros D; cbn [app after]; [now rewrite Nat.eqb_refl|]. cbn [app map] in D. apply NoDup_cons_iff in D as [D1 D2]. destruct (Nat.eqb_spec (fst x) (fst n)) as [Q|Q]; [|auto].
  exfalso. apply D1. rewrite Q. apply in_map, in_or_app. right. now left.
Qed.
Lemma after_gone id (l : list (nat * E)) : ~ In id (map fst l) -> after id l = UB.
Proof.
  induction l as [|x l IH]; intros N; [reflexivity|]. cbn [after map] in *. destruct (Nat.eqb_spec (fst x) id) as [Q|Q]; [exfalso; apply N; now left|]. apply IH. intros J. apply N. now right.
Qed.
Lemma smaller_map k l : smaller nk lt k l = smaller key lt k (map snd l).
Proof. unfold smaller. now rewrite filter_map_comm, map_length. Qed.
Definition show (x : tree E * list E) : list E * list E := (contents (fst x), snd x).
Lemma loop_sweep body : forall f st A B vs, wf st -> nodes st = A ++ B ->
  omap show (loop key lt multi body f st (head B) vs) = sweep key lt multi body f (contents st) (length A) vs.
Proof.
  induction f as [|f IH]; intros st A B vs W HN; (destruct B as [|n B]; [cbn [head]; unfold contents; rewrite HN, app_nil_r|cbn [head]]).
  - cbn [loop sweep omap bind show fst snd]. assert (Q : nth_error (map snd A) (length A) = None) by (apply nth_error_None; rewrite map_length; lia). rewrite Q. unfold show, contents. cbn [fst snd]. now rewrite HN, app_nil_r.
  - cbn [loop sweep]. assert (Q : nth_error (contents st) (length A) = Some (snd n)); [|now rewrite Q].
    unfold contents. rewrite HN, map_app, nth_error_app2 by (rewrite map_length; lia). rewrite map_length, Nat.sub_diag. reflexivity.
  - cbn [loop sweep omap bind show fst snd]. assert (Q : nth_error (map snd A) (length A) = None) by (apply nth_error_None; rewrite map_length; lia). rewrite Q. unfold show, contents. cbn [fst snd]. now rewrite HN, app_nil_r.
  - cbn [loop sweep]. assert (Q : nth_error (contents st) (length A) = Some (snd n)).
    { unfold contents. rewrite HN, map_app, nth_error_app2 by (rewrite map_length; lia). rewrite map_length, Nat.sub_diag. reflexivity. }
    rewrite Q. pose proof W as (I & D & F). rewrite HN in D, I. rewrite HN at 1. rewrite deref_at by exact D. cbn [bind].
    pose proof (tcalls_contents (fst (body (vs ++ [snd n]))) st W) as TC. pose proof (fun st' => tcalls_split (fst (body (vs ++ [snd n]))) st A n B st' W HN) as TS. pose proof (fun st' => tcalls_wf (fst (body (vs ++ [snd n]))) st st' W) as TW.
    rewrite <- TC. destruct (tcalls key lt multi st (fst (body (vs ++ [snd n])))) as [st'| | |]; try reflexivity. cbn [omap bind]. specialize (TS st' eq_refl). destruct (TW st' eq_refl) as (W' & _).
    destruct (snd (body (vs ++ [snd n]))); cbn [negb]; [|reflexivity]. destruct (existsb (removes lt (key (snd n))) (fst (body (vs ++ [snd n])))).
    + now rewrite after_gone.
    + destruct TS as (A' & B' & HN' & T). pose proof W' as (I' & D' & _). rewrite HN' in D', I'. rewrite HN'. rewrite after_at by exact D'. cbn [bind].
      rewrite (IH st' (A' ++ [n]) B' (vs ++ [snd n]) W') by now rewrite HN', <- app_assoc. f_equal. rewrite app_length. cbn [length].
      unfold contents. rewrite <- !smaller_map, HN, HN'. change (key (snd n)) with (nk n). rewrite (smaller_split nk lt WO multi A n B I), (smaller_split nk lt WO multi A' n B' I').
      pose proof (smaller_le nk lt (nk n) A). pose proof (smaller_le nk lt (nk n) A'). lia.
Qed.
Lemma empty_wf : wf (Tree [] O).
Proof. split; [unfold inv; destruct multi; constructor|]. split; constructor. Qed.
Lemma made_wf st : made key lt multi st -> wf st.
Proof. intros (os & H). now apply (tcalls_wf os (Tree [] O) st empty_wf). Qed.
Lemma for_each_sweep body f st : made key lt multi st -> omap show (for_each key lt multi body f st) = sweep key lt multi body f (contents st) 0 [].
Proof. intros M. apply made_wf in M. exact (loop_sweep body f st [] (nodes st) [] M eq_refl). Qed.
Lemma made_inv st : made key lt multi st -> inv key lt multi (contents st).
Proof.
  intros M. apply made_wf in M as (I & _). unfold contents, inv in *. destruct multi; clear - I; (induction I as [|x l S IH F]; cbn [map]; constructor; [exact IH|]; apply Forall_map; exact F).
Qed.
End Trees.

(** ** what the loop sees *)
Section Sees.
Context {E K : Type} (key : E -> K) (lt : K -> K -> bool) (WO : weak_order lt) (multi : bool) (body : list E -> list (tcall E K) * bool).
Notation inv := (inv key lt multi).
Notation sweep := (sweep key lt multi body).
Definition ahead (a b : E) : Prop := if multi then lt (key b) (key a) = false else lt (key a) (key b) = true.
Lemma ahead_trans a b c : ahead a b -> ahead b c -> ahead a c.
Proof. unfold ahead. destruct multi; [intros H G; exact (between lt WO _ _ _ H G)|apply (lt_trans lt WO)]. Qed.
Lemma inv_ahead A n B x : inv (A ++ n :: B) -> In x B -> ahead n x.
Proof.
  intros I X. destruct (inv_split key lt WO multi A n B I) as (_ & HB & HU). unfold ahead. destruct multi; [now apply HB|]. now apply HU.
Qed.
Lemma sweep_end f A vs : sweep f A (length A) vs = Ok (A, vs).
Proof. assert (Q : nth_error A (length A) = None) by (apply nth_error_None; lia). destruct f; cbn [WalkSpec.sweep]; now rewrite Q. Qed.
Lemma changes_ok : forall l os, (exists l', changes key lt multi l os = Ok l') \/ changes key lt multi l os = Err.
Proof.
  intros l os. revert l. induction os as [|o os IH]; intros l; [left; now exists l|]. cbn [changes].
  destruct o as [e|k|]; cbn [change]; [destruct (negb multi && _)|destruct (multi && _)|]; cbn [bind]; auto.
Qed.
Lemma sweep_step f A n B vs : inv (A ++ n :: B) ->
  let os := fst (body (vs ++ [n])) in
  match sweep (S f) (A ++ n :: B) (length A) vs with
  | r => (exists l', r = Ok (l', vs ++ [n]) /\ snd (body (vs ++ [n])) = false) \/
         (r = Err) \/ (r = UB /\ existsb (removes lt (key n)) os = true) \/
         (snd (body (vs ++ [n])) = true /\ existsb (removes lt (key n)) os = false /\ exists A' B', inv ((A' ++ [n]) ++ B') /\ stays key lt multi os A n B A' B' /\
            r = sweep f ((A' ++ [n]) ++ B') (length (A' ++ [n])) (vs ++ [n]))
  end.
Proof.
  intros I os. cbn [WalkSpec.sweep]. assert (Q : nth_error (A ++ n :: B) (length A) = Some n) by (rewrite nth_error_app2, Nat.sub_diag by lia; reflexivity). rewrite Q. fold os.
  destruct (changes_ok (A ++ n :: B) os) as [[l' C]|C]; rewrite C; cbn [bind]; [|auto].
  destruct (snd (body (vs ++ [n]))); cbn [negb]; [|left; eauto]. destruct (existsb (removes lt (key n)) os) eqn:R; [auto|]. right; right; right. split; [reflexivity|]. split; [reflexivity|].
  destruct (changes_split key lt WO multi os A n B l' I C R) as (A' & B' & -> & T). pose proof (changes_inv key lt WO multi os _ _ I C) as I'. exists A', B'. rewrite <- app_assoc. cbn [app]. split; [exact I'|]. split; [exact T|].
  f_equal. rewrite app_length. cbn [length]. rewrite (smaller_split key lt WO multi A n B I), (smaller_split key lt WO multi A' n B' I').
  pose proof (smaller_le key lt (key n) A). pose proof (smaller_le key lt (key n) A'). destruct T as (T & _). lia.
Qed.
Lemma sweep_order : forall f A B vs l' vs', inv (A ++ B) -> sweep f (A ++ B) (length A) vs = Ok (l', vs') ->
  exists ws, vs' = vs ++ ws /\ StronglySorted ahead ws /\ forall c, (forall y, In y B -> ahead c y) -> forall y, In y ws -> ahead c y.
Proof.
  induction f as [|f IH]; intros A [|n B] vs l' vs' I H; try (rewrite app_nil_r, sweep_end in H; injection H as <- <-; exists []; rewrite app_nil_r; split; [reflexivity|]; split; [constructor|intros ? ? ? []]).
  - cbn [WalkSpec.sweep] in H. rewrite nth_error_app2, Nat.sub_diag in H by lia. discriminate.
  - pose proof (sweep_step f A n B vs I) as S. cbv zeta in S. rewrite H in S. destruct S as [(l1 & S & _)|[S|[[S _]|(_ & _ & A' & B' & I' & T & S)]]]; try discriminate.
    + injection S as <- ->. exists [n]. split; [reflexivity|]. split; [repeat constructor|]. intros c Hc y [<-|[]]. apply Hc. now left.
    + symmetry in S. destruct (IH _ _ _ _ _ I' S) as (ws & -> & W1 & W2). exists (n :: ws). split; [now rewrite <- app_assoc|].
      assert (Hn : forall y, In y ws -> ahead n y). { apply W2. intros y Y. rewrite <- app_assoc in I'. exact (inv_ahead A' n B' y I' Y). }
      split; [constructor; [exact W1|now apply Forall_forall]|]. intros c Hc y [<-|Y]; [apply Hc; now left|]. apply (ahead_trans c n y); [apply Hc; now left|auto].
Qed.
Lemma firstn_whole {A} (l : list A) x k : firstn (length l + k) (l ++ x) = l ++ firstn k x.
Proof. rewrite firstn_app. rewrite firstn_all2 by lia. f_equal. f_equal. lia. Qed.
Lemma sweep_sees : forall f A B vs l' vs' x, inv (A ++ B) -> sweep f (A ++ B) (length A) vs = Ok (l', vs') -> In x B ->
  (forall k, (length vs < k <= length vs')%nat -> existsb (removes lt (key x)) (fst (body (firstn k vs'))) = false) -> snd (body vs') = true -> In x vs'.
Proof.
  induction f as [|f IH]; intros A [|n B] vs l' vs' x I H X N G; try (exfalso; exact X).
  - cbn [WalkSpec.sweep] in H. rewrite nth_error_app2, Nat.sub_diag in H by lia. discriminate.
  - pose proof (sweep_step f A n B vs I) as S. cbv zeta in S. rewrite H in S. destruct S as [(l1 & S & S')|[S|[[S _]|(_ & _ & A' & B' & I' & T & S)]]]; try discriminate.
    + injection S as <- ->. congruence.
    + symmetry in S. destruct (sweep_order _ _ _ _ _ _ I' S) as (ws & E1 & _). destruct X as [<-|X]; [subst vs'; apply in_or_app; left; apply in_or_app; right; now left|]. apply (IH _ _ _ _ _ x I' S).
      * destruct T as (_ & T & _). apply T; [exact X|]. rewrite <- (N (length (vs ++ [n]))).
        -- rewrite E1. rewrite <- (Nat.add_0_r (length (vs ++ [n]))), firstn_whole. cbn [firstn]. now rewrite app_nil_r.
        -- rewrite E1, !app_length. cbn [length]. lia.
      * intros k Lk. apply N. rewrite app_length in Lk. cbn [length] in Lk. lia.
      * exact G.
Qed.
Lemma sweep_only : forall f A B vs l' vs' x, inv (A ++ B) -> sweep f (A ++ B) (length A) vs = Ok (l', vs') -> In x vs' ->
  In x vs \/ In x B \/ exists k, (length vs < k <= length vs')%nat /\ In (TIns x) (fst (body (firstn k vs'))).
Proof.
  induction f as [|f IH]; intros A [|n B] vs l' vs' x I H X; try (rewrite app_nil_r, sweep_end in H; injection H as <- <-; now left).
  - cbn [WalkSpec.sweep] in H. rewrite nth_error_app2, Nat.sub_diag in H by lia. discriminate.
  - pose proof (sweep_step f A n B vs I) as S. cbv zeta in S. rewrite H in S. destruct S as [(l1 & S & _)|[S|[[S _]|(_ & _ & A' & B' & I' & T & S)]]]; try discriminate.
    + injection S as <- ->. apply in_app_or in X as [X|[<-|[]]]; [now left|]. right. left. now left.
    + symmetry in S. destruct (sweep_order _ _ _ _ _ _ I' S) as (ws & E1 & _). destruct (IH _ _ _ _ _ x I' S X) as [Y|[Y|(k & Lk & Y)]].
      * apply in_app_or in Y as [Y|[<-|[]]]; [now left|]. right. left. now left.
      * destruct T as (_ & _ & T & _). destruct (T x Y) as [Z|Z]; [right; left; now right|]. right. right. exists (length (vs ++ [n])). split.
        -- rewrite E1, !app_length. cbn [length]. lia.
        -- rewrite E1. rewrite <- (Nat.add_0_r (length (vs ++ [n]))), firstn_whole. cbn [firstn]. now rewrite app_nil_r.
      * right. right. exists k. split; [|exact Y]. rewrite app_length in Lk. cbn [length] in Lk. lia.
Qed.
Lemma sweep_ends : (forall vs x e, In (TIns e) (fst (body (vs ++ [x]))) -> backward key lt multi x e) ->
  forall f A B vs, inv (A ++ B) -> (length B <= f)%nat -> sweep f (A ++ B) (length A) vs <> Fuel.
Proof.
  intros Bk. induction f as [|f IH]; intros A [|n B] vs I L; try (rewrite app_nil_r, sweep_end; discriminate); [cbn in L; lia|].
  pose proof (sweep_step f A n B vs I) as S. cbv zeta in S. intros H. rewrite H in S. destruct S as [(l1 & S & _)|[S|[[S _]|(_ & _ & A' & B' & I' & T & S)]]]; try discriminate.
  symmetry in S. apply (IH _ _ _ I') in S; [exact S|]. destruct T as (_ & _ & _ & T). specialize (T (fun e He => Bk vs n e He)). cbn in L. lia.
Qed.
Lemma sweep_safe : (forall vs x, snd (body (vs ++ [x])) = true -> existsb (removes lt (key x)) (fst (body (vs ++ [x]))) = false) ->
  forall f A B vs, inv (A ++ B) -> sweep f (A ++ B) (length A) vs <> UB.
Proof.
  intros N. induction f as [|f IH]; intros A [|n B] vs I; try (rewrite app_nil_r, sweep_end; discriminate); intros H.
  - cbn [WalkSpec.sweep] in H. rewrite nth_error_app2, Nat.sub_diag in H by lia. discriminate.
  - pose proof (sweep_step f A n B vs I) as S. cbv zeta in S. rewrite H in S. destruct S as [(l1 & S & _)|[S|[[_ S]|(_ & _ & A' & B' & I' & T & S)]]]; try discriminate.
    + cbn [WalkSpec.sweep] in H. rewrite nth_error_app2, Nat.sub_diag in H by lia. cbn [nth_error] in H. specialize (N vs n).
      destruct (changes_ok (A ++ n :: B) (fst (body (vs ++ [n])))) as [[l1 C]|C]; rewrite C in H; cbn [bind] in H; [|discriminate].
      destruct (snd (body (vs ++ [n]))); cbn [negb] in H; [|discriminate]. rewrite (N eq_refl) in S. discriminate.
    + symmetry in S. now apply (IH _ _ _ I') in S.
Qed.
(** without duplicates the next element is the least one above *)
Lemma next_least A n B : multi = false -> inv (A ++ n :: B) ->
  nth_error (A ++ n :: B) (smaller key lt (key n) (A ++ n :: B) + 1) = find (fun x => lt (key n) (key x)) (A ++ n :: B).
Proof.
  intros M I. rewrite (smaller_split key lt WO multi A n B I). destruct (inv_split key lt WO multi A n B I) as (HA & _ & HU). destruct (HU M) as [UA UB].
  assert (SA : smaller key lt (key n) A = length A) by (unfold smaller; rewrite filter_all; auto). rewrite SA.
  assert (F : forall l, (forall x, In x l -> lt (key n) (key x) = false) -> forall m, find (fun x => lt (key n) (key x)) (l ++ m) = find (fun x => lt (key n) (key x)) m).
  { clear. induction l as [|x l IH]; intros H m; [reflexivity|]. cbn [app find]. rewrite (H x (or_introl eq_refl)). apply IH. intros y Y. apply H. now right. }
  rewrite F by exact HA. cbn [find]. rewrite (key_irr lt WO). rewrite nth_error_app2 by lia. replace (length A + 1 - length A)%nat with 1%nat by lia. cbn [nth_error].
  destruct B as [|b B]; [reflexivity|]. cbn [find nth_error]. now rewrite (UB b (or_introl eq_refl)).
Qed.
End Sees.
