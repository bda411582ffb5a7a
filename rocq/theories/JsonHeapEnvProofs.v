(** Environments: all variables of a program and the cells they use. *)
From Coq Require Import Permutation.
From Verif Require Import Base JsonModel JsonSpec JsonProofs JsonRoundProofs JsonHeapModel JsonHeapSpec JsonHeapProofs JsonHeapOpsProofs JsonHeapNavProofs JsonHeapWalkProofs.
Local Open Scope nat_scope.

Lemma relate_sym p : forall q,
  relate q p = match relate p q with Same => Same | Above => Below | Below => Above | Apart => Apart | Clash => Clash end.
Proof.
  induction p as [|s p IH]; intros [|t q]; simpl; auto.
  rewrite same_kind_sym. destruct (sel_eqb s t) eqn:E.
  - apply sel_eqb_true in E. subst t. rewrite (proj2 (sel_eqb_true s s) eq_refl). apply IH.
  - destruct (sel_eqb t s) eqn:E'; [apply sel_eqb_true in E'; subst t; rewrite (proj2 (sel_eqb_true s s) eq_refl) in E; discriminate|].
    now destruct (same_kind s t).
Qed.
Lemma erelate_sym l l' :
  erelate l' l = match erelate l l' with Same => Same | Above => Below | Below => Above | Apart => Apart | Clash => Clash end.
Proof. unfold erelate. rewrite Nat.eqb_sym. destruct (fst l =? fst l'); auto using relate_sym. Qed.

Section Env.
Context {F : Type} (fzero : F).
Notation heap := (heap F).
Notation env := (@env F).

(** every variable holds its value, and the live cells are theirs and those of [L] *)
Definition E (h : heap) (vars : list addr) (r : env) (L : list addr) : Prop := exists fp, reps h vars r fp /\ own h (fp ++ L).
Definition at_ (h : heap) (vars : list addr) (l : loc) (b : addr) : Prop := exists a, nth_error vars (fst l) = Some a /\ walk h a (snd l) b.

Lemma E_length h vars r L : E h vars r L -> length vars = length r.
Proof. intros (fp & R & _). eapply reps_length; eauto. Qed.
Lemma E_perm h vars r L L' : E h vars r L -> Permutation L L' -> E h vars r L'.
Proof. intros (fp & R & O) P. exists fp. split; auto. eapply own_perm; eauto. now apply Permutation_app_head. Qed.
Lemma E_ext h h' vars r L : E h vars r L -> (forall x, look h' x = look h x) -> E h' vars r L.
Proof.
  intros (fp & R & O) X. exists fp. split.
  - eapply reps_frame; eauto. intros x _. apply X.
  - destruct O as [N O]. split; auto. intros x. rewrite X. apply O.
Qed.
Lemma at_det h vars l b b' : at_ h vars l b -> at_ h vars l b' -> b = b'.
Proof. intros (a & N & W) (a' & N' & W'). assert (a' = a) by congruence. subst. eapply walk_det; eauto. Qed.

Lemma env_focus h vars r L l b : E h vars r L -> at_ h vars l b ->
  exists g x, holds h b (eget r l) g /\ own h (b :: g ++ x ++ L) /\
    forall h' w g' L', agree x h h' -> holds h' b w g' -> own h' (b :: g' ++ x ++ L') -> E h' vars (eput r l w) L'.
Proof.
  intros (fp & R & O) (a & N & W). destruct (reps_split _ _ _ _ _ _ R N) as (v & g0 & f1 & f2 & -> & Nv & Hd & Re).
  destruct (walk_focus _ _ _ _ _ _ Hd W) as (g & x & P & Hb & _ & Re2).
  exists g, (f1 ++ f2 ++ x). unfold eget, eput. rewrite (nth_error_nth _ _ _ Nv). split; [exact Hb|]. split.
  - eapply own_perm; [exact O|]. transitivity ((a :: g0) ++ f1 ++ f2 ++ L); [pcount|]. rewrite P. pcount.
  - intros h' w g' L' A Hw O'. destruct (Re2 h' w g') as (f' & Hd' & P').
    { eapply agree_incl; eauto. intros y Hy. rewrite !in_app_iff. auto. }
    { exact Hw. }
    exists (f1 ++ (a :: f') ++ f2). split.
    + apply Re; auto. eapply agree_incl; eauto. intros y. rewrite !in_app_iff. intuition.
    + eapply own_perm; [exact O'|]. transitivity ((b :: g' ++ x) ++ f1 ++ f2 ++ L'); [pcount|]. rewrite <- P'. pcount.
Qed.
Lemma eput_length (r : env) l w : length (eput r l w) = length r.
Proof. apply upd_length. Qed.
Lemma valid_eput (r : env) l w l' : valid (eput r l w) l' = valid r l'.
Proof. unfold valid. now rewrite eput_length. Qed.
Lemma valid_touch (r : env) l l' : valid (etouch r l) l' = valid r l'.
Proof. apply valid_eput. Qed.
Lemma eget_eput (r : env) l w : fst l < length r -> eget (eput r l w) l = w.
Proof. intros H. unfold eget, eput. rewrite nth_upd_eq by assumption. apply get_put. Qed.
Lemma eget_touch (r : env) l : fst l < length r -> eget (etouch r l) l = eget r l.
Proof. apply eget_eput. Qed.
Lemma upd_upd {A} (r : list A) i x y : upd (upd r i x) i y = upd r i y.
Proof. revert i. induction r as [|z r IH]; intros [|i]; simpl; congruence. Qed.
Lemma eput_eput (r : env) l w w' : fst l < length r -> eput (eput r l w) l w' = eput r l w'.
Proof. intros H. unfold eput. rewrite nth_upd_eq by assumption. now rewrite put_put, upd_upd. Qed.
Lemma eput_touch (r : env) l w : fst l < length r -> eput (etouch r l) l w = eput r l w.
Proof. apply eput_eput. Qed.
Lemma valid_lt (r : env) l : valid r l = true -> fst l < length r.
Proof. unfold valid. intros H. apply andb_true_iff in H. destruct H as [H _]. now apply Nat.ltb_lt in H. Qed.

Lemma locate_ok h vars r L l : E h vars r L -> valid r l = true ->
  exists h' b, locate fzero h vars l = Ok (h', b) /\ E h' vars (etouch r l) L /\ agree L h h' /\ at_ h' vars l b.
Proof.
  intros (fp & R & O) V. unfold valid in V. apply andb_true_iff in V. destruct V as [V1 V2]. apply Nat.ltb_lt in V1.
  pose proof (reps_length _ _ _ _ R) as Len. destruct (nth_error vars (fst l)) as [a|] eqn:N; [|apply nth_error_None in N; lia].
  destruct (reps_split _ _ _ _ _ _ R N) as (v & g0 & f1 & f2 & -> & Nv & Hd & Re).
  destruct (nav_ok fzero (snd l) h a v g0 (f1 ++ f2 ++ L) Hd) as (h' & b & g' & En & Hd' & O' & A' & W); auto.
  { eapply own_perm; [exact O|]. pcount. }
  exists h', b. unfold locate. rewrite N. split; [exact En|]. split; [|split].
  - exists (f1 ++ (a :: g') ++ f2). split.
    + unfold etouch, eput, eget. rewrite (nth_error_nth _ _ _ Nv). apply Re; auto.
      eapply agree_incl; eauto. intros y. rewrite !in_app_iff. intuition.
    + eapply own_perm; [exact O'|]. pcount.
  - eapply agree_incl; eauto. intros y. rewrite !in_app_iff. auto.
  - exists a. auto.
Qed.
Lemma locate_bad h vars r L l : E h vars r L -> valid r l = false -> locate fzero h vars l = UB.
Proof.
  intros (fp & R & O) V. unfold locate. pose proof (reps_length _ _ _ _ R) as Len.
  destruct (nth_error vars (fst l)) as [a|] eqn:N; [|reflexivity].
  destruct (reps_split _ _ _ _ _ _ R N) as (v & g0 & f1 & f2 & -> & Nv & Hd & Re).
  apply (nav_illegal fzero (snd l) h a v g0 (f1 ++ f2 ++ L)); auto.
  - eapply own_perm; [exact O|]. pcount.
  - unfold valid in V. assert (X : fst l < length vars) by (apply nth_error_Some; congruence). rewrite Len in X.
    apply Nat.ltb_lt in X. rewrite X in V. exact V.
Qed.
Lemma vars_apart (h : heap) vars r fp i j a b : reps h vars r fp -> NoDup fp -> nth_error vars i = Some a -> nth_error vars j = Some b -> i <> j ->
  exists g k x, Permutation fp ((a :: g) ++ (b :: k) ++ x) /\ holds h a (nth i r JNull) g /\ holds h b (nth j r JNull) k.
Proof.
  intros R N Na Nb Nij.
  destruct (reps_split _ _ _ _ _ _ R Na) as (v & g & f1 & f2 & _ & Nv & Hd & _).
  destruct (reps_split _ _ _ _ _ _ R Nb) as (w & k & k1 & k2 & _ & Nw & Hk & _).
  destruct (reps_two h vars r fp a b R) as (v' & g' & w' & k' & x & P & H1 & H2).
  - eapply nth_error_In; eauto.
  - eapply nth_error_In; eauto.
  - intros ->. apply Nij. apply reps_nodup in R; auto. rewrite NoDup_nth_error in R. apply R; [|congruence]. apply nth_error_Some. congruence.
  - destruct (holds_det _ _ _ _ _ _ Hd H1) as [-> ->]. destruct (holds_det _ _ _ _ _ _ Hk H2) as [-> ->].
    exists g', k', x. rewrite (nth_error_nth _ _ _ Nv), (nth_error_nth _ _ _ Nw). auto.
Qed.
Lemma locate_keeps h vars r L l l' b h' d : E h vars r L -> at_ h vars l b -> valid r l' = true -> erelate l l' <> Clash ->
  locate fzero h vars l' = Ok (h', d) -> at_ h' vars l b.
Proof.
  intros (fp & R & O) (a & N & W) V Nc En. unfold valid in V. apply andb_true_iff in V. destruct V as [V1 V2]. apply Nat.ltb_lt in V1.
  unfold locate in En. destruct (nth_error vars (fst l')) as [a'|] eqn:N'; [|discriminate].
  unfold erelate in Nc. exists a. split; [exact N|]. destruct (fst l =? fst l') eqn:Ei.
  - apply Nat.eqb_eq in Ei. rewrite Ei in N. assert (a' = a) by congruence. subst a'.
    destruct (reps_split _ _ _ _ _ _ R N) as (v & g0 & f1 & f2 & -> & Nv & Hd & Re).
    apply (nav_keeps fzero (snd l) (snd l') h a v g0 (f1 ++ f2 ++ L) b h' d); auto. eapply own_perm; [exact O|]. pcount.
  - apply Nat.eqb_neq in Ei. assert (Nf : NoDup fp) by (destruct O as [X _]; now apply nodup_left in X).
    destruct (vars_apart _ _ _ _ _ _ _ _ R Nf N N' Ei) as (g & k & x & P & Ha & Hb).
    destruct (nav_ok fzero (snd l') h a' _ k (a :: g ++ x ++ L) Hb) as (h2 & b2 & k' & E2 & _ & _ & A2 & _); auto.
    { eapply own_perm; [exact O|]. rewrite P. pcount. }
    rewrite E2 in En. injection En as -> ->. eapply walk_frame; eauto. eapply agree_incl; [exact A2|].
    intros y [<-|Hy]; [now left|]. right. apply in_or_app. auto.
Qed.
Lemma locate_clash h vars r L l l' b h' d : E h vars r L -> at_ h vars l b -> valid r l' = true -> erelate l l' = Clash ->
  locate fzero h vars l' = Ok (h', d) -> look h' b = None.
Proof.
  intros (fp & R & O) (a & N & W) V Nc En. unfold valid in V. apply andb_true_iff in V. destruct V as [V1 V2].
  unfold erelate in Nc. destruct (fst l =? fst l') eqn:Ei; [|discriminate]. apply Nat.eqb_eq in Ei.
  unfold locate in En. rewrite <- Ei, N in En.
  destruct (reps_split _ _ _ _ _ _ R N) as (v & g0 & f1 & f2 & -> & Nv & Hd & Re).
  apply (nav_clash fzero (snd l) (snd l') h a v g0 (f1 ++ f2 ++ L) b h' d); auto. eapply own_perm; [exact O|]. pcount.
Qed.

Lemma locate2_ok left h vars r L l l' : E h vars r L -> valid r l = true -> valid r l' = true -> erelate l l' <> Clash ->
  exists h' a b, locate2 fzero left h vars l l' = Ok (h', a, b) /\ E h' vars (touch2 left r l l') L /\ agree L h h' /\
    at_ h' vars l a /\ at_ h' vars l' b.
Proof.
  intros He V V' Nc. destruct left; simpl locate2; unfold touch2.
  - destruct (locate_ok h vars r L l He V) as (h1 & a & E1 & He1 & A1 & T1). rewrite E1. cbn [bind].
    rewrite <- (valid_touch r l) in V'. destruct (locate_ok h1 vars _ L l' He1 V') as (h2 & b & E2 & He2 & A2 & T2). rewrite E2. cbn [bind].
    exists h2, a, b. repeat split; auto; [eapply agree_trans; eauto|]. eapply (locate_keeps h1 vars _ L l l'); eauto.
  - destruct (locate_ok h vars r L l' He V') as (h1 & b & E1 & He1 & A1 & T1). rewrite E1. cbn [bind].
    rewrite <- (valid_touch r l') in V. destruct (locate_ok h1 vars _ L l He1 V) as (h2 & a & E2 & He2 & A2 & T2). rewrite E2. cbn [bind].
    exists h2, a, b. repeat split; auto; [eapply agree_trans; eauto|]. eapply (locate_keeps h1 vars _ L l' l); eauto.
    rewrite erelate_sym. destruct (erelate l l'); congruence.
Qed.
Lemma locate2_clash left h vars r L l l' : E h vars r L -> valid r l = true -> valid r l' = true -> erelate l l' = Clash ->
  exists h' a b, locate2 fzero left h vars l l' = Ok (h', a, b) /\ E h' vars (touch2 left r l l') L /\
    if left then look h' a = None /\ a < length h' /\ at_ h' vars l' b else look h' b = None /\ at_ h' vars l a.
Proof.
  intros He V V' Nc. destruct left; simpl locate2; unfold touch2.
  - destruct (locate_ok h vars r L l He V) as (h1 & a & E1 & He1 & A1 & T1). rewrite E1. cbn [bind].
    rewrite <- (valid_touch r l) in V'. destruct (locate_ok h1 vars _ L l' He1 V') as (h2 & b & E2 & He2 & A2 & T2). rewrite E2. cbn [bind].
    exists h2, a, b. repeat split; auto; [eapply (locate_clash h1 vars _ L l l'); eauto|].
    assert (X : a < length h1).
    { destruct (env_focus h1 vars _ L l a He1 T1) as (g & x & (n & Ln & _) & _). eapply look_some; eauto. }
    unfold locate in E2. destruct (nth_error vars (fst l')); [|discriminate]. apply nav_later in E2. destruct E2 as [E2 _]. lia.
  - destruct (locate_ok h vars r L l' He V') as (h1 & b & E1 & He1 & A1 & T1). rewrite E1. cbn [bind].
    rewrite <- (valid_touch r l') in V. destruct (locate_ok h1 vars _ L l He1 V) as (h2 & a & E2 & He2 & A2 & T2). rewrite E2. cbn [bind].
    exists h2, a, b. repeat split; auto. eapply (locate_clash h1 vars _ L l' l); eauto.
    rewrite erelate_sym, Nc. reflexivity.
Qed.
Lemma locate2_bad left h vars r L l l' : E h vars r L -> valid r l && valid r l' = false -> locate2 fzero left h vars l l' = UB.
Proof.
  intros He V. destruct left; simpl locate2.
  - destruct (valid r l) eqn:V1; [simpl in V|rewrite (locate_bad h vars r L l); auto].
    destruct (locate_ok h vars r L l He V1) as (h1 & a & E1 & He1 & A1 & T1). rewrite E1. cbn [bind].
    rewrite <- (valid_touch r l) in V. rewrite (locate_bad h1 vars _ L l' He1 V). reflexivity.
  - destruct (valid r l') eqn:V1; [rewrite andb_true_r in V|rewrite (locate_bad h vars r L l'); auto].
    destruct (locate_ok h vars r L l' He V1) as (h1 & a & E1 & He1 & A1 & T1). rewrite E1. cbn [bind].
    rewrite <- (valid_touch r l') in V. rewrite (locate_bad h1 vars _ L l He1 V). reflexivity.
Qed.

(** two locations *)
Lemma env_apart h vars r L l l' a b : E h vars r L -> at_ h vars l a -> at_ h vars l' b -> erelate l l' = Apart ->
  exists g k x, holds h a (eget r l) g /\ holds h b (eget r l') k /\ own h ((a :: g) ++ (b :: k) ++ x ++ L).
Proof.
  intros (fp & R & O) (a1 & N & W) (b1 & N' & W') Ea. assert (Nf : NoDup fp) by (destruct O as [X _]; now apply nodup_left in X).
  unfold erelate in Ea. destruct (fst l =? fst l') eqn:Ei.
  - apply Nat.eqb_eq in Ei. rewrite <- Ei in N'. assert (b1 = a1) by congruence. subst b1.
    destruct (reps_split _ _ _ _ _ _ R N) as (v & g0 & f1 & f2 & -> & Nv & Hd & Re).
    assert (Na : NoDup (a1 :: g0)).
    { assert (X : NoDup ((a1 :: g0) ++ f1 ++ f2)) by (eapply Permutation_NoDup; [|exact Nf]; pcount). now apply nodup_left in X. }
    destruct (walks_apart h _ _ a1 v g0 a b Hd Na W W' Ea) as (g & k & x & P & Ha & Hb).
    exists g, k, (x ++ f1 ++ f2). unfold eget. rewrite <- Ei, (nth_error_nth _ _ _ Nv). split; [exact Ha|]. split; [exact Hb|].
    eapply own_perm; [exact O|]. transitivity ((a1 :: g0) ++ f1 ++ f2 ++ L); [pcount|]. rewrite P. pcount.
  - apply Nat.eqb_neq in Ei. destruct (vars_apart _ _ _ _ _ _ _ _ R Nf N N' Ei) as (g0 & k0 & x & P & Ha & Hb).
    destruct (walk_focus h _ _ _ _ _ Ha W) as (g & y & P1 & Ha' & _).
    destruct (walk_focus h _ _ _ _ _ Hb W') as (k & z & P2 & Hb' & _).
    exists g, k, (x ++ y ++ z). split; [exact Ha'|]. split; [exact Hb'|].
    eapply own_perm; [exact O|]. rewrite P, P1, P2. pcount.
Qed.
Lemma at_same h vars l l' a b : at_ h vars l a -> at_ h vars l' b -> erelate l l' = Same -> l = l' /\ a = b.
Proof.
  intros T T' Es. unfold erelate in Es. destruct (fst l =? fst l') eqn:Ei; [|discriminate]. apply Nat.eqb_eq in Ei.
  apply relate_same in Es. assert (l = l') as -> by (destruct l, l'; simpl in *; congruence). split; auto. eapply at_det; eauto.
Qed.
Lemma at_above h vars l l' a b : at_ h vars l a -> at_ h vars l' b -> erelate l l' = Above ->
  exists s q, l' = (fst l, snd l ++ s :: q) /\ walk h a (s :: q) b.
Proof.
  intros (a1 & N & W) (b1 & N' & W') Es. unfold erelate in Es. destruct (fst l =? fst l') eqn:Ei; [|discriminate]. apply Nat.eqb_eq in Ei.
  rewrite <- Ei in N'. assert (b1 = a1) by congruence. subst b1. apply relate_above in Es. destruct Es as (s & q & Es).
  exists s, q. split; [destruct l, l'; simpl in *; congruence|]. rewrite Es in W'. apply walk_app in W'. destruct W' as (c & W1 & W2).
  now rewrite (walk_det _ _ _ _ _ W W1).
Qed.
Lemma at_below h vars l l' a b : at_ h vars l a -> at_ h vars l' b -> erelate l l' = Below ->
  exists s q, l = (fst l', snd l' ++ s :: q) /\ walk h b (s :: q) a.
Proof. intros T T' Es. apply (at_above h vars l' l b a); auto. now rewrite erelate_sym, Es. Qed.

(** a new variable *)
Lemma E_new h vars r L a v g : E h vars r (a :: g ++ L) -> holds h a v g -> E h (vars ++ [a]) (r ++ [v]) L.
Proof.
  intros (fp & R & O) Hd. exists (fp ++ (a :: g)). split.
  - apply reps_app; auto. apply reps_one. eauto.
  - eapply own_perm; [exact O|]. pcount.
Qed.
Lemma E_agree h h' vars r L L' : E h vars r L -> (forall fp, own h (fp ++ L) -> agree fp h h' /\ own h' (fp ++ L')) -> E h' vars r L'.
Proof. intros (fp & R & O) H. destruct (H fp O) as [A O']. exists fp. split; auto. eapply reps_frame; eauto. Qed.
Lemma holds_len (h : heap) a v g : holds h a v g -> NoDup g -> length g <= length h.
Proof.
  intros (n & _ & R) N. rewrite <- (seq_length (length h) 0). apply NoDup_incl_length; auto.
  intros x Hx. apply in_seq. split; [lia|]. apply look_alive. exact (proj1 (rep_alive h) _ _ _ R x Hx).
Qed.
End Env.
