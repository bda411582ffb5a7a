(** Memory level Matrix: simulation of the value level. *)
From Coq Require Import Permutation.
From Verif Require Import Base MatModel MatSpec MatProofs MatReduceProofs MatHeapModel MatHeapSpec.
Local Open Scope Z_scope.

(** ** outcomes *)
Definition orel {S T} (Rl : S -> T -> Prop) (a : outcome S) (b : outcome T) : Prop :=
  match a, b with
  | Ok x, Ok y => Rl x y
  | Err, Err | UB, UB | Fuel, Fuel => True
  | _, _ => False
  end.
Lemma orel_bind {S T S' T'} (P : S -> T -> Prop) (Q : S' -> T' -> Prop) a b k l :
  orel P a b -> (forall x y, P x y -> orel Q (k x) (l y)) -> orel Q (bind a k) (bind b l).
Proof. destruct a, b; cbn; try tauto; auto. Qed.
Lemma orel_same {S S' T'} (Q : S' -> T' -> Prop) (a : outcome S) k l :
  (forall x, a = Ok x -> orel Q (k x) (l x)) -> orel Q (bind a k) (bind a l).
Proof. destruct a; cbn; auto. Qed.
Lemma for_loop_orel {S T} (Rl : S -> T -> Prop) b1 b2 : forall n i s t,
  (forall i s t, Rl s t -> orel Rl (b1 i s) (b2 i t)) -> Rl s t ->
  orel Rl (for_loop n i b1 s) (for_loop n i b2 t).
Proof.
  induction n as [|n IH]; intros i s t Hb Hst; cbn [for_loop]; [exact Hst|].
  apply (orel_bind Rl); [now apply Hb|]. intros x y Hxy. now apply IH.
Qed.
Lemma loop2_orel {S T} (Rl : S -> T -> Prop) n m b1 b2 s t :
  (forall i j s t, Rl s t -> orel Rl (b1 i j s) (b2 i j t)) -> Rl s t ->
  orel Rl (loop2 n m b1 s) (loop2 n m b2 t).
Proof.
  intros Hb Hst. unfold loop2. apply for_loop_orel; [|assumption]. intros i x y Hxy.
  apply for_loop_orel; [|assumption]. intros j. apply Hb.
Qed.
Lemma orel_ok {S T} (Rl : S -> T -> Prop) a y : orel Rl a (Ok y) -> exists x, a = Ok x /\ Rl x y.
Proof. destruct a; cbn; try tauto. eauto. Qed.
Lemma orel_ok_l {S T} (Rl : S -> T -> Prop) x b : orel Rl (Ok x) b -> exists y, b = Ok y /\ Rl x y.
Proof. destruct b; cbn; try tauto. eauto. Qed.
Lemma orel_imp {S T} (P Q : S -> T -> Prop) a b : orel P a b -> (forall x y, a = Ok x -> b = Ok y -> P x y -> Q x y) -> orel Q a b.
Proof. destruct a, b; cbn; auto. Qed.

Lemma aget_map {B C} (g : B -> C) l i : aget (map g l) i = omap g (aget l i).
Proof. unfold aget. destruct (i <? 0); [reflexivity|]. rewrite nth_error_map. destruct (nth_error l (Z.to_nat i)); reflexivity. Qed.
Lemma Forall2_nth_error {B C} (P : B -> C -> Prop) l l' k x : Forall2 P l l' -> nth_error l k = Some x ->
  exists y, nth_error l' k = Some y /\ P x y.
Proof. intros H. revert k; induction H; intros [|k] E; cbn in *; try discriminate; [inversion E; subst; eauto|eauto]. Qed.
Lemma Forall2_nth_error_r {B C} (P : B -> C -> Prop) l l' k y : Forall2 P l l' -> nth_error l' k = Some y ->
  exists x, nth_error l k = Some x /\ P x y.
Proof. intros H. revert k; induction H; intros [|k] E; cbn in *; try discriminate; [inversion E; subst; eauto|eauto]. Qed.
Lemma Forall2_upd {B C} (P : B -> C -> Prop) l l' k y : length l = length l' ->
  (forall i x z, nth_error l i = Some x -> nth_error (upd l' k y) i = Some z -> P x z) -> Forall2 P l (upd l' k y).
Proof.
  intros Hl. assert (L : length l = length (upd l' k y)) by (now rewrite upd_length). clear Hl. revert L.
  generalize (upd l' k y) as u. induction l as [|x l IH]; intros [|z u] L H; cbn in L; try discriminate; constructor.
  - apply (H 0%nat); reflexivity.
  - apply IH; [lia|]. intros i. apply (H (S i)).
Qed.
Lemma Forall2_intro {B C} (P : B -> C -> Prop) l l' : length l = length l' ->
  (forall i x z, nth_error l i = Some x -> nth_error l' i = Some z -> P x z) -> Forall2 P l l'.
Proof.
  revert l'; induction l as [|x l IH]; intros [|z u] L H; cbn in L; try discriminate; constructor.
  - apply (H 0%nat); reflexivity.
  - apply IH; [lia|]. intros i. apply (H (S i)).
Qed.

Lemma Forall2_length {B C} (P : B -> C -> Prop) l l' : Forall2 P l l' -> length l = length l'.
Proof. induction 1; cbn; congruence. Qed.

Section Mem.
Context {A : Type} (o : ops A).
Notation heap := (heap (A := A)).
Notation block := (block (A := A)).

Definition alive (h : heap) (a : nat) : Prop := exists b, nth_error h a = Some (Some b).
(** only blocks of F change, none is freed or allocated *)
Definition frame (F : list nat) (h h' : heap) : Prop :=
  length h' = length h /\ (forall b, ~ In b F -> nth_error h' b = nth_error h b) /\ (forall b, alive h' b <-> alive h b).
(** object x represents matrix m, the last k row pointers being unassigned; F is what it owns *)
Definition repr (k : nat) (h : heap) (x : obj) (m : mat A) (F : list nat) : Prop :=
  exists ps, nth_error h (elem x) = Some (Some (Ptrs (map Some ps ++ repeat None k))) /\
    Forall2 (fun a r => nth_error h a = Some (Some (Vals r))) ps (cells m) /\
    NoDup (elem x :: ps) /\ Permutation F (elem x :: ps) /\
    orow x = row m /\ ocol x = col m /\ live m = true.
Definition Rin (h0 : heap) (x : obj) (F : list nat) (k : nat) (h : heap) (m : mat A) : Prop :=
  repr k h x m F /\ frame F h0 h.

Lemma frame_refl F h : frame F h h.
Proof. repeat split; auto. Qed.
Lemma frame_trans F h1 h2 h3 : frame F h1 h2 -> frame F h2 h3 -> frame F h1 h3.
Proof.
  intros (L1 & N1 & A1) (L2 & N2 & A2). split; [congruence|]. split.
  - intros b Hb. rewrite N2 by assumption. now apply N1.
  - intros b. rewrite A2. apply A1.
Qed.
Lemma frame_sub F G h h' : (forall b, In b F -> In b G) -> frame F h h' -> frame G h h'.
Proof. intros S (L & N & H). split; [assumption|]. split; [|assumption]. intros b Hb. apply N. auto. Qed.
Lemma Rin_refl k h x m F : repr k h x m F -> Rin h x F k h m.
Proof. intros H. split; [assumption|apply frame_refl]. Qed.
Lemma repr_dims k h x m F : repr k h x m F -> orow x = row m /\ ocol x = col m.
Proof. intros (ps & _ & _ & _ & _ & H1 & H2 & _). auto. Qed.
Lemma repr_live k h x m F : repr k h x m F -> live m = true.
Proof. intros (ps & _ & _ & _ & _ & _ & _ & H). exact H. Qed.
Lemma repr_alive k h x m F a : repr k h x m F -> In a F -> alive h a.
Proof.
  intros (ps & E & H2 & _ & P & _) Hin. apply (Permutation_in _ P) in Hin. destruct Hin as [<-|Hin]; [eexists; exact E|].
  apply In_nth_error in Hin. destruct Hin as (i & Hi). destruct (Forall2_nth_error _ _ _ _ _ H2 Hi) as (r & _ & Hr). eexists. exact Hr.
Qed.
Lemma alive_lt (h : heap) a : alive h a -> (a < length h)%nat.
Proof. intros (b & E). apply nth_error_Some. congruence. Qed.
(** unchanged blocks *)
Lemma repr_agree k h h' x m F : repr k h x m F -> (forall a, In a F -> nth_error h' a = nth_error h a) -> repr k h' x m F.
Proof.
  intros (ps & E & H2 & ND & P & R) H. exists ps.
  assert (Hin : forall a, In a (elem x :: ps) -> nth_error h' a = nth_error h a).
  { intros a Ha. apply H. apply (Permutation_in _ (Permutation_sym P)). assumption. }
  split; [rewrite Hin by (left; reflexivity); assumption|]. split; [|auto].
  apply Forall2_intro; [now apply Forall2_length in H2|]. intros i a r Ha Hr.
  destruct (Forall2_nth_error _ _ _ _ _ H2 Ha) as (r' & Hr' & Hv). rewrite Hin by (right; eapply nth_error_In; exact Ha). congruence.
Qed.
Lemma repr_frame k h h' F y m G : repr k h y m G -> frame F h h' -> (forall a, In a F -> In a G -> False) -> repr k h' y m G.
Proof. intros R (_ & N & _) D. apply (repr_agree k h h' y m G R). intros a Ha. apply N. intros Hf. eapply D; eassumption. Qed.
Lemma repr_app k h t x m F : repr k h x m F -> repr k (h ++ t) x m F.
Proof.
  intros R. apply (repr_agree k h _ x m F R). intros a Ha. apply nth_error_app1. eapply alive_lt, repr_alive; eassumption.
Qed.
Lemma repr_nodup k h x m F : repr k h x m F -> NoDup F.
Proof. intros (ps & _ & _ & ND & P & _). eapply Permutation_NoDup; [apply Permutation_sym; exact P|exact ND]. Qed.
Lemma repr_size k h x m F : repr k h x m F -> length F = S (length (cells m)).
Proof. intros (ps & _ & H2 & _ & P & _). rewrite (Permutation_length P). cbn [length]. f_equal. now apply Forall2_length in H2. Qed.

(** the pointer of a row *)
Lemma row_at_repr k h x m F i : repr k h x m F ->
  (exists a r, row_at h x i = Ok a /\ aget (cells m) i = Ok r /\ 0 <= i /\ nth_error h a = Some (Some (Vals r)) /\ In a F) \/
  (row_at h x i = UB /\ aget (cells m) i = UB).
Proof.
  intros (ps & E & H2 & ND & P & _). unfold row_at, ptrs, load. rewrite E. cbn [bind]. unfold aget.
  destruct (Z.ltb_spec i 0) as [Hi|Hi]; [right; auto|].
  destruct (nth_error ps (Z.to_nat i)) as [a|] eqn:Ea.
  - left. destruct (Forall2_nth_error _ _ _ _ _ H2 Ea) as (r & Er & Hr). exists a, r.
    rewrite nth_error_app1 by (rewrite map_length; apply nth_error_Some; congruence).
    rewrite nth_error_map, Ea, Er. cbn. repeat split; auto.
    apply (Permutation_in _ (Permutation_sym P)). right. eapply nth_error_In; exact Ea.
  - right. assert (Hlen : (length ps <= Z.to_nat i)%nat) by (now apply nth_error_None).
    replace (nth_error (cells m) (Z.to_nat i)) with (@None (list A)).
    2:{ symmetry. apply nth_error_None. rewrite <- (Forall2_length _ _ _ H2). assumption. }
    split; [|reflexivity]. rewrite nth_error_app2 by (rewrite map_length; assumption). rewrite map_length.
    destruct (nth_error (repeat None k) (Z.to_nat i - length ps)) as [p|] eqn:Ep; [|reflexivity].
    apply nth_error_In, repeat_spec in Ep. subst p. reflexivity.
Qed.
Lemma hget_repr k h x m F i j : repr k h x m F -> hget h x i j = mget m i j.
Proof.
  intros R. unfold hget, mget. rewrite (repr_live _ _ _ _ _ R).
  destruct (row_at_repr k h x m F i R) as [(a & r & Ea & Er & _ & Hv & _)|(Ea & Er)]; rewrite Ea, Er; [|reflexivity].
  cbn [bind]. unfold vals, load. rewrite Hv. reflexivity.
Qed.
Lemma upd_frame F h a b : alive h a -> In a F -> frame F h (upd h a (Some b)).
Proof.
  intros Ha Hf. pose proof (alive_lt _ _ Ha). split; [apply upd_length|]. split.
  - intros c Hc. apply nth_error_upd_neq. intros ->. auto.
  - intros c. destruct (Nat.eq_dec a c) as [<-|N].
    + split; intros _; [assumption|]. eexists. apply nth_error_upd_eq. assumption.
    + unfold alive. now rewrite nth_error_upd_neq.
Qed.
Lemma hset_repr k h x m F i j v : repr k h x m F ->
  orel (Rin h x F k) (hset h x i j v) (mset m i j v).
Proof.
  intros R. unfold hset, mset. rewrite (repr_live _ _ _ _ _ R).
  destruct (row_at_repr k h x m F i R) as [(a & r & Ea & Er & Hi & Hv & Hf)|(Ea & Er)]; rewrite Ea, Er; [|exact I].
  cbn [bind]. unfold vals, load. rewrite Hv. cbn [bind].
  apply orel_same. intros v' Ev'. unfold store, load. rewrite Hv. cbn [bind].
  assert (Hil : 0 <= i < Z.of_nat (length (cells m))) by (apply aget_inv in Er; tauto).
  rewrite aset_ok by assumption. cbn [bind orel]. split; [|apply upd_frame; [eexists; exact Hv|assumption]].
  destruct R as (ps & E & H2 & ND & P & Hr & Hc & Hl).
  assert (Hai : nth_error ps (Z.to_nat i) = Some a).
  { unfold row_at, ptrs, load in Ea. rewrite E in Ea. cbn [bind] in Ea. unfold aget in Ea.
    destruct (Z.ltb_spec i 0); [lia|]. destruct (nth_error ps (Z.to_nat i)) as [a'|] eqn:Ep.
    - rewrite nth_error_app1 in Ea by (rewrite map_length; apply nth_error_Some; congruence).
      rewrite nth_error_map, Ep in Ea. cbn in Ea. congruence.
    - apply nth_error_None in Ep. rewrite (Forall2_length _ _ _ H2) in Ep. lia. }
  assert (Hne : elem x <> a).
  { intros He. inversion ND; subst. apply H1. eapply nth_error_In; exact Hai. }
  assert (Hal : (a < length h)%nat) by (apply alive_lt; eexists; exact Hv).
  exists ps. cbn [cells row col live]. split; [rewrite nth_error_upd_neq by auto; assumption|]. split; [|auto 10].
  apply Forall2_upd; [now apply Forall2_length in H2|]. intros t b z Hb Hz.
  destruct (Nat.eq_dec (Z.to_nat i) t) as [<-|Nt].
  - rewrite nth_error_upd_eq in Hz by lia. assert (b = a) by congruence. subst b. rewrite nth_error_upd_eq by assumption. congruence.
  - rewrite nth_error_upd_neq in Hz by assumption. destruct (Forall2_nth_error _ _ _ _ _ H2 Hb) as (z' & Hz' & Hbz).
    rewrite nth_error_upd_neq; [congruence|]. intros <-. apply Nt.
    inversion ND as [|? ? _ ND']. apply (proj1 (NoDup_nth_error ps) ND'); [apply nth_error_Some; congruence|congruence].
Qed.
Lemma hset_sim h0 k h x m F i j v : Rin h0 x F k h m -> orel (Rin h0 x F k) (hset h x i j v) (mset m i j v).
Proof.
  intros (R & Fr). eapply orel_imp; [apply (hset_repr k h x m F i j v R)|]. intros h' m' _ _ (R' & Fr'). split; [assumption|].
  eapply frame_trans; eassumption.
Qed.
Lemma hswap_sim h0 h x m F p q : Rin h0 x F 0 h m -> orel (Rin h0 x F 0) (hswap h x p q) (swap_rows m p q).
Proof.
  intros (R & Fr). pose proof R as (ps & E & H2 & ND & P & Hr & Hc & Hl). unfold hswap, swap_rows. rewrite Hl.
  unfold ptrs, load. rewrite E. cbn [bind repeat]. rewrite app_nil_r. rewrite !aget_map.
  pose proof (Forall2_length _ _ _ H2) as HL.
  assert (G : forall i, (exists a r, aget ps i = Ok a /\ aget (cells m) i = Ok r /\ 0 <= i < Z.of_nat (length ps) /\
     nth_error ps (Z.to_nat i) = Some a /\ nth_error (cells m) (Z.to_nat i) = Some r /\ nth_error h a = Some (Some (Vals r))) \/
     (aget ps i = UB /\ aget (cells m) i = UB)).
  { intros i. unfold aget. destruct (Z.ltb_spec i 0); [right; auto|].
    destruct (nth_error ps (Z.to_nat i)) as [a|] eqn:Ea.
    - left. destruct (Forall2_nth_error _ _ _ _ _ H2 Ea) as (r & Er & Hv). exists a, r. rewrite Er.
      assert (Z.to_nat i < length ps)%nat by (apply nth_error_Some; congruence). repeat split; auto; lia.
    - right. replace (nth_error (cells m) (Z.to_nat i)) with (@None (list A)); [auto|].
      symmetry. apply nth_error_None. rewrite <- HL. now apply nth_error_None. }
  destruct (G p) as [(a & ra & Ea & Era & Hp & Na & Nra & Va)|(Ea & Era)]; rewrite Ea, Era; [|exact I]. cbn [omap bind].
  destruct (G q) as [(b & rb & Eb & Erb & Hq & Nb & Nrb & Vb)|(Eb & Erb)]; rewrite Eb, Erb; [|exact I]. cbn [omap bind].
  rewrite !aset_ok by (rewrite ?upd_length, ?map_length; lia). cbn [bind].
  rewrite !aset_ok by (rewrite ?upd_length, ?map_length; lia). cbn [bind].
  unfold store, load. rewrite E. cbn [bind orel].
  set (ps' := upd (upd ps (Z.to_nat p) b) (Z.to_nat q) a).
  assert (Em : upd (upd (map Some ps) (Z.to_nat p) (Some b)) (Z.to_nat q) (Some a) = map Some ps').
  { assert (U : forall (l : list nat) k z, upd (map Some l) k (Some z) = map Some (upd l k z)).
    { induction l as [|y l IH]; intros [|k] z; cbn; try reflexivity. now rewrite IH. }
    now rewrite !U. }
  rewrite Em. inversion ND as [|? ? Hnin ND']; subst.
  assert (Hal : (elem x < length h)%nat) by (apply alive_lt; eexists; exact E).
  assert (Hperm : Permutation ps ps').
  { unfold ps'. destruct (Z.eq_dec p q) as [->|Npq].
    - assert (a = b) by congruence. subst b. assert (U : forall (l : list nat) k z, nth_error l k = Some z -> upd l k z = l).
      { induction l as [|y l IH]; intros [|k] z Hz; cbn in *; try discriminate; [congruence|]. now rewrite IH. }
      rewrite (U ps) by assumption. rewrite U by assumption. reflexivity.
    - apply NoDup_Permutation_bis; [assumption|unfold ps'; rewrite !upd_length; lia|].
      intros z Hz. apply In_nth_error in Hz. destruct Hz as (t & Ht).
      destruct (Nat.eq_dec t (Z.to_nat p)) as [->|N1].
      + apply (nth_error_In _ (Z.to_nat q)). rewrite nth_error_upd_eq by (rewrite upd_length; lia). congruence.
      + destruct (Nat.eq_dec t (Z.to_nat q)) as [->|N2].
        * apply (nth_error_In _ (Z.to_nat p)). rewrite nth_error_upd_neq by lia. rewrite nth_error_upd_eq by lia. congruence.
        * apply (nth_error_In _ t). rewrite !nth_error_upd_neq by auto. assumption. }
  split.
  - exists ps'. cbn [cells row col live repeat]. rewrite app_nil_r.
    split; [apply nth_error_upd_eq; assumption|]. split; [|split; [|split; [|auto]]].
    + apply Forall2_upd; [unfold ps'; rewrite !upd_length; assumption|].
      intros t c z Hcz Hz.
      assert (Hcin : In c ps) by (apply (Permutation_in _ (Permutation_sym Hperm)); eapply nth_error_In; exact Hcz).
      rewrite nth_error_upd_neq by (intros <-; auto). unfold ps' in Hcz.
      destruct (Nat.eq_dec (Z.to_nat q) t) as [<-|N2].
      * rewrite nth_error_upd_eq in Hcz by (rewrite upd_length; lia). rewrite nth_error_upd_eq in Hz by (rewrite upd_length; lia). congruence.
      * rewrite nth_error_upd_neq in Hcz by assumption. rewrite nth_error_upd_neq in Hz by assumption. destruct (Nat.eq_dec (Z.to_nat p) t) as [<-|N1].
        -- rewrite nth_error_upd_eq in Hcz by lia. rewrite nth_error_upd_eq in Hz by lia. congruence.
        -- rewrite nth_error_upd_neq in Hcz by assumption; rewrite nth_error_upd_neq in Hz by assumption. destruct (Forall2_nth_error _ _ _ _ _ H2 Hcz) as (z' & Hz' & Hv). congruence.
    + constructor.
      * intros Hin. apply Hnin. apply (Permutation_in _ (Permutation_sym Hperm)). assumption.
      * eapply Permutation_NoDup; eassumption.
    + rewrite P. now constructor.
  - eapply frame_trans; [exact Fr|]. apply upd_frame; [eexists; exact E|].
    apply (Permutation_in _ (Permutation_sym P)). now left.
Qed.
End Mem.
