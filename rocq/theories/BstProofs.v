From Verif Require Import Base BstModel BstSpec.
From Coq Require Import Permutation.
Local Open Scope nat_scope.

(** * Pointer primitives *)
Lemma peq_refl p : peq p p = true.
Proof. destruct p; simpl; [apply Nat.eqb_refl|reflexivity]. Qed.
Lemma peq_spec p q : reflect (p = q) (peq p q).
Proof.
  destruct p as [x|], q as [y|]; simpl; try (constructor; congruence).
  destruct (Nat.eqb_spec x y); constructor; congruence.
Qed.
Lemma peq_neq p q : p <> q -> peq p q = false.
Proof. destruct (peq_spec p q); congruence. Qed.
Lemma deref_ok h x n : nth_error h x = Some n -> deref h (Some x) = Ok n.
Proof. intros E. simpl. now rewrite E. Qed.
Lemma rch_ok h x n d : nth_error h x = Some n -> rch h (Some x) d = Ok (chd n d).
Proof. intros E. unfold rch. now rewrite (deref_ok _ _ _ E). Qed.
Lemma rfa_ok h x n : nth_error h x = Some n -> rfa h (Some x) = Ok (bfa n).
Proof. intros E. unfold rfa. now rewrite (deref_ok _ _ _ E). Qed.
Lemma rrank_ok h x n : nth_error h x = Some n -> rrank h (Some x) = Ok (rank n).
Proof. intros E. unfold rrank. now rewrite (deref_ok _ _ _ E). Qed.

(** node [n] with child [d] or father replaced *)
Definition with_ch (n : bnode) (d : bool) (v : option nat) : bnode :=
  if d then B (ch0 n) v (bfa n) (rank n) (bval n) else B v (ch1 n) (bfa n) (rank n) (bval n).
Definition with_fa (n : bnode) (v : option nat) : bnode := B (ch0 n) (ch1 n) v (rank n) (bval n).
(** [h'] is [h] with node [x] replaced *)
Definition chg (h h' : heap) (x : nat) (n : bnode) : Prop :=
  length h' = length h /\ nth_error h' x = Some n /\
  forall z, z <> x -> nth_error h' z = nth_error h z.
Lemma upd_chg h x n n' : nth_error h x = Some n -> chg h (upd h x n') x n'.
Proof.
  intros E. assert (L : x < length h) by (apply nth_error_Some; congruence).
  split; [apply upd_length|]. split; [now apply nth_error_upd_eq|].
  intros z Z. apply nth_error_upd_neq. congruence.
Qed.
Lemma store_ok h x n n' : nth_error h x = Some n -> exists h', store h (Some x) n' = Ok h' /\ chg h h' x n'.
Proof.
  intros E. exists (upd h x n'). split; [|now apply upd_chg with n].
  assert (L : x < length h) by (apply nth_error_Some; congruence).
  simpl. destruct (Nat.ltb_spec x (length h)); [reflexivity|lia].
Qed.
Lemma wch_ok h x n d v : nth_error h x = Some n ->
  exists h', wch h (Some x) d v = Ok h' /\ chg h h' x (with_ch n d v).
Proof. intros E. unfold wch. rewrite (deref_ok _ _ _ E). cbn [bind]. now apply store_ok with n. Qed.
Lemma wfa_ok h x n v : nth_error h x = Some n ->
  exists h', wfa h (Some x) v = Ok h' /\ chg h h' x (with_fa n v).
Proof. intros E. unfold wfa. rewrite (deref_ok _ _ _ E). cbn [bind]. now apply store_ok with n. Qed.

(** * Trees in the heap *)
Section keyed.
Variable key val : nat -> Z.

(** node [x] with child [a] on side [d], [b] on the other side, father [f] *)
Definition mkd (d : bool) (a b f : option nat) (x : nat) : bnode :=
  if d then B b a f (key x) (val x) else B a b f (key x) (val x).
Definition ndd (d : bool) (a : tree) (x : nat) (b : tree) : tree :=
  if d then Nd b x a else Nd a x b.
Lemma troot_ndd d a x b : troot (ndd d a x b) = Some x.
Proof. destruct d; reflexivity. Qed.
Lemma ndd_neg d a x b : ndd (negb d) a x b = ndd d b x a.
Proof. destruct d; reflexivity. Qed.
Lemma mkd_neg d a b f x : mkd (negb d) a b f x = mkd d b a f x.
Proof. destruct d; reflexivity. Qed.

Fixpoint rp (h : heap) (f : option nat) (t : tree) : Prop :=
  match t with
  | Lf => True
  | Nd l x r =>
      nth_error h x = Some (mkd false (troot l) (troot r) f x) /\ rp h (Some x) l /\ rp h (Some x) r
  end.
Lemma rp_ndd h f d a x b :
  rp h f (ndd d a x b) <->
  nth_error h x = Some (mkd d (troot a) (troot b) f x) /\ rp h (Some x) a /\ rp h (Some x) b.
Proof. destruct d; simpl; unfold mkd; tauto. Qed.

(** one-hole contexts, innermost frame first: (side of the hole, node, sibling) *)
Definition ctx := list (bool * nat * tree).
Definition topid (c : ctx) : option nat := match c with [] => None | (_, y, _) :: _ => Some y end.
Fixpoint rc (h : heap) (p : option nat) (c : ctx) : Prop :=
  match c with
  | [] => True
  | (d, y, s) :: c =>
      nth_error h y = Some (mkd d p (troot s) (topid c) y) /\ rp h (Some y) s /\ rc h (Some y) c
  end.
Fixpoint plug (c : ctx) (t : tree) : tree :=
  match c with [] => t | (d, y, s) :: c => plug c (ndd d t y s) end.
Fixpoint cids (c : ctx) : list nat :=
  match c with [] => [] | (_, y, s) :: c => y :: inorder s ++ cids c end.

Definition st (h : heap) (rt : option nat) (t : tree) (c : ctx) : Prop :=
  rp h (topid c) t /\ rc h (troot t) c /\ NoDup (inorder t ++ cids c) /\ rt = troot (plug c t).

Lemma inorder_ndd d a x b : Permutation (inorder (ndd d a x b)) (inorder a ++ x :: inorder b).
Proof.
  destruct d; simpl; [|reflexivity].
  rewrite <- Permutation_middle. rewrite <- (Permutation_middle (inorder a)).
  apply perm_skip. apply Permutation_app_comm.
Qed.
(** moving the focus between a child and its parent *)
Lemma st_focus h rt d t y s c : st h rt t ((d, y, s) :: c) <-> st h rt (ndd d t y s) c.
Proof.
  unfold st. rewrite rp_ndd, troot_ndd. cbn [topid rc plug].
  assert (P : Permutation (inorder t ++ cids ((d, y, s) :: c)) (inorder (ndd d t y s) ++ cids c)).
  { rewrite inorder_ndd. cbn [cids]. rewrite <- app_assoc. reflexivity. }
  assert (N : NoDup (inorder t ++ cids ((d, y, s) :: c)) <-> NoDup (inorder (ndd d t y s) ++ cids c)).
  { split; apply Permutation_NoDup; [assumption|now symmetry]. }
  tauto.
Qed.
Lemma st_plug h rt t c : st h rt t c <-> st h rt (plug c t) [].
Proof.
  revert t; induction c as [|[[d y] s] c IH]; intros t; [reflexivity|].
  rewrite st_focus. simpl. apply IH.
Qed.

Lemma inorder_plug c t : Permutation (inorder (plug c t)) (inorder t ++ cids c).
Proof.
  revert t; induction c as [|[[d y] s] c IH]; intros t; simpl; [now rewrite app_nil_r|].
  rewrite IH, inorder_ndd. rewrite <- app_assoc. reflexivity.
Qed.
Lemma in_root t x : troot t = Some x -> In x (inorder t).
Proof. destruct t; simpl; [discriminate|]. intros [= ->]. apply in_or_app. simpl. auto. Qed.

(** frame *)
Lemma rp_frame h h' f t : rp h f t -> (forall z, In z (inorder t) -> nth_error h' z = nth_error h z) -> rp h' f t.
Proof.
  revert f; induction t as [|l IHl x r IHr]; intros f R F; [exact I|].
  simpl in *. destruct R as (R1 & R2 & R3).
  split; [rewrite F; [assumption|apply in_or_app; simpl; auto]|].
  split; [apply IHl|apply IHr]; auto; intros z Z; apply F; apply in_or_app; simpl; auto.
Qed.
Lemma rc_frame h h' p c : rc h p c -> (forall z, In z (cids c) -> nth_error h' z = nth_error h z) -> rc h' p c.
Proof.
  revert p; induction c as [|[[d y] s] c IH]; intros p R F; [exact I|].
  cbn [rc cids] in *. destruct R as (R1 & R2 & R3).
  split; [rewrite F; [assumption|simpl; auto]|].
  split; [apply (rp_frame h)|apply IH]; auto; intros z Z; apply F; simpl; rewrite in_app_iff; auto.
Qed.
(** replacing the father of a whole tree *)
Lemma rp_refather h h' f f' t :
  rp h f t ->
  (forall z, In z (inorder t) -> Some z <> troot t -> nth_error h' z = nth_error h z) ->
  (forall z n, Some z = troot t -> nth_error h z = Some n -> nth_error h' z = Some (with_fa n f')) ->
  NoDup (inorder t) -> rp h' f' t.
Proof.
  destruct t as [|l x r]; intros R F G N; [exact I|]. simpl in *. destruct R as (R1 & R2 & R3).
  assert (NX : ~ In x (inorder l ++ inorder r)) by (apply NoDup_remove_2; assumption).
  rewrite in_app_iff in NX.
  split; [rewrite (G x _ eq_refl R1); reflexivity|].
  split; (eapply rp_frame; [eassumption|]); intros z Z; apply F;
    [apply in_or_app; auto|intros [= ->]; tauto|apply in_or_app; simpl; auto|intros [= ->]; tauto].
Qed.
(** replacing the child in the hole *)
Lemma rc_rehole h h' p q c :
  rc h p c ->
  (forall z, In z (cids c) -> Some z <> topid c -> nth_error h' z = nth_error h z) ->
  (forall d y s c', c = (d, y, s) :: c' -> nth_error h' y = Some (mkd d q (troot s) (topid c') y)) ->
  NoDup (cids c) -> rc h' q c.
Proof.
  destruct c as [|[[d y] s] c]; intros R F G N; [exact I|]. cbn [rc cids topid] in *.
  destruct R as (R1 & R2 & R3). inversion N as [|? ? N1 N2]; subst. rewrite in_app_iff in N1.
  split; [apply (G d y s c eq_refl)|].
  split; [apply (rp_frame h)|apply (rc_frame h)]; auto; intros z Z; apply F;
    try (simpl; rewrite in_app_iff; auto); intros [= ->]; tauto.
Qed.

Lemma NoDup_app_inv {A} (l1 l2 : list A) : NoDup (l1 ++ l2) ->
  NoDup l1 /\ NoDup l2 /\ forall x, In x l1 -> ~ In x l2.
Proof.
  induction l1 as [|a l1 IH]; simpl; intros N; [split; [constructor|split; [assumption|tauto]]|].
  inversion N as [|? ? N1 N2]; subst. destruct (IH N2) as (I1 & I2 & I3).
  rewrite in_app_iff in N1. split; [constructor; tauto|]. split; [assumption|].
  intros x [->|X]; [tauto|auto].
Qed.

Lemma plug_root_inv c t t' : troot t = troot t' -> troot (plug c t) = troot (plug c t').
Proof.
  revert t t'; induction c as [|[[d y] s] c IH]; intros t t' E; [assumption|].
  simpl. apply IH. now rewrite !troot_ndd.
Qed.
Lemma plug_root_ne c t x : c <> [] -> troot (plug c t) = Some x -> In x (cids c).
Proof.
  revert t; induction c as [|[[d y] s] c IH]; intros t N E; [congruence|].
  simpl in *. destruct c as [|fr c]; [simpl in E; rewrite troot_ndd in E; injection E as ->; auto|].
  right. apply in_or_app. right. eapply IH; [discriminate|eassumption].
Qed.

(** * One rotation *)
Ltac chgs := repeat match goal with H : chg _ _ _ _ |- _ => destruct H as (? & ? & ?) end.
Lemma rotate_ok h rt d a x b y s c :
  st h rt (ndd d a x b) ((d, y, s) :: c) ->
  exists h' rt', rotate (h, rt) (Some x) (negb d) = Ok (h', rt') /\
    st h' rt' (ndd d a x (ndd d b y s)) c /\ length h' = length h /\
    forall z, ~ In z (inorder (ndd d a x b) ++ cids ((d, y, s) :: c)) -> nth_error h' z = nth_error h z.
Proof.
  intros (R1 & R2 & N & ER). apply rp_ndd in R1. destruct R1 as (X & RA & RB).
  rewrite troot_ndd in R2. cbn [rc] in R2. destruct R2 as (Y & RS & RC). cbn [topid] in X.
  assert (N' : NoDup ((inorder a ++ x :: inorder b) ++ y :: inorder s ++ cids c)).
  { eapply Permutation_NoDup; [|exact N]. rewrite inorder_ndd. reflexivity. }
  assert (PERM : forall z, In z (inorder (ndd d a x b)) <-> In z (inorder a ++ x :: inorder b)).
  { intros z. split; apply Permutation_in; [|symmetry]; apply inorder_ndd. }
  destruct (NoDup_app_inv _ _ N') as (N1 & N2 & N3).
  destruct (NoDup_app_inv _ _ N1) as (NA & NXB & DA).
  inversion NXB as [|? ? NX NB]; subst x0 l. inversion N2 as [|? ? NY NSC]; subst x0 l.
  destruct (NoDup_app_inv _ _ NSC) as (NS & NC & DS).
  assert (D1 : forall z, In z (inorder a) -> z <> x /\ z <> y /\ ~ In z (inorder b) /\ ~ In z (inorder s) /\ ~ In z (cids c)).
  { intros z Z. specialize (DA z Z). assert (NZ : ~ In z (y :: inorder s ++ cids c)) by (apply N3; rewrite in_app_iff; simpl; auto).
    simpl in *. rewrite in_app_iff in NZ. repeat split; intuition congruence. }
  assert (D2 : forall z, In z (inorder b) -> z <> x /\ z <> y /\ ~ In z (inorder s) /\ ~ In z (cids c)).
  { intros z Z. assert (NZ : ~ In z (y :: inorder s ++ cids c)) by (apply N3; rewrite in_app_iff; simpl; auto).
    simpl in *. rewrite in_app_iff in NZ. split; [congruence|]. intuition congruence. }
  assert (D3 : x <> y /\ ~ In x (inorder s) /\ ~ In x (cids c)).
  { assert (NZ : ~ In x (y :: inorder s ++ cids c)) by (apply N3; rewrite in_app_iff; simpl; auto).
    simpl in *. rewrite in_app_iff in NZ. intuition congruence. }
  assert (D4 : forall z, In z (inorder s) -> z <> x /\ z <> y /\ ~ In z (cids c)).
  { intros z Z. specialize (DS z Z). rewrite in_app_iff in NY. intuition congruence. }
  assert (D5 : forall z, In z (cids c) -> z <> x /\ z <> y).
  { intros z Z. rewrite in_app_iff in NY. split; intros ->; tauto. }
  destruct D3 as (XY & XS & XC). rewrite in_app_iff in NY.
  unfold rotate.
  rewrite (rfa_ok _ _ _ X). replace (bfa (mkd d (troot a) (troot b) (Some y) x)) with (Some y) by now destruct d.
  cbn [bind]. rewrite (rch_ok _ _ _ _ X).
  replace (chd (mkd d (troot a) (troot b) (Some y) x) (negb d)) with (troot b) by now destruct d. cbn [bind].
  rewrite negb_involutive.
  destruct (wch_ok h y _ d (troot b) Y) as (h1 & -> & C1). cbn [bind].
  replace (with_ch (mkd d (Some x) (troot s) (topid c) y) d (troot b)) with (mkd d (troot b) (troot s) (topid c) y) in C1
    by now destruct d.
  destruct C1 as (L1 & E1 & F1).
  assert (X1 : nth_error h1 x = Some (mkd d (troot a) (troot b) (Some y) x)) by (rewrite F1; auto).
  rewrite (rch_ok _ _ _ _ X1).
  replace (chd (mkd d (troot a) (troot b) (Some y) x) (negb d)) with (troot b) by now destruct d. cbn [bind].
  assert (S2 : exists h2, (if peq (troot b) None then Ok h1 else wfa h1 (troot b) (Some y)) = Ok h2 /\
     length h2 = length h /\ (forall z, Some z <> troot b -> nth_error h2 z = nth_error h1 z) /\
     rp h2 (Some y) b).
  { destruct b as [|bl bx br].
    - exists h1. simpl. repeat split; auto.
    - cbn [troot peq]. assert (IB : In bx (inorder (Nd bl bx br))) by (apply in_root; reflexivity).
      destruct (D2 bx IB) as (B1 & B2 & _).
      pose proof RB as (RBX & _). rewrite <- F1 in RBX by assumption.
      destruct (wfa_ok h1 bx _ (Some y) RBX) as (h2 & -> & L2 & E2 & F2). exists h2.
      split; [reflexivity|]. split; [lia|]. split; [intros z Z; apply F2; congruence|].
      apply (rp_refather h h2 (Some x)); [assumption| | |assumption].
      + intros z Z Z2. rewrite F2 by (simpl in Z2; congruence). apply F1. destruct (D2 z Z); tauto.
      + intros z n [= ->] Zn. rewrite F1 in RBX by assumption. congruence. }
  destruct S2 as (h2 & S2 & L2 & F2 & RB2). rewrite S2. cbn [bind]. clear S2.
  assert (BX : Some x <> troot b).
  { intros H. symmetry in H. apply in_root in H. destruct (D2 x H). congruence. }
  assert (BY : Some y <> troot b).
  { intros H. symmetry in H. apply in_root in H. destruct (D2 y H) as (_ & ? & _). congruence. }
  assert (Y2 : nth_error h2 y = Some (mkd d (troot b) (troot s) (topid c) y)) by (rewrite F2; auto).
  assert (X2 : nth_error h2 x = Some (mkd d (troot a) (troot b) (Some y) x)) by (rewrite F2; auto).
  rewrite (rfa_ok _ _ _ Y2). replace (bfa (mkd d (troot b) (troot s) (topid c) y)) with (topid c) by now destruct d.
  cbn [bind]. destruct (wfa_ok h2 x _ (topid c) X2) as (h3 & -> & L3 & E3 & F3). cbn [bind].
  assert (Y3 : nth_error h3 y = Some (mkd d (troot b) (troot s) (topid c) y)) by (rewrite F3; auto).
  rewrite (rfa_ok _ _ _ Y3). replace (bfa (mkd d (troot b) (troot s) (topid c) y)) with (topid c) by now destruct d.
  cbn [bind].
  assert (SAME : forall z, z <> x -> z <> y -> Some z <> troot b -> nth_error h3 z = nth_error h z).
  { intros z Z1 Z2 Z3. rewrite F3, F2, F1; auto. }
  assert (CB : forall z, In z (cids c) -> Some z <> troot b).
  { intros z Z H. symmetry in H. apply in_root in H. destruct (D2 z H) as (_ & _ & _ & ?). tauto. }
  assert (S4 : exists h4, (if peq (topid c) None then Ok h3
      else z0 <- rch h3 (topid c) false ;;
           if peq z0 (Some y) then wch h3 (topid c) false (Some x) else wch h3 (topid c) true (Some x)) = Ok h4 /\
      length h4 = length h /\ (forall z, Some z <> topid c -> nth_error h4 z = nth_error h3 z) /\
      rc h4 (Some x) c).
  { destruct c as [|[[d2 z] s2] c2].
    - exists h3. simpl. repeat split; auto. lia.
    - cbn [topid peq]. cbn [rc] in RC. destruct RC as (Zn & RS2 & RC2).
      assert (IZ : In z (cids ((d2, z, s2) :: c2))) by (left; reflexivity).
      destruct (D5 z IZ) as (ZX & ZY).
      assert (Z3 : nth_error h3 z = Some (mkd d2 (Some y) (troot s2) (topid c2) z)).
      { rewrite SAME; auto. }
      rewrite (rch_ok _ _ _ _ Z3). cbn [bind].
      assert (S2Y : troot s2 <> Some y).
      { intros H. apply in_root in H. destruct (D5 y); [|congruence].
        cbn [cids]. right. apply in_or_app. auto. }
      assert (W : exists h4, (if peq (chd (mkd d2 (Some y) (troot s2) (topid c2) z) false) (Some y)
         then wch h3 (Some z) false (Some x) else wch h3 (Some z) true (Some x)) = Ok h4 /\
         chg h3 h4 z (mkd d2 (Some x) (troot s2) (topid c2) z)).
      { destruct d2; cbn [chd mkd ch0].
        - rewrite peq_neq by assumption. destruct (wch_ok h3 z _ true (Some x) Z3) as (h4 & E4 & C4).
          exists h4. split; [assumption|]. exact C4.
        - rewrite peq_refl. destruct (wch_ok h3 z _ false (Some x) Z3) as (h4 & E4 & C4).
          exists h4. split; [assumption|]. exact C4. }
      destruct W as (h4 & -> & L4 & E4 & F4). exists h4. split; [reflexivity|]. split; [lia|].
      split; [intros w W; apply F4; congruence|].
      apply (rc_rehole h h4 (Some y)); [cbn [rc]; auto| | |assumption].
      + intros w W W2. cbn [topid] in W2. rewrite F4 by congruence. destruct (D5 w W). apply SAME; auto.
      + intros d' y' s' c' [= <- <- <- <-]. assumption. }
  destruct S4 as (h4 & S4 & L4 & F4 & RC4). cbn [bind] in S4. rewrite S4. cbn [bind]. clear S4.
  assert (TX : Some x <> topid c).
  { destruct c as [|[[d2 z] s2] c2]; [discriminate|]. intros [= ->]. apply XC. left. reflexivity. }
  assert (TY : Some y <> topid c).
  { destruct c as [|[[d2 z] s2] c2]; [discriminate|]. intros [= ->]. apply NY. right. left. reflexivity. }
  assert (Y4 : nth_error h4 y = Some (mkd d (troot b) (troot s) (topid c) y)) by (rewrite F4; auto).
  destruct (wfa_ok h4 y _ (Some x) Y4) as (h5 & -> & L5 & E5 & F5). cbn [bind].
  replace (with_fa (mkd d (troot b) (troot s) (topid c) y) (Some x)) with (mkd d (troot b) (troot s) (Some x) y) in E5
    by now destruct d.
  assert (X5 : nth_error h5 x = Some (mkd d (troot a) (troot b) (topid c) x)).
  { rewrite F5, F4, E3 by auto. now destruct d. }
  destruct (wch_ok h5 x _ (negb d) (Some y) X5) as (h6 & -> & L6 & E6 & F6). cbn [bind].
  replace (with_ch (mkd d (troot a) (troot b) (topid c) x) (negb d) (Some y)) with (mkd d (troot a) (Some y) (topid c) x) in E6
    by now destruct d.
  assert (H6 : forall z, z <> x -> z <> y -> Some z <> topid c -> nth_error h6 z = nth_error h3 z).
  { intros z Z1 Z2 Z3. rewrite F6, F5, F4; auto. }
  assert (IC : forall z, Some z = topid c -> In z (cids c)).
  { destruct c as [|[[d2 z2] s2] c2]; [discriminate|]. intros z [= ->]. left. reflexivity. }
  exists h6. eexists. split; [reflexivity|]. split; [|split].
  - unfold st. rewrite rp_ndd, troot_ndd, rp_ndd. rewrite troot_ndd.
    split; [|split; [|split]].
    + split; [exact E6|]. split; [|split; [|split]].
      * eapply rp_frame; [exact RA|]. intros z Z. destruct (D1 z Z) as (A1 & A2 & A3 & A4 & A5).
        rewrite H6, SAME; auto.
        intros H. symmetry in H. apply in_root in H. tauto.
      * rewrite F6 by auto. exact E5.
      * eapply rp_frame; [exact RB2|]. intros z Z. destruct (D2 z Z) as (A1 & A2 & A3 & A4).
        rewrite H6; [apply F3; auto|auto|auto|].
        intros H. apply A4. auto.
      * eapply rp_frame; [exact RS|]. intros z Z. destruct (D4 z Z) as (A1 & A2 & A3).
        rewrite H6, SAME; auto.
        intros H. symmetry in H. apply in_root in H. destruct (D2 z H). tauto.
    + eapply rc_frame; [exact RC4|]. intros z Z. destruct (D5 z Z) as (A1 & A2).
      rewrite F6, F5; auto.
    + eapply Permutation_NoDup; [|exact N'].
      assert (Q1 : Permutation (inorder (ndd d a x (ndd d b y s))) (inorder a ++ x :: inorder b ++ y :: inorder s)).
      { rewrite inorder_ndd. apply Permutation_app_head. apply perm_skip. apply inorder_ndd. }
      rewrite Q1, <- !app_assoc. simpl. rewrite <- !app_assoc. reflexivity.
    + subst rt. cbn [plug]. destruct c as [|fr c].
      * cbn [plug]. rewrite !troot_ndd. now rewrite peq_refl.
      * rewrite peq_neq.
        -- destruct fr as [[d2 z] s2]. cbn [plug]. apply plug_root_inv. now rewrite !troot_ndd.
        -- intros H. symmetry in H. apply plug_root_ne in H; [|discriminate]. destruct (D5 y H). congruence.
  - lia.
  - intros z Z. rewrite in_app_iff, PERM in Z. cbn [cids] in Z. rewrite !in_app_iff in Z. simpl in Z.
    rewrite in_app_iff in Z.
    assert (z <> x) by (intros ->; tauto). assert (z <> y) by (intros ->; tauto).
    assert (Some z <> troot b) by (intros H'; symmetry in H'; apply in_root in H'; tauto).
    assert (Some z <> topid c) by (intros H'; apply IC in H'; tauto).
    rewrite H6, SAME; auto.
Qed.
End keyed.
