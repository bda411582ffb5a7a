From Verif Require Import Base EditModel EditSpec.

(** ** Recursive distance and alignments *)
Definition delta (x y : ascii) : nat := if Ascii.eqb x y then 0 else 1.

Fixpoint lev (a : bytes) : bytes -> nat :=
  fix levb (b : bytes) : nat :=
    match a, b with
    | [], _ => length b
    | _, [] => length a
    | x :: s, y :: t =>
        Nat.min (Nat.min (S (lev s b)) (S (levb t))) (lev s t + delta x y)
    end.

Lemma lev_nil_l b : lev [] b = length b.
Proof. destruct b; reflexivity. Qed.
Lemma lev_nil_r a : lev a [] = length a.
Proof. destruct a; reflexivity. Qed.
Lemma lev_cons x s y t : lev (x :: s) (y :: t) =
  Nat.min (Nat.min (S (lev s (y :: t))) (S (lev (x :: s) t))) (lev s t + delta x y).
Proof. reflexivity. Qed.

Inductive align : nat -> bytes -> bytes -> Prop :=
| al_nil : align 0 [] []
| al_del n x s t : align n s t -> align (S n) (x :: s) t
| al_ins n y s t : align n s t -> align (S n) s (y :: t)
| al_sub n x y s t : align n s t -> align (n + delta x y) (x :: s) (y :: t).

Lemma align_del_all s : align (length s) s [].
Proof. induction s; simpl; constructor; auto. Qed.
Lemma align_ins_all s : align (length s) [] s.
Proof. induction s; simpl; constructor; auto. Qed.
Lemma align_refl s : align 0 s s.
Proof.
  induction s as [|x s IH]; [constructor|].
  replace 0 with (0 + delta x x); [now constructor|].
  unfold delta. now rewrite Ascii.eqb_refl.
Qed.

Lemma lev_align a b : align (lev a b) a b.
Proof.
  revert b; induction a as [|x s IHa]; intros b.
  - rewrite lev_nil_l. apply align_ins_all.
  - induction b as [|y t IHb].
    + rewrite lev_nil_r. apply align_del_all.
    + rewrite lev_cons.
      destruct (Nat.min_spec (Nat.min (S (lev s (y :: t))) (S (lev (x :: s) t))) (lev s t + delta x y))
        as [[_ ->]|[_ ->]].
      * destruct (Nat.min_spec (S (lev s (y :: t))) (S (lev (x :: s) t))) as [[_ ->]|[_ ->]].
        -- apply al_del. apply IHa.
        -- apply al_ins. exact IHb.
      * apply al_sub. apply IHa.
Qed.

Lemma lev_del x s t : lev (x :: s) t <= S (lev s t).
Proof.
  destruct t as [|y t]; [rewrite !lev_nil_r; simpl; lia|]. rewrite lev_cons. lia.
Qed.
Lemma lev_ins y s t : lev s (y :: t) <= S (lev s t).
Proof.
  destruct s as [|x s]; [rewrite !lev_nil_l; simpl; lia|]. rewrite lev_cons. lia.
Qed.
Lemma align_lev n a b : align n a b -> lev a b <= n.
Proof.
  induction 1 as [|n x s t H IH|n y s t H IH|n x y s t H IH].
  - simpl. lia.
  - pose proof (lev_del x s t). lia.
  - pose proof (lev_ins y s t). lia.
  - rewrite lev_cons. lia.
Qed.

Lemma delta_tri x y z : delta x z <= delta x y + delta y z.
Proof.
  unfold delta. destruct (Ascii.eqb_spec x z), (Ascii.eqb_spec x y), (Ascii.eqb_spec y z); try lia.
  congruence.
Qed.
Lemma delta_sym x y : delta x y = delta y x.
Proof. unfold delta. now rewrite Ascii.eqb_sym. Qed.

Lemma align_trans n a b : align n a b -> forall m c, align m b c -> exists k, k <= n + m /\ align k a c.
Proof.
  induction 1 as [|n x s t H IH|n y s t H IH|n x y s t H IH]; intros m c Hc.
  - exists m. split; [lia|assumption].
  - destruct (IH _ _ Hc) as (k & Hk & A). exists (S k). split; [lia|now constructor].
  - remember (y :: t) as b eqn:E.
    induction Hc as [|m z s' c H' IH'|m z s' c H' IH'|m w z s' c H' IH']; try discriminate.
    + injection E as -> ->. destruct (IH _ _ H') as (k & Hk & A). exists k. split; [lia|assumption].
    + destruct (IH' E) as (k & Hk & A). exists (S k). split; [lia|now constructor].
    + injection E as -> ->. destruct (IH _ _ H') as (k & Hk & A). exists (S k).
      split; [lia|now constructor].
  - remember (y :: t) as b eqn:E.
    induction Hc as [|m z s' c H' IH'|m z s' c H' IH'|m w z s' c H' IH']; try discriminate.
    + injection E as -> ->. destruct (IH _ _ H') as (k & Hk & A). exists (S k).
      split; [lia|now constructor].
    + destruct (IH' E) as (k & Hk & A). exists (S k). split; [lia|now constructor].
    + injection E as -> ->. destruct (IH _ _ H') as (k & Hk & A). exists (k + delta x z).
      split; [pose proof (delta_tri x y z); lia|now constructor].
Qed.

Lemma align_sym n a b : align n a b -> align n b a.
Proof.
  induction 1; [constructor|now constructor|now constructor|].
  rewrite delta_sym. now constructor.
Qed.

Lemma align_app_l n u a b : align n a b -> align n (u ++ a) (u ++ b).
Proof.
  intros H. induction u as [|c u IH]; [assumption|]. cbn [app].
  replace n with (n + delta c c); [now constructor|].
  unfold delta. rewrite Ascii.eqb_refl. lia.
Qed.

Lemma edit1_align a b : edit1 a b -> exists k, k <= 1 /\ align k a b.
Proof.
  intros [u v c|u v c|u v c c'].
  - exists 1. split; [lia|]. apply align_app_l. constructor. apply align_refl.
  - exists 1. split; [lia|]. apply align_app_l. constructor. apply align_refl.
  - exists (0 + delta c c'). split; [unfold delta; destruct (Ascii.eqb c c'); lia|].
    apply align_app_l. constructor. apply align_refl.
Qed.

Lemma edits_align n a b : edits n a b -> exists k, k <= n /\ align k a b.
Proof.
  induction 1 as [a|n a b c H1 H2 (k & Hk & A)].
  - exists 0. split; [lia|apply align_refl].
  - destruct (edit1_align _ _ H1) as (k1 & Hk1 & A1).
    destruct (align_trans _ _ _ A1 _ _ A) as (k' & Hk' & A'). exists k'. split; [lia|assumption].
Qed.

Lemma edits_trans n m a b c : edits n a b -> edits m b c -> edits (n + m) a c.
Proof. induction 1; simpl; intros; [assumption|econstructor; eauto]. Qed.
Lemma edit1_cons c a b : edit1 a b -> edit1 (c :: a) (c :: b).
Proof.
  intros [u v d|u v d|u v d e]; rewrite !app_comm_cons; constructor.
Qed.
Lemma edits_cons n c a b : edits n a b -> edits n (c :: a) (c :: b).
Proof. induction 1; [constructor|econstructor; [apply edit1_cons|]; eauto]. Qed.
Lemma edit1_sym a b : edit1 a b -> edit1 b a.
Proof. intros [u v c|u v c|u v c c']; constructor. Qed.
Lemma edits_sym n a b : edits n a b -> edits n b a.
Proof.
  induction 1 as [|n a b c H1 H2 IH]; [constructor|].
  replace (S n) with (n + 1) by lia. eapply edits_trans; [exact IH|].
  econstructor; [apply edit1_sym; eassumption|constructor].
Qed.

Lemma align_edits n a b : align n a b -> edits n a b.
Proof.
  induction 1 as [|n x s t H IH|n y s t H IH|n x y s t H IH].
  - constructor.
  - econstructor; [apply (e_delete [])|exact IH].
  - replace (S n) with (n + 1) by lia. eapply edits_trans; [exact IH|].
    econstructor; [apply (e_insert [])|constructor].
  - eapply edits_trans; [apply edits_cons; exact IH|].
    unfold delta. destruct (Ascii.eqb_spec x y) as [->|]; [constructor|].
    econstructor; [apply (e_replace [])|constructor].
Qed.

Lemma lev_least a b : least_edits a b (lev a b).
Proof.
  split; [apply align_edits, lev_align|].
  intros k Hk. destruct (edits_align _ _ _ Hk) as (k' & Hk' & A).
  apply align_lev in A. lia.
Qed.

Lemma edit1_rev a b : edit1 a b -> edit1 (rev a) (rev b).
Proof.
  intros [u v c|u v c|u v c c']; rewrite !rev_app_distr; cbn [rev];
  rewrite <- ?app_assoc; cbn [app]; constructor.
Qed.
Lemma edits_rev n a b : edits n a b -> edits n (rev a) (rev b).
Proof. induction 1; [constructor|econstructor; [apply edit1_rev|]; eauto]. Qed.
Lemma least_edits_rev a b n : least_edits a b n -> least_edits (rev a) (rev b) n.
Proof.
  intros [H1 H2]. split; [now apply edits_rev|].
  intros k Hk. apply H2. apply edits_rev in Hk. now rewrite !rev_involutive in Hk.
Qed.
Lemma least_unique a b n m : least_edits a b n -> least_edits a b m -> n = m.
Proof. intros [H1 H2] [H3 H4]. specialize (H2 _ H3). specialize (H4 _ H1). lia. Qed.

Lemma lev_rev a b : lev (rev a) (rev b) = lev a b.
Proof.
  eapply least_unique; [apply lev_least|]. apply least_edits_rev, lev_least.
Qed.

Lemma lev_upper a b : lev a b <= Nat.max (length a) (length b).
Proof.
  revert b; induction a as [|x s IH]; intros b.
  - rewrite lev_nil_l. simpl. lia.
  - destruct b as [|y t]; [rewrite lev_nil_r; lia|].
    rewrite lev_cons. specialize (IH t). cbn [length].
    assert (delta x y <= 1) by (unfold delta; destruct (Ascii.eqb x y); lia). lia.
Qed.
Lemma align_length n a b : align n a b -> length a <= length b + n /\ length b <= length a + n.
Proof. induction 1; cbn [length]; try lia. Qed.
Lemma lev_lower a b : length a <= length b + lev a b /\ length b <= length a + lev a b.
Proof. apply align_length, lev_align. Qed.
Lemma lev_tri a b c : lev a c <= lev a b + lev b c.
Proof.
  destruct (align_trans _ _ _ (lev_align a b) _ _ (lev_align b c)) as (k & Hk & A).
  apply align_lev in A. lia.
Qed.
Lemma lev_sym a b : lev a b = lev b a.
Proof.
  pose proof (align_lev _ _ _ (align_sym _ _ _ (lev_align a b))).
  pose proof (align_lev _ _ _ (align_sym _ _ _ (lev_align b a))). lia.
Qed.
Lemma lev_zero a b : lev a b = 0 <-> a = b.
Proof.
  split.
  - intros H. destruct (lev_least a b) as [E _]. rewrite H in E. now inversion E.
  - intros ->. pose proof (align_lev _ _ _ (align_refl b)). lia.
Qed.

(** ** The matrix *)
Local Open Scope Z_scope.

Lemma aget_aset {A} (l : list A) i x j : 0 <= i < Z.of_nat (length l) ->
  exists l', aset l i x = Ok l' /\ length l' = length l /\
    (aget l' j = if j =? i then Ok x else aget l j).
Proof.
  intros H. exists (upd l (Z.to_nat i) x). split; [now apply aset_ok|].
  split; [apply upd_length|].
  destruct (Z.eqb_spec j i) as [->|].
  - apply aget_nth_error; [lia|]. apply nth_error_upd_eq. lia.
  - unfold aget. destruct (Z.ltb_spec j 0); [reflexivity|].
    rewrite nth_error_upd_neq by lia. reflexivity.
Qed.

Definition shape (M : matrix) (m1 n1 : Z) : Prop :=
  Z.of_nat (length M) = m1 /\ forall i row, aget M i = Ok row -> Z.of_nat (length row) = n1.

Lemma mset_ok M m1 n1 i j v : shape M m1 n1 -> 0 <= i < m1 -> 0 <= j < n1 ->
  exists M', mset M i j v = Ok M' /\ shape M' m1 n1 /\
    forall i' j', mget M' i' j' = if (i' =? i) && (j' =? j) then Ok v else mget M i' j'.
Proof.
  intros [S1 S2] Hi Hj. unfold mset.
  destruct (nth_error M (Z.to_nat i)) as [row|] eqn:Er.
  2:{ apply nth_error_None in Er. lia. }
  pose proof (aget_nth_error M i row ltac:(lia) Er) as Er'.
  pose proof (S2 _ _ Er') as Lr.
  rewrite Er'. cbn [bind].
  rewrite aset_ok by lia. cbn [bind]. rewrite aset_ok by lia.
  eexists; split; [reflexivity|]. split.
  - split; [rewrite upd_length; lia|]. intros i' row' H.
    destruct (Z.eq_dec i' i) as [->|Hne].
    + apply aget_inv in H. destruct H as [_ H].
      rewrite nth_error_upd_eq in H by lia. injection H as <-. rewrite upd_length. lia.
    + apply (S2 i'). unfold aget in *. destruct (i' <? 0) eqn:Hneg; [discriminate|].
      rewrite nth_error_upd_neq in H by lia. exact H.
  - intros i' j'. unfold mget.
    destruct (Z.eqb_spec i' i) as [->|Hne]; cbn [andb].
    + rewrite (aget_nth_error (upd M (Z.to_nat i) (upd row (Z.to_nat j) (Some v))) i
                (upd row (Z.to_nat j) (Some v))) by (try apply nth_error_upd_eq; lia).
      cbn [bind]. rewrite Er'. cbn [bind].
      destruct (Z.eqb_spec j' j) as [->|Hne'].
      * rewrite (aget_nth_error _ j (Some v)) by (try apply nth_error_upd_eq; lia). reflexivity.
      * replace (aget (upd row (Z.to_nat j) (Some v)) j') with (aget row j'); [reflexivity|].
        unfold aget. destruct (Z.ltb_spec j' 0); [reflexivity|].
        now rewrite nth_error_upd_neq by lia.
    + replace (aget (upd M (Z.to_nat i) (upd row (Z.to_nat j) (Some v))) i') with (aget M i');
        [reflexivity|].
      unfold aget. destruct (Z.ltb_spec i' 0); [reflexivity|].
      now rewrite nth_error_upd_neq by lia.
Qed.

Section Dist.
Variables s1 s2 : bytes.
Definition pre (s : bytes) (i : Z) : bytes := rev (firstn (Z.to_nat i) s).
Definition D (i j : Z) : Z := Z.of_nat (lev (pre s1 i) (pre s2 j)).

Lemma pre_length s i : 0 <= i <= Z.of_nat (length s) -> Z.of_nat (length (pre s i)) = i.
Proof. intros. unfold pre. rewrite rev_length, firstn_length. lia. Qed.
Lemma pre_step s i c : 1 <= i <= Z.of_nat (length s) ->
  aget s (i - 1) = Ok c -> pre s i = c :: pre s (i - 1).
Proof.
  intros H Hc. apply aget_inv in Hc. destruct Hc as [_ Hc]. unfold pre.
  replace (Z.to_nat i) with (Datatypes.S (Z.to_nat (i - 1))) by lia.
  revert Hc. generalize (Z.to_nat (i - 1)) as k. clear H. intros k. revert k.
  induction s as [|x s IH]; intros k Hk; [destruct k; discriminate|].
  destruct k as [|k].
  - injection Hk as ->. reflexivity.
  - cbn [nth_error] in Hk. cbn [firstn rev]. cbn [firstn] in IH. rewrite (IH k Hk). reflexivity.
Qed.
Lemma pre0 s : pre s 0 = [].
Proof. reflexivity. Qed.

Lemma D_0_r i : 0 <= i <= Z.of_nat (length s1) -> D i 0 = i.
Proof. intros. unfold D. rewrite pre0, lev_nil_r. now apply pre_length. Qed.
Lemma D_0_l j : 0 <= j <= Z.of_nat (length s2) -> D 0 j = j.
Proof. intros. unfold D. rewrite pre0, lev_nil_l. now apply pre_length. Qed.
Lemma min3_spec a b c : min3 a b c = Z.min (Z.min a b) c.
Proof.
  unfold min3. destruct (Z.ltb_spec a b).
  - destruct (Z.ltb_spec a c); lia.
  - destruct (Z.ltb_spec b c); lia.
Qed.
Lemma D_step i j c1 c2 :
  1 <= i <= Z.of_nat (length s1) -> 1 <= j <= Z.of_nat (length s2) ->
  aget s1 (i - 1) = Ok c1 -> aget s2 (j - 1) = Ok c2 ->
  D i j = min3 (D (i - 1) j + 1) (D i (j - 1) + 1)
            (D (i - 1) (j - 1) + if Ascii.eqb c1 c2 then 0 else 1).
Proof.
  intros Hi Hj E1 E2. rewrite min3_spec. unfold D.
  rewrite (pre_step s1 i c1), (pre_step s2 j c2) by assumption.
  rewrite lev_cons. unfold delta. destruct (Ascii.eqb c1 c2); lia.
Qed.
Lemma D_bound i j : 0 <= i <= Z.of_nat (length s1) -> 0 <= j <= Z.of_nat (length s2) ->
  0 <= D i j <= Z.max i j.
Proof.
  intros Hi Hj. unfold D. pose proof (lev_upper (pre s1 i) (pre s2 j)).
  pose proof (pre_length s1 i Hi). pose proof (pre_length s2 j Hj). lia.
Qed.

Lemma aget_some {A} (l : list A) i : 0 <= i < Z.of_nat (length l) -> exists x, aget l i = Ok x.
Proof.
  intros H. destruct (nth_error l (Z.to_nat i)) as [x|] eqn:E.
  - exists x. now apply aget_nth_error.
  - apply nth_error_None in E. lia.
Qed.

Lemma editDistance_lev :
  Z.of_nat (length s1) < int32_max -> Z.of_nat (length s2) < int32_max ->
  editDistance s1 s2 = Ok (Z.of_nat (lev s1 s2)).
Proof.
  unfold int32_max. intros L1 L2. unfold editDistance.
  set (m := Z.of_nat (length s1)) in *. set (n := Z.of_nat (length s2)) in *.
  rewrite !wrap32_id by (unfold in_int32, int32_min, int32_max; lia).
  destruct ((m =? 0) || (n =? 0)) eqn:E0.
  { unfold chk32. replace (in_int32 (m + n)) with true
      by (unfold in_int32, int32_min, int32_max; lia).
    f_equal. apply orb_prop in E0. destruct E0 as [E0|E0].
    - assert (length s1 = 0)%nat by lia. destruct s1; [|discriminate].
      rewrite lev_nil_l. subst m n. simpl. lia.
    - assert (length s2 = 0)%nat by lia. destruct s2; [|discriminate].
      rewrite lev_nil_r. subst m n. simpl. lia. }
  apply orb_false_elim in E0. destruct E0 as [Em En].
  assert (0 < m /\ 0 < n) as [Hm Hn] by lia.
  unfold chk32 at 1 2.
  replace (in_int32 (m + 1)) with true by (unfold in_int32, int32_min, int32_max; lia).
  replace (in_int32 (n + 1)) with true by (unfold in_int32, int32_min, int32_max; lia).
  cbn [bind].
  (* column 0 *)
  pose (I1 := fun (i : Z) (M : matrix) => Z.of_nat (length M) = m + 1 /\
     forall i', 0 <= i' < i -> exists row, aget M i' = Ok row /\ Z.of_nat (length row) = n + 1
        /\ aget row 0 = Ok (Some i')).
  match goal with |- bind (for_loop _ _ ?body ?s) _ = _ =>
    destruct (for_loop_inv I1 body (Z.to_nat (m + 1)) 0 s) as (M1 & EM1 & HM1) end.
  { split; [rewrite repeat_length; lia|]. intros; lia. }
  { intros k M Hk [HL HM].
    rewrite aset_ok by (rewrite repeat_length; lia). cbn [bind].
    rewrite aset_ok by lia. eexists; split; [reflexivity|].
    split; [rewrite upd_length; lia|]. intros i' Hi'.
    destruct (Z.eq_dec i' k) as [->|].
    - eexists. split; [apply aget_nth_error; [lia|apply nth_error_upd_eq; lia]|].
      rewrite upd_length, repeat_length. split; [lia|].
      apply aget_nth_error; [lia|]. apply nth_error_upd_eq. rewrite repeat_length. lia.
    - destruct (HM i' ltac:(lia)) as (row & H1 & H2 & H3). exists row.
      split; [|auto]. unfold aget. destruct (Z.ltb_spec i' 0); [lia|].
      rewrite nth_error_upd_neq by lia. unfold aget in H1.
      destruct (Z.ltb_spec i' 0); [lia|assumption]. }
  rewrite EM1. cbn [bind].
  assert (SH1 : shape M1 (m + 1) (n + 1)).
  { destruct HM1 as [HL HM]. split; [assumption|]. intros i row H.
    pose proof (aget_inv _ _ _ H) as [Hr _].
    destruct (HM i ltac:(lia)) as (row' & H1 & H2 & H3). congruence. }
  assert (C1 : forall i, 0 <= i <= m -> mget M1 i 0 = Ok i).
  { intros i Hi. destruct HM1 as [HL HM].
    destruct (HM i ltac:(lia)) as (row' & H1 & H2 & H3).
    unfold mget. rewrite H1. cbn [bind]. now rewrite H3. }
  clear HM1.
  (* row 0 *)
  pose (I2 := fun (k : Z) (M : matrix) => shape M (m + 1) (n + 1) /\
     (forall i, 0 <= i <= m -> mget M i 0 = Ok i) /\
     (forall j, 0 <= j < k -> mget M 0 j = Ok j)).
  destruct (for_loop_inv I2 (fun i M => mset M 0 i i) (Z.to_nat (n + 1)) 0 M1)
    as (M2 & EM2 & HM2).
  { split; [assumption|]. split; [assumption|]. intros; lia. }
  { intros k M Hk (HS & HC & HR).
    destruct (mset_ok M (m + 1) (n + 1) 0 k k) as (M' & -> & HS' & HG); try assumption; try lia.
    exists M'. split; [reflexivity|]. split; [assumption|]. split.
    - intros i Hi. rewrite HG.
      destruct ((i =? 0) && (0 =? k)) eqn:E; [f_equal; lia|auto].
    - intros j Hj. rewrite HG.
      destruct ((0 =? 0) && (j =? k)) eqn:E; [f_equal; lia|apply HR; lia]. }
  rewrite EM2. cbn [bind].
  destruct HM2 as (HS2 & HC2 & HR2).
  (* main loops *)
  pose (K := fun (i j : Z) (M : matrix) => shape M (m + 1) (n + 1) /\
     (forall x, 0 <= x <= m -> mget M x 0 = Ok x) /\
     (forall x y, 0 <= x <= m -> 0 <= y <= n -> x < i \/ (x = i /\ y < j) ->
        mget M x y = Ok (D x y))).
  match goal with |- bind (for_loop _ _ ?body _) _ = _ =>
    destruct (for_loop_inv (fun i M => K i 1 M) body (Z.to_nat m) 1 M2) as (M3 & EM3 & HM3) end.
  { split; [assumption|]. split; [assumption|]. intros x y Hx Hy Hxy.
    destruct (Z.eq_dec x 0) as [->|].
    - rewrite HR2 by lia. now rewrite D_0_l by (subst n; lia).
    - assert (x = 1 /\ y = 0) as [-> ->] by lia. rewrite HC2 by lia.
      now rewrite D_0_r by (subst m; lia). }
  { intros i M Hi HK. 
    match goal with |- exists x', for_loop _ _ ?body _ = _ /\ _ =>
      destruct (for_loop_inv (fun j M => K i j M) body (Z.to_nat n) 1 M) as (M' & EM' & HM') end.
    - exact HK.
    - intros j M' Hj (HS & HC & HG).
      destruct (aget_some s1 (i - 1)) as [c1 E1]; [subst m; lia|].
      destruct (aget_some s2 (j - 1)) as [c2 E2]; [subst n; lia|].
      rewrite E1, E2. cbn [bind].
      rewrite (HG (i - 1) j) by lia. cbn [bind].
      rewrite (HG i (j - 1)) by lia.
      rewrite (HG (i - 1) (j - 1)) by lia.
      pose proof (D_bound (i - 1) j ltac:(lia) ltac:(lia)).
      pose proof (D_bound i (j - 1) ltac:(lia) ltac:(lia)).
      pose proof (D_bound (i - 1) (j - 1) ltac:(lia) ltac:(lia)).
      assert (CK : forall z, -1 <= z <= 2147483647 -> chk32 z = Ok z).
      { intros z Hz. unfold chk32.
        replace (in_int32 z) with true by (unfold in_int32, int32_min, int32_max; lia). reflexivity. }
      rewrite CK by lia. cbn [bind]. rewrite CK by lia. cbn [bind].
      rewrite CK by (destruct (Ascii.eqb c1 c2); lia). cbn [bind].
      rewrite <- (D_step i j c1 c2) by (assumption || (subst m n; lia)).
      destruct (mset_ok M' (m + 1) (n + 1) i j (D i j)) as (M'' & -> & HS'' & HG'');
        try assumption; try lia.
      exists M''. split; [reflexivity|]. split; [assumption|]. split.
      + intros x Hx. rewrite HG''. destruct ((x =? i) && (0 =? j)) eqn:E; [lia|auto].
      + intros x y Hx Hy Hxy. rewrite HG''.
        destruct (Z.eqb_spec x i) as [->|]; cbn [andb].
        * destruct (Z.eqb_spec y j) as [->|]; [reflexivity|]. apply HG; lia.
        * apply HG; lia.
    - exists M'. split; [exact EM'|].
      destruct HM' as (HS' & HC' & HG'). split; [assumption|]. split; [assumption|].
      intros x y Hx Hy Hxy.
      destruct (Z.eq_dec x (i + 1)) as [->|].
      + assert (y = 0) as -> by lia. rewrite HC' by lia.
        now rewrite D_0_r by (subst m; lia).
      + apply HG'; try lia. }
  rewrite EM3. cbn [bind].
  destruct HM3 as (_ & _ & HG3). rewrite HG3 by lia.
  f_equal. unfold D, pre. rewrite !firstn_all2 by (subst m n; lia). now rewrite lev_rev.
Qed.
End Dist.

Lemma editDistance_least s1 s2 :
  Z.of_nat (length s1) < int32_max -> Z.of_nat (length s2) < int32_max ->
  exists n, editDistance s1 s2 = Ok (Z.of_nat n) /\ least_edits s1 s2 n.
Proof. intros. exists (lev s1 s2). split; [now apply editDistance_lev|apply lev_least]. Qed.

Lemma editDistance_metric a b c :
  Z.of_nat (length a) < int32_max -> Z.of_nat (length b) < int32_max ->
  Z.of_nat (length c) < int32_max ->
  exists ab ba bc ac,
    editDistance a b = Ok ab /\ editDistance b a = Ok ba /\
    editDistance b c = Ok bc /\ editDistance a c = Ok ac /\
    (ab = 0 <-> a = b) /\ ab = ba /\ ac <= ab + bc /\
    Z.abs (Z.of_nat (length a) - Z.of_nat (length b)) <= ab
      <= Z.max (Z.of_nat (length a)) (Z.of_nat (length b)).
Proof.
  intros Ha Hb Hc.
  exists (Z.of_nat (lev a b)), (Z.of_nat (lev b a)), (Z.of_nat (lev b c)), (Z.of_nat (lev a c)).
  rewrite !editDistance_lev by assumption.
  pose proof (lev_sym a b). pose proof (lev_tri a b c). pose proof (lev_lower a b).
  pose proof (lev_upper a b). pose proof (lev_zero a b).
  repeat split; try lia.
  - intros E. apply lev_zero. lia.
  - intros ->. assert (lev b b = 0)%nat by now apply lev_zero. lia.
Qed.
