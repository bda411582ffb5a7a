From Verif Require Import Base SeqModel.

Section Z.
Context {A : Type}.

Lemma push_loop_ok (head : list A) : forall n i items,
  i + n <= length head -> i + n <= length items ->
  exists items', push_loop n i head items = Ok items' /\ length items' = length items /\
    forall j, nth_error items' j =
      if (i <=? j) && (j <? i + n) then
        match nth_error items j, nth_error head j with
        | Some it, Some x => Some (it ++ [x]) | _, _ => None end
      else nth_error items j.
Proof.
  induction n as [|n IH]; intros i items H1 H2.
  - exists items. split; [reflexivity|]. split; [reflexivity|]. intros j.
    destruct ((i <=? j) && (j <? i + 0)) eqn:E; [lia|reflexivity].
  - cbn [push_loop].
    destruct (nth_error head i) as [x|] eqn:Ex; [|apply nth_error_None in Ex; lia].
    destruct (nth_error items i) as [it|] eqn:Ei; [|apply nth_error_None in Ei; lia].
    destruct (IH (S i) (upd items i (it ++ [x]))) as (items' & -> & L & Hn);
      [lia|rewrite upd_length; lia|].
    exists items'. split; [reflexivity|]. rewrite upd_length in L. split; [assumption|].
    intros j. rewrite Hn.
    destruct (Nat.eq_dec j i) as [->|Hne].
    + destruct ((S i <=? i) && (i <? S i + n)) eqn:E; [lia|].
      destruct ((i <=? i) && (i <? i + S n)) eqn:E2; [|lia].
      rewrite nth_error_upd_eq by lia. now rewrite Ei, Ex.
    + rewrite nth_error_upd_neq by lia.
      destruct ((S i <=? j) && (j <? S i + n)) eqn:E;
      destruct ((i <=? j) && (j <? i + S n)) eqn:E2; try lia; reflexivity.
Qed.

(** [args] processed: item j holds the j-th elements of all of them in order *)
Definition column (args : list (list A)) (j : nat) : list A :=
  flat_map (fun c => match nth_error c j with Some x => [x] | None => [] end) args.
Definition minlen (n : nat) (args : list (list A)) : nat :=
  fold_left Nat.min (map (@length A) args) n.

Lemma column_app a b j : column (a ++ b) j = column a j ++ column b j.
Proof. unfold column. apply flat_map_app. Qed.

Lemma zip_ok : forall args done min items,
  min <= length items ->
  (forall j, j < min -> nth_error items j = Some (column done j)) ->
  exists r, zip_ args min items = Ok r /\ length r = minlen min args /\
    minlen min args <= min /\
    forall j, j < minlen min args -> nth_error r j = Some (column (done ++ args) j).
Proof.
  induction args as [|head tail IH]; intros done min items Hl Hd.
  - exists (resize min items). split; [reflexivity|]. unfold resize, minlen. cbn [map fold_left].
    replace (min - length items) with 0 by lia. cbn [repeat]. rewrite !app_nil_r.
    split; [rewrite firstn_length; lia|]. split; [lia|].
    intros j Hj. rewrite <- Hd by assumption.
    clear Hd. revert j min Hj Hl. induction items as [|x l IHl]; intros j min Hj Hl.
    + simpl in Hl. lia.
    + destruct min; [lia|]. destruct j; [reflexivity|]. cbn. apply IHl; simpl in Hl; lia.
  - cbn [zip_].
    set (min' := if length head <? min then length head else min).
    assert (Hm : min' = Nat.min min (length head)) by (unfold min'; destruct (Nat.ltb_spec (length head) min); lia).
    destruct (push_loop_ok head min' 0 items) as (items' & -> & L & Hn); [lia|lia|].
    cbn [bind].
    destruct (IH (done ++ [head]) min' items') as (r & -> & Lr & Hle & Hr); [lia| |].
    + intros j Hj. rewrite Hn.
      destruct ((0 <=? j) && (j <? 0 + min')) eqn:E; [|lia].
      rewrite Hd by lia. rewrite column_app. unfold column at 3. cbn [flat_map].
      destruct (nth_error head j) as [x|] eqn:Ex; [now rewrite app_nil_r|].
      apply nth_error_None in Ex. lia.
    + exists r. split; [reflexivity|].
      assert (E : minlen min (head :: tail) = minlen min' tail)
        by (unfold minlen; cbn [map fold_left]; now rewrite Hm).
      rewrite E. split; [assumption|]. split; [lia|].
      intros j Hj. rewrite Hr by assumption. now rewrite <- app_assoc.
Qed.

Lemma minlen_le n args c : In c args -> minlen n args <= length c.
Proof.
  unfold minlen. revert n. induction args as [|a args IH]; intros n Hc; [destruct Hc|].
  destruct Hc as [->|Hin]; cbn [map fold_left].
  - assert (G : forall l m, fold_left Nat.min l m <= m).
    { induction l as [|x l IHl]; intros m; cbn [fold_left]; [lia|]. specialize (IHl (Nat.min m x)). lia. }
    specialize (G (map (@length A) args) (Nat.min n (length c))). lia.
  - now apply IH.
Qed.
Lemma minlen_in n args : minlen n args = n \/ exists c, In c args /\ minlen n args = length c.
Proof.
  unfold minlen. revert n. induction args as [|a args IH]; intros n; cbn [map fold_left]; [now left|].
  destruct (IH (Nat.min n (length a))) as [->|(c & Hc & ->)].
  - destruct (Nat.min_spec n (length a)) as [[_ ->]|[_ ->]]; [now left|].
    right. exists a. split; [now left|reflexivity].
  - right. exists c. split; [now right|reflexivity].
Qed.

Lemma zip_spec (head : list A) tail :
  exists r, zip head tail = Ok r /\
    (forall c, In c (head :: tail) -> length r <= length c) /\
    (exists c, In c (head :: tail) /\ length r = length c) /\
    (forall i row k c, nth_error r i = Some row -> nth_error (head :: tail) k = Some c ->
       nth_error row k = nth_error c i) /\
    (forall i row, nth_error r i = Some row -> length row = S (length tail)).
Proof.
  unfold zip.
  destruct (zip_ok (head :: tail) [] (length head) (repeat [] (length head))) as (r & E & L & Hle & Hn).
  { rewrite repeat_length. lia. }
  { intros j Hj. unfold column. cbn [flat_map].
    clear -Hj. revert j Hj. induction (length head) as [|n IH]; intros j Hj; [lia|].
    destruct j; [reflexivity|]. cbn. apply IH. lia. }
  exists r. split; [exact E|]. split; [|split; [|]].
  - intros c Hc. rewrite L. now apply minlen_le.
  - rewrite L. destruct (minlen_in (length head) (head :: tail)) as [->|(c & Hc & ->)]; eauto.
    exists head. split; [now left|reflexivity].
  - assert (G : forall i row, nth_error r i = Some row ->
              (i < length r) /\ row = column (head :: tail) i /\
              forall c, In c (head :: tail) -> i < length c).
    { intros i row Hi. assert (Hlt : i < length r) by (apply nth_error_Some; congruence).
      split; [assumption|]. rewrite Hn in Hi by lia. injection Hi as <-. split; [reflexivity|].
      intros c Hc. rewrite L in Hlt. pose proof (minlen_le (length head) _ _ Hc). lia. }
    assert (Col : forall args i, (forall c, In c args -> i < length c) ->
              length (column args i) = length args /\
              forall k c, nth_error args k = Some c -> nth_error (column args i) k = nth_error c i).
    { induction args as [|a args IH]; intros i H.
      - split; [reflexivity|]. intros k c Hk. destruct k; discriminate.
      - unfold column. cbn [flat_map].
        destruct (nth_error a i) as [x|] eqn:Ex.
        2:{ apply nth_error_None in Ex. specialize (H a (or_introl eq_refl)). lia. }
        destruct (IH i) as [I1 I2]; [intros; apply H; now right|].
        cbn [app length]. split; [f_equal; exact I1|].
        intros k c Hk. destruct k as [|k]; cbn [nth_error] in *.
        + injection Hk as <-. now rewrite Ex.
        + now apply I2. }
    split.
    + intros i row k c Hi Hk. destruct (G _ _ Hi) as (_ & -> & HL).
      now apply (Col (head :: tail) i HL).
    + intros i row Hi. destruct (G _ _ Hi) as (_ & -> & HL).
      destruct (Col (head :: tail) i HL) as [-> _]. reflexivity.
Qed.
End Z.

Lemma filter_loop_eq {A} (f : A -> bool) l r : filter_loop f l r = r ++ filter f l.
Proof.
  revert r; induction l as [|x l IH]; intros r; cbn; [now rewrite app_nil_r|].
  rewrite IH. destruct (f x); [|reflexivity]. now rewrite <- app_assoc.
Qed.
Lemma map_loop_eq {A B} (f : A -> B) l r : map_loop f l r = r ++ map f l.
Proof.
  revert r; induction l as [|x l IH]; intros r; cbn; [now rewrite app_nil_r|].
  rewrite IH. now rewrite <- app_assoc.
Qed.

(** Order-preserving selection, independent of [filter]. *)
Inductive subseq {A} : list A -> list A -> Prop :=
| ss_nil : subseq [] []
| ss_keep x l r : subseq l r -> subseq (x :: l) (x :: r)
| ss_drop x l r : subseq l r -> subseq l (x :: r).

Lemma filterContainer_spec {A} (f : A -> bool) l :
  subseq (filterContainer f l) l /\
  (forall x, In x (filterContainer f l) <-> In x l /\ f x = true) /\
  (forall s, subseq s l -> (forall x, In x s -> f x = true) -> length s <= length (filterContainer f l)).
Proof.
  unfold filterContainer. rewrite filter_loop_eq. cbn [app]. split; [|split].
  - induction l as [|x l IH]; cbn; [constructor|]. destruct (f x); now constructor.
  - intros x. apply filter_In.
  - intros s H. induction H as [|x l0 r H IH|x l0 r H IH]; intros Hs.
    + simpl. lia.
    + cbn [filter]. rewrite (Hs x) by now left. cbn [length].
      specialize (IH (fun y Hy => Hs y (or_intror Hy))). lia.
    + specialize (IH Hs). cbn [filter]. destruct (f x); cbn [length]; lia.
Qed.

Lemma mapAll_spec {A B} (f : A -> B) l :
  length (mapAll f l) = length l /\
  forall i, nth_error (mapAll f l) i = option_map f (nth_error l i).
Proof.
  unfold mapAll. rewrite map_loop_eq. cbn [app]. split; [apply map_length|].
  intros i. apply nth_error_map.
Qed.
