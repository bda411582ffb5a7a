(** Operators of BigNum on values. *)
From Verif Require Import Base DecModel DecProofs BigModel BigSpec BigProofs.
Local Open Scope Z_scope.

Lemma magnitude_mag cap b m : magnitude cap b m -> exists ds, mag cap b ds /\ m = dval ds.
Proof. intros (ds & tail & H1 & H2 & H3 & H4 & H5 & H6). exists ds. split; [|assumption]. unfold mag. eauto 10. Qed.
Lemma mag_magnitude cap b ds : mag cap b ds -> magnitude cap b (dval ds).
Proof. intros ([tail H1] & H2 & H3 & H4 & H5). exists ds, tail. auto 10. Qed.
Lemma mag_le cap b ds : mag cap b ds -> (length ds <= cap)%nat.
Proof. intros ([tail E] & L & _). rewrite E, app_length, map_length in L. lia. Qed.
Lemma mag_nil cap b ds : mag cap b ds -> (ds = [] <-> dval ds = 0).
Proof.
  intros (_ & _ & _ & Hd & Hl). split; [intros ->; reflexivity|]. intros H.
  destruct (list_eq_dec Z.eq_dec ds []) as [|N]; [assumption|].
  pose proof (dval_lower ds Hd N (Hl N)).
  assert (0 < 10 ^ (Z.of_nat (length ds) - 1)); [|lia].
  apply Z.pow_pos_nonneg; [lia|]. destruct ds; [congruence|]. cbn [length]. lia.
Qed.

Lemma list_ext_aget {A} (l l' : list A) :
  length l = length l' -> (forall i, 0 <= i < Z.of_nat (length l) -> aget l i = aget l' i) -> l = l'.
Proof.
  revert l'; induction l as [|x l IH]; intros [|y l'] H E; try discriminate; [reflexivity|].
  f_equal.
  - specialize (E 0). cbn [length] in E. specialize (E ltac:(lia)). cbv in E. congruence.
  - apply IH; [now injection H|]. intros i Hi. specialize (E (i + 1)). cbn [length] in E.
    specialize (E ltac:(lia)). unfold aget in *.
    destruct (Z.ltb_spec (i + 1) 0); [lia|]. destruct (Z.ltb_spec i 0); [lia|].
    replace (Z.to_nat (i + 1)) with (S (Z.to_nat i)) in E by lia. exact E.
Qed.
Lemma aget_app2 {A} (l1 l2 : list A) i : Z.of_nat (length l1) <= i ->
  aget (l1 ++ l2) i = aget l2 (i - Z.of_nat (length l1)).
Proof.
  intros H. unfold aget. destruct (Z.ltb_spec i 0); [lia|].
  destruct (Z.ltb_spec (i - Z.of_nat (length l1)) 0); [lia|].
  rewrite nth_error_app2 by lia. replace (Z.to_nat i - length l1)%nat with (Z.to_nat (i - Z.of_nat (length l1))) by lia.
  reflexivity.
Qed.
Lemma aget_app1 {A} (l1 l2 : list A) i : i < Z.of_nat (length l1) -> aget (l1 ++ l2) i = aget l1 i.
Proof.
  intros H. unfold aget. destruct (Z.ltb_spec i 0); [reflexivity|].
  rewrite nth_error_app1 by lia. reflexivity.
Qed.
Lemma aget_repeat {A} (x : A) n i : 0 <= i < Z.of_nat n -> aget (repeat x n) i = Ok x.
Proof.
  intros H. rewrite (aget_ok _ _ x) by (rewrite repeat_length; lia). rewrite nth_repeat. reflexivity.
Qed.

(** the array of a number whose cells above the digits start with [st] *)
Lemma leftover_el cap b ds st : mag cap b ds -> leftover b st -> (length ds + length st <= cap)%nat ->
  exists tail, el b = map Some (ds ++ st) ++ tail.
Proof.
  intros ([tail E] & L & N & _) [_ H] Hc.
  exists (skipn (length st) tail). rewrite map_app, <- app_assoc, E. f_equal.
  rewrite <- (firstn_skipn (length st) tail) at 1. f_equal.
  assert (Lt : (length st <= length tail)%nat) by (rewrite E, app_length, map_length in L; lia).
  apply list_ext_aget.
  - rewrite firstn_length_le, map_length; lia.
  - intros i Hi. rewrite firstn_length_le in Hi by lia.
    specialize (H (Z.to_nat i) ltac:(lia)). rewrite N, E in H.
    rewrite aget_app2 in H by (rewrite map_length; lia). rewrite map_length in H.
    replace (Z.of_nat (length ds) + Z.of_nat (Z.to_nat i) - Z.of_nat (length ds)) with i in H by lia.
    rewrite <- (firstn_skipn (length st) tail) in H. rewrite aget_app1 in H by (rewrite firstn_length_le; lia).
    rewrite H. rewrite (aget_ok _ _ (Some 0)) by (rewrite map_length; lia). now rewrite map_nth.
Qed.
Lemma clean_leftover cap b ds n : mag cap b ds -> clean b -> (length ds + n <= cap)%nat -> leftover b (repeat 0 n).
Proof.
  intros (_ & L & N & _) Hc Hn. split; [apply digit_zeros|]. intros k Hk. rewrite repeat_length in Hk.
  rewrite Hc by lia. now rewrite nth_repeat.
Qed.
Lemma clean_el cap b ds n : mag cap b ds -> clean b -> (length ds + n <= cap)%nat ->
  exists tail, el b = map Some (ds ++ repeat 0 n) ++ tail.
Proof.
  intros Hm Hc Hn. eapply leftover_el; [eassumption|eapply clean_leftover; eassumption|].
  rewrite repeat_length. assumption.
Qed.

(** ** Assignment *)
Lemma assign_mag cap d s ds : length (el d) = cap -> mag cap s ds ->
  exists r, assign d s = Ok r /\ mag cap r ds /\ sgn r = sgn s /\
    (forall i, len s <= i -> aget (el r) i = aget (el d) i) /\
    el r = map Some ds ++ skipn (length ds) (el d).
Proof.
  intros Ld Hm. pose proof (mag_le _ _ _ Hm) as Hle. destruct Hm as ([tail E] & L & N & Hd & Hl).
  unfold assign. rewrite L, Ld, N.
  destruct (Z.ltb_spec (Z.of_nat (length ds)) 0); [lia|].
  destruct (Z.ltb_spec (Z.of_nat cap) (Z.of_nat (length ds))); [lia|]. cbn [orb].
  rewrite Nat2Z.id.
  assert (Ef : firstn (length ds) (el s) = map Some ds).
  { rewrite E. rewrite <- (map_length Some ds). rewrite firstn_app, Nat.sub_diag, firstn_all, firstn_O. apply app_nil_r. }
  rewrite Ef. eexists. split; [reflexivity|]. cbn [el len sgn].
  split; [|split; [reflexivity|split; [|reflexivity]]].
  - split; [eexists; reflexivity|]. cbn [el len]. split; [|auto].
    rewrite app_length, map_length, skipn_length. lia.
  - intros i Hi. rewrite aget_app2 by (rewrite map_length; lia). rewrite map_length.
    unfold aget. destruct (Z.ltb_spec (i - Z.of_nat (length ds)) 0); [lia|].
    destruct (Z.ltb_spec i 0); [lia|].
    rewrite <- (firstn_skipn (length ds) (el d)) at 2.
    rewrite nth_error_app2 by (rewrite firstn_length_le; lia). rewrite firstn_length_le by lia.
    replace (Z.to_nat (i - Z.of_nat (length ds))) with (Z.to_nat i - length ds)%nat by lia. reflexivity.
Qed.
Lemma skipn_repeat {A} (x : A) n k : skipn k (repeat x n) = repeat x (n - k).
Proof.
  revert k; induction n as [|n IH]; intros [|k]; cbn [skipn repeat Nat.sub]; try reflexivity. apply IH.
Qed.
Lemma mk0_len cap : length (el (mk0 cap)) = cap.
Proof. apply repeat_length. Qed.
Lemma clean_of_el cap b ds : len b = Z.of_nat (length ds) -> el b = map Some ds ++ repeat (Some 0) (cap - length ds) ->
  clean b.
Proof.
  intros N E i Hi. rewrite E, app_length, map_length, repeat_length in Hi.
  rewrite E, aget_app2 by (rewrite map_length; lia). rewrite map_length. apply aget_repeat. lia.
Qed.
Lemma assign_mk0 cap s ds : mag cap s ds ->
  exists r, assign (mk0 cap) s = Ok r /\ mag cap r ds /\ sgn r = sgn s /\ clean r.
Proof.
  intros Hm. destruct (assign_mag cap (mk0 cap) s ds (mk0_len cap) Hm) as (r & E & Hr & Hs & _ & Eel).
  exists r. split; [assumption|]. split; [assumption|]. split; [assumption|].
  destruct Hr as (_ & _ & N & _). apply (clean_of_el cap r ds); [assumption|].
  rewrite Eel. cbn [mk0 el]. unfold zeros. now rewrite skipn_repeat.
Qed.

(** ** add on magnitudes, left-over cells included *)
Lemma add_mag cap a b xs ys sa sb :
  mag cap a xs -> mag cap b ys -> leftover a sa -> leftover b sb ->
  (length xs + length sa = Nat.max (length xs) (length ys))%nat ->
  (length ys + length sb = Nat.max (length xs) (length ys))%nat ->
  (Nat.max (length xs) (length ys) < cap)%nat ->
  exists r ds, add cap a b = Ok r /\ mag cap r ds /\ sgn r = sgn a /\ clean r /\
    len a <= len r /\ len b <= len r /\
    dval ds = dval (xs ++ sa) + dval (ys ++ sb).
Proof.
  intros Ha Hb La Lb Hsa Hsb Hcap.
  destruct (leftover_el _ _ _ _ Ha La ltac:(lia)) as (ta & Ea).
  destruct (leftover_el _ _ _ _ Hb Lb ltac:(lia)) as (tb & Eb).
  destruct Ha as (_ & _ & Na & Dx & Cx). destruct Hb as (_ & _ & Nb & Dy & Cy).
  destruct La as [Dsa _]. destruct Lb as [Dsb _].
  assert (DX : Forall digit (xs ++ sa)) by (apply Forall_app; auto).
  assert (DY : Forall digit (ys ++ sb)) by (apply Forall_app; auto).
  destruct (add_gen cap a b (xs ++ sa) (ys ++ sb) ta tb) as (zs & c & E & Hl & Hd & Hc & Hv);
    [rewrite app_length; lia..|assumption|assumption|rewrite !app_length; lia|assumption|assumption|rewrite app_length; lia|].
  set (n := length (xs ++ sa)) in *.
  assert (Hn : n = Nat.max (length xs) (length ys)) by (unfold n; rewrite app_length; lia).
  pose proof (dval_bound _ DX) as BX. pose proof (dval_bound _ DY) as BY. pose proof (dval_bound _ Hd) as BZ.
  assert (Hlow : (0 < n)%nat -> 10 ^ (Z.of_nat n - 1) <= dval (xs ++ sa) + dval (ys ++ sb)).
  { intros Hn0. destruct (Nat.max_spec (length xs) (length ys)) as [[H1 H2]|[H1 H2]].
    - assert (sb = []) by (destruct sb; [reflexivity|cbn [length] in *; lia]). subst sb.
      rewrite app_nil_r in *. assert (ys <> []) by (intros ->; cbn [length] in *; lia).
      pose proof (dval_lower ys Dy H (Cy H)). rewrite Hn, H2. lia.
    - assert (sa = []) by (destruct sa; [reflexivity|cbn [length] in *; lia]). subst sa.
      rewrite app_nil_r in *. assert (xs <> []) by (intros ->; cbn [length] in *; lia).
      pose proof (dval_lower xs Dx H (Cx H)). rewrite Hn, H2. lia. }
  destruct (Z.eq_dec c 0) as [->|Nc].
  - exists (Big (map Some (zs ++ 0 :: repeat 0 (cap - n - 1))) (Z.of_nat n + 0) (sgn a)), zs.
    assert (Eel : map Some (zs ++ 0 :: repeat 0 (cap - n - 1)) = map Some zs ++ repeat (Some 0) (cap - length zs)).
    { rewrite map_app. f_equal. cbn [map]. rewrite map_repeat', Hl.
      replace (cap - n)%nat with (S (cap - n - 1)) at 2 by lia. reflexivity. }
    split; [exact E|]. split; [|split; [reflexivity|split; [|cbn [len]; lia]]].
    + split; [eexists; cbn [el]; exact Eel|]. cbn [el len].
      split; [rewrite Eel, app_length, map_length, repeat_length; lia|].
      split; [lia|]. split; [assumption|]. intros Hne. apply dval_last; [assumption| |assumption].
      rewrite Hl. assert (0 < n)%nat by (destruct zs; [congruence|]; cbn [length] in Hl; lia).
      specialize (Hlow H). lia.
    + apply (clean_of_el cap _ zs); cbn [el len]; [lia|assumption].
  - assert (c = 1) by lia. subst c.
    exists (Big (map Some (zs ++ 1 :: repeat 0 (cap - n - 1))) (Z.of_nat n + 1) (sgn a)), (zs ++ [1]).
    assert (Eel : map Some (zs ++ 1 :: repeat 0 (cap - n - 1)) = map Some (zs ++ [1]) ++ repeat (Some 0) (cap - length (zs ++ [1]))).
    { rewrite !map_app. rewrite <- app_assoc. f_equal. cbn [map app]. rewrite map_repeat', app_length, Hl. cbn [length].
      do 2 f_equal. lia. }
    split; [exact E|]. split; [|split; [reflexivity|split; [|cbn [len]; split; [lia|split; [lia|]]]]].
    + split; [eexists; cbn [el]; exact Eel|]. cbn [el len].
      split; [rewrite Eel, app_length, map_length, repeat_length, app_length; cbn [length]; lia|].
      split; [rewrite app_length; cbn [length]; lia|].
      split; [apply Forall_app; split; [assumption|constructor; [unfold digit; lia|constructor]]|].
      intros _. rewrite last_last. lia.
    + apply (clean_of_el cap _ (zs ++ [1])); cbn [el len]; [rewrite app_length; cbn [length]; lia|assumption].
    + rewrite dval_single_app, Hl. lia.
Qed.
Lemma add_clean cap a b xs ys :
  mag cap a xs -> mag cap b ys -> clean a -> clean b ->
  (Nat.max (length xs) (length ys) < cap)%nat ->
  exists r ds, add cap a b = Ok r /\ mag cap r ds /\ sgn r = sgn a /\ clean r /\
    len a <= len r /\ len b <= len r /\ dval ds = dval xs + dval ys.
Proof.
  intros Ha Hb Ca Cb Hcap.
  destruct (add_mag cap a b xs ys (repeat 0 (Nat.max (length xs) (length ys) - length xs))
              (repeat 0 (Nat.max (length xs) (length ys) - length ys))) as (r & ds & E & H1 & H2 & H3 & H4 & H5 & H6);
    try assumption; try (rewrite repeat_length; lia).
  - apply (clean_leftover cap a xs); [assumption..|lia].
  - apply (clean_leftover cap b ys); [assumption..|lia].
  - exists r, ds. rewrite !dval_app, !dval_zeros in H6. split; [assumption|].
    split; [assumption|]. split; [assumption|]. split; [assumption|]. split; [assumption|]. split; [assumption|]. lia.
Qed.

(** ** sub on magnitudes *)
Lemma sub_ge f cap a b xs ys :
  mag cap a xs -> mag cap b ys -> clean b -> sgn a = 1 -> dval ys <= dval xs ->
  exists r ds, sub (S f) cap a b = Ok r /\ mag cap r ds /\ sgn r = 1 /\ clean r /\ dval ds = dval xs - dval ys.
Proof.
  intros Ha Hb Cb Sa Hge.
  pose proof (cmp_mag cap a b xs ys Ha Hb) as Hcmp. rewrite Sa in Hcmp.
  pose proof (mag_le _ _ _ Ha) as La. pose proof (mag_le _ _ _ Hb) as Lb.
  assert (Hl : (length ys <= length xs)%nat).
  { destruct Ha as (_ & _ & _ & Dx & Cx), Hb as (_ & _ & _ & Dy & Cy).
    destruct (Nat.le_gt_cases (length ys) (length xs)); [assumption|].
    pose proof (len_lt_val xs ys Dx Dy Cy H). lia. }
  destruct (clean_el cap b ys (length xs - length ys) Hb Cb ltac:(lia)) as (tb & Eb).
  destruct Ha as ([ta Ea] & _ & Na & Dx & Cx), Hb as (_ & _ & Nb & Dy & Cy).
  destruct (sub_base f cap a b xs (ys ++ repeat 0 (length xs - length ys)) ta tb _ Hcmp)
    as (ds & k & tail & E & Dd & Cd & Lt & _ & Et & Hv);
    [destruct (Z.sgn_spec (dval xs - dval ys)) as [[? ->]|[[? ->]|[? ->]]]; lia|assumption..|
     rewrite app_length, repeat_length; lia|assumption|apply Forall_app; split; [assumption|apply digit_zeros]|lia| |].
  { left. rewrite dval_app, dval_zeros. lia. }
  rewrite dval_app, dval_zeros in Et, Hv.
  eexists _, ds. split; [exact E|]. split; [|split; [reflexivity|split]].
  - split; [eexists; reflexivity|]. cbn [el len]. auto.
  - apply (clean_of_el cap _ ds); [reflexivity|]. cbn [el]. rewrite Et by lia. reflexivity.
  - rewrite Hv. replace (dval ys + 10 ^ Z.of_nat (length ys) * 0) with (dval ys) by lia.
    apply Z.mod_small. pose proof (dval_bound xs Dx). pose proof (dval_bound ys Dy). lia.
Qed.
Lemma sub_lt f cap a b xs ys :
  mag cap a xs -> mag cap b ys -> clean a -> sgn a = 1 -> sgn b = 1 -> dval xs < dval ys ->
  exists r ds, sub (S (S f)) cap a b = Ok r /\ mag cap r ds /\ sgn r = -1 /\ clean r /\ dval ds = dval ys - dval xs.
Proof.
  intros Ha Hb Ca Sa Sb Hlt.
  destruct (sub_ge f cap b a ys xs Hb Ha Ca Sb ltac:(lia)) as (r & ds & E & Hr & Sr & Cr & Hv).
  destruct (assign_mk0 cap r ds Hr) as (r' & E' & Hr' & Sr' & Cr').
  pose proof (cmp_mag cap a b xs ys Ha Hb) as Hcmp. rewrite Sa, Z.sgn_neg in Hcmp by lia.
  change (sub (S (S f)) cap a b) with
    (c <- cmp true a b ;;
      if c <? 0 then
        r <- sub (S f) cap b a ;;
        ret <- assign (mk0 cap) r ;;
        Ok (Big (el ret) (len ret) (-1))
      else
        let n := len a in
        r <- for_loop (Z.to_nat n) 0 (sub_digits (el a) (el b)) (zeros cap) ;;
        r <- for_loop (Z.to_nat n) 0 sub_borrow r ;;
        m <- strip (Z.to_nat n) r ;;
        Ok (Big r m 1)).
  rewrite Hcmp. cbn [bind]. change (1 * -1 <? 0) with true. cbn match. rewrite E. cbn [bind]. rewrite E'. cbn [bind].
  eexists _, ds. split; [reflexivity|]. split; [exact Hr'|]. split; [reflexivity|]. split; [exact Cr'|assumption].
Qed.
(** positive minus larger negative: the recursion never ends *)
Lemma sub_diverges f cap a b xs ys :
  mag cap a xs -> mag cap b ys -> sgn a = 1 -> sgn b = -1 -> dval xs < dval ys ->
  sub f cap a b = Fuel /\ sub f cap b a = Fuel.
Proof.
  intros Ha Hb Sa Sb Hlt.
  pose proof (cmp_mag cap a b xs ys Ha Hb) as H1. rewrite Sa, Z.sgn_neg in H1 by lia.
  pose proof (cmp_mag cap b a ys xs Hb Ha) as H2. rewrite Sb, Z.sgn_pos in H2 by lia.
  induction f as [|f [IH1 IH2]]; [split; reflexivity|].
  split; cbn [sub]; rewrite ?H1, ?H2; cbn [bind]; [change (1 * -1 <? 0) with true|change (-1 * 1 <? 0) with true];
    cbn match; [rewrite IH2|rewrite IH1]; reflexivity.
Qed.
(** two negative operands *)
Lemma dval_firstn_mod n ys : Forall digit ys -> dval (firstn n ys) = dval ys mod 10 ^ Z.of_nat n.
Proof.
  intros Hy. destruct (Nat.le_gt_cases (length ys) n) as [H|H].
  - rewrite firstn_all2 by assumption. symmetry. apply Z.mod_small.
    pose proof (dval_bound ys Hy). assert (10 ^ Z.of_nat (length ys) <= 10 ^ Z.of_nat n) by (apply Z.pow_le_mono_r; lia). lia.
  - rewrite <- (firstn_skipn n ys) at 2. rewrite dval_app, firstn_length_le by lia.
    apply Z.mod_unique with (q := dval (skipn n ys)).
    + left. assert (HF : Forall digit (firstn n ys)).
      { rewrite <- (firstn_skipn n ys) in Hy. apply Forall_app in Hy. tauto. }
      pose proof (dval_bound _ HF) as B. rewrite firstn_length_le in B by lia. exact B.
    + lia.
Qed.
Lemma sub_neg_lt f cap a b xs ys :
  mag cap a xs -> mag cap b ys -> sgn a = -1 -> dval xs < dval ys -> (length xs < cap)%nat ->
  exists r ds, sub (S f) cap a b = Ok r /\ mag cap r ds /\ sgn r = 1 /\
    dval ds = (dval xs - dval ys) mod 10 ^ Z.of_nat (length xs).
Proof.
  intros Ha Hb Sa Hlt Hroom.
  pose proof (cmp_mag cap a b xs ys Ha Hb) as Hcmp. rewrite Sa, Z.sgn_neg in Hcmp by lia.
  pose proof (mag_le _ _ _ Ha) as La. pose proof (mag_le _ _ _ Hb) as Lb.
  assert (Hl : (length xs <= length ys)%nat).
  { destruct Ha as (_ & _ & _ & Dx & Cx), Hb as (_ & _ & _ & Dy & Cy).
    destruct (Nat.le_gt_cases (length xs) (length ys)); [assumption|].
    pose proof (len_lt_val ys xs Dy Dx Cx H). lia. }
  destruct Ha as ([ta Ea] & _ & Na & Dx & Cx), Hb as ([tb Eb] & _ & Nb & Dy & Cy).
  assert (DF : Forall digit (firstn (length xs) ys)).
  { rewrite <- (firstn_skipn (length xs) ys) in Dy. apply Forall_app in Dy. tauto. }
  destruct (sub_base f cap a b xs (firstn (length xs) ys) ta (map Some (skipn (length xs) ys) ++ tb) _ Hcmp)
    as (ds & k & tail & E & Dd & Cd & Lt & _ & _ & Hv);
    [lia|assumption..| |rewrite firstn_length_le; lia|assumption|assumption|lia|right; assumption|].
  { rewrite app_assoc, <- map_app, firstn_skipn. assumption. }
  eexists _, ds. split; [exact E|]. split; [|split; [reflexivity|]].
  - split; [eexists; reflexivity|]. cbn [el len]. auto.
  - rewrite Hv, dval_firstn_mod by assumption. rewrite Zminus_mod_idemp_r. reflexivity.
Qed.
Lemma sub_neg_gt f cap a b xs ys :
  mag cap a xs -> mag cap b ys -> sgn a = -1 -> sgn b = -1 -> dval ys < dval xs -> (length ys < cap)%nat ->
  exists r ds, sub (S (S f)) cap a b = Ok r /\ mag cap r ds /\ sgn r = -1 /\
    dval ds = (dval ys - dval xs) mod 10 ^ Z.of_nat (length ys).
Proof.
  intros Ha Hb Sa Sb Hlt Hroom.
  destruct (sub_neg_lt f cap b a ys xs Hb Ha Sb Hlt Hroom) as (r & ds & E & Hr & Sr & Hv).
  destruct (assign_mk0 cap r ds Hr) as (r' & E' & Hr' & Sr' & Cr').
  pose proof (cmp_mag cap a b xs ys Ha Hb) as Hcmp. rewrite Sa, Z.sgn_pos in Hcmp by lia.
  change (sub (S (S f)) cap a b) with
    (c <- cmp true a b ;;
      if c <? 0 then
        r <- sub (S f) cap b a ;;
        ret <- assign (mk0 cap) r ;;
        Ok (Big (el ret) (len ret) (-1))
      else
        let n := len a in
        r <- for_loop (Z.to_nat n) 0 (sub_digits (el a) (el b)) (zeros cap) ;;
        r <- for_loop (Z.to_nat n) 0 sub_borrow r ;;
        m <- strip (Z.to_nat n) r ;;
        Ok (Big r m 1)).
  rewrite Hcmp. cbn [bind]. change (-1 * 1 <? 0) with true. cbn match. rewrite E. cbn [bind]. rewrite E'. cbn [bind].
  eexists _, ds. split; [reflexivity|]. split; [exact Hr'|]. split; [reflexivity|assumption].
Qed.
Lemma sub_neg_eq f cap a b xs ys :
  mag cap a xs -> mag cap b ys -> dval ys = dval xs ->
  exists r, sub (S f) cap a b = Ok r /\ mag cap r [] /\ sgn r = 1 /\ clean r.
Proof.
  intros Ha Hb Heq.
  pose proof (cmp_mag cap a b xs ys Ha Hb) as Hcmp.
  rewrite Heq, Z.sub_diag in Hcmp. cbn [Z.sgn] in Hcmp. rewrite Z.mul_0_r in Hcmp.
  pose proof (mag_le _ _ _ Ha) as La.
  pose proof (mag_nil cap (Big (zeros cap) 0 1) []) as _.
  destruct Ha as ([ta Ea] & _ & Na & Dx & Cx), Hb as ([tb Eb] & _ & Nb & Dy & Cy).
  assert (ys = xs) by (apply mag_inj; assumption). subst ys.
  destruct (sub_base f cap a b xs xs ta tb _ Hcmp)
    as (ds & k & tail & E & Dd & Cd & Lt & _ & Et & Hv); [lia|assumption..|reflexivity|assumption|assumption|lia|left; lia|].
  rewrite Z.sub_diag, Z.mod_0_l in Hv by (apply Z.pow_nonzero; lia).
  assert (Hm : mag cap (Big (map Some ds ++ tail) (Z.of_nat (length ds)) 1) ds).
  { split; [eexists; reflexivity|]. cbn [el len]. auto. }
  assert (ds = []) by (apply (mag_nil _ _ _ Hm); assumption). subst ds.
  eexists. split; [exact E|]. split; [exact Hm|]. split; [reflexivity|].
  apply (clean_of_el cap _ []); [reflexivity|]. cbn [el]. rewrite Et by lia. reflexivity.
Qed.

(** ** mul outside the capacity *)
Lemma mul_inner_okub cap a b i j r : length r = cap ->
  (exists r', mul_inner a b i j r = Ok r' /\ length r' = cap) \/ mul_inner a b i j r = UB.
Proof.
  intros H. unfold mul_inner. okub. unfold chk32 at 1 2. destruct (in_int32 (v * v0)); cbn [bind]; [|now right].
  okub. left. eexists. split; [reflexivity|]. congruence.
Qed.
Lemma mul_row_okub cap a b lb i r : length r = cap ->
  (exists r', mul_row a b lb i r = Ok r' /\ length r' = cap) \/ mul_row a b lb i r = UB.
Proof.
  intros H. unfold mul_row. apply (for_okub (mul_inner a b i) (fun r => length r = cap)); [|assumption].
  intros j s Hs. now apply mul_inner_okub.
Qed.
Lemma mul_carry_okub cap i r : length r = cap ->
  (exists r', mul_carry i r = Ok r' /\ length r' = cap) \/ mul_carry i r = UB.
Proof. intros H. unfold mul_carry. okub. left. eexists. split; [reflexivity|]. congruence. Qed.
Lemma mul_full cap a b : 0 < len a -> 0 < len b -> Z.of_nat cap < len a + len b -> mul cap a b = UB.
Proof.
  intros Ha Hb H. unfold mul.
  destruct (Z.eqb_spec (len a) 0); [lia|]. destruct (Z.eqb_spec (len b) 0); [lia|]. cbn [orb].
  destruct (for_okub (mul_row (el a) (el b) (len b)) (fun r => length r = cap)
              (fun i r Hr => mul_row_okub cap _ _ _ i r Hr)
              (Z.to_nat (len a)) 0 (zeros cap)) as [(r & -> & Hr)| ->];
    [apply repeat_length| |reflexivity].
  cbn [bind].
  destruct (for_okub mul_carry (fun r => length r = cap) (fun i r Hr => mul_carry_okub cap i r Hr)
              (Z.to_nat (len a + len b - 1)) 0 r Hr) as [(r' & -> & Hr')| ->]; [|reflexivity].
  cbn [bind]. rewrite rd_oob by lia. reflexivity.
Qed.

(** ** Constructors *)
Lemma int_loop_spec f : forall i done k, 0 <= i < 10 ^ Z.of_nat f -> i < 10 ^ Z.of_nat k ->
  exists ds, int_loop f (map Some done ++ repeat (Some 0) k) (Z.of_nat (length done)) i
    = Ok (map Some (done ++ ds) ++ repeat (Some 0) (k - length ds), Z.of_nat (length done + length ds)) /\
    (length ds <= k)%nat /\ Forall digit ds /\ (ds <> [] -> last ds 0 <> 0) /\ dval ds = i.
Proof.
  induction f as [|f IH]; intros i done k Hi Hk.
  - assert (i = 0) by (cbn in Hi; lia). subst i. exists []. cbn [int_loop Z.eqb length]. rewrite app_nil_r, Nat.sub_0_r, Nat.add_0_r.
    split; [reflexivity|]. split; [lia|]. split; [constructor|]. split; [congruence|reflexivity].
  - cbn [int_loop]. destruct (Z.eqb_spec i 0) as [->|Hi0].
    + exists []. cbn [length]. rewrite app_nil_r, Nat.sub_0_r, Nat.add_0_r.
      split; [reflexivity|]. split; [lia|]. split; [constructor|]. split; [congruence|reflexivity].
    + destruct k as [|k]; [cbn in Hk; lia|].
      rewrite Z.rem_mod_nonneg, Z.quot_div_nonneg by lia.
      pose proof (Z.mod_pos_bound i 10 ltac:(lia)) as Hm. pose proof (Z_div_mod_eq_full i 10) as Hdm.
      cbn [repeat]. rewrite wr_at; [|now rewrite map_length|apply small32; lia]. cbn [bind].
      rewrite Nat2Z.inj_succ, Z.pow_succ_r in Hi, Hk by lia.
      destruct (IH (i / 10) (done ++ [i mod 10]) k) as (ds & E & Hl & Hd & Hc & Hv); [lia|lia|].
      rewrite map_app, app_length in E. cbn [map length] in E. rewrite <- app_assoc in E. cbn [app] in E.
      replace (Z.of_nat (length done) + 1) with (Z.of_nat (length done + 1)) by lia.
      exists (i mod 10 :: ds). rewrite E. split; [|split; [|split; [|split]]].
      * rewrite <- app_assoc. cbn [app length Nat.sub]. f_equal. f_equal. lia.
      * cbn [length]. lia.
      * constructor; [unfold digit; lia|assumption].
      * intros _. destruct ds as [|d ds]; [|cbn [last]; apply Hc; discriminate].
        cbn [last]. cbn [dval] in Hv. lia.
      * cbn [dval]. lia.
Qed.
Lemma of_int64_spec cap x : in_int64 x = true -> x <> int64_min -> Z.abs x < 10 ^ Z.of_nat cap ->
  exists r, of_int64 cap x = Ok r /\ denotes cap r x /\ clean r.
Proof.
  unfold in_int64, int64_min, int64_max. intros Hx Hm Hc. unfold of_int64, chk64.
  replace (in_int64 (Z.abs x)) with true by (unfold in_int64, int64_min, int64_max; lia). cbn [bind].
  destruct (int_loop_spec 20 (Z.abs x) [] cap) as (ds & E & Hl & Hd & Hcn & Hv); [|assumption|].
  { change (10 ^ Z.of_nat 20) with 100000000000000000000. lia. }
  cbn [map app length] in E. change (Z.of_nat 0) with 0 in E. unfold zeros. rewrite E. cbn [bind Nat.add].
  eexists. split; [reflexivity|]. split.
  - split; [|reflexivity]. exists ds, (repeat (Some 0) (cap - length ds)). cbn [el len].
    split; [reflexivity|]. split; [rewrite app_length, map_length, repeat_length; lia|]. auto.
  - apply (clean_of_el cap _ ds); reflexivity.
Qed.

(** digits of a string, most significant first *)
Lemma dval_rev_string s : dval (rev (map (fun c => byteZ c - 48) s)) = dec_value s.
Proof.
  induction s as [|c t IH]; [reflexivity|].
  cbn [map rev]. rewrite dval_single_app, IH, rev_length, map_length, dec_value_cons. lia.
Qed.
Lemma string_loop_spec p s cap : forallb is_digit s = true -> (length s <= cap)%nat ->
  for_loop (length s) 0
    (fun k l => c <- aget (p ++ s) (Z.of_nat (length (p ++ s)) - 1 - k) ;; d <- stoi1 c ;; wr l k d) (zeros cap)
  = Ok (map Some (rev (map (fun c => byteZ c - 48) s)) ++ repeat (Some 0) (cap - length s)).
Proof.
  intros Hs Hc.
  set (ds := rev (map (fun c => byteZ c - 48) s)).
  assert (Lds : length ds = length s) by (unfold ds; rewrite rev_length, map_length; reflexivity).
  destruct (for_loop_inv (fun k l => l = map Some (firstn (Z.to_nat k) ds) ++ repeat (Some 0) (cap - Z.to_nat k))
    (fun k l => c <- aget (p ++ s) (Z.of_nat (length (p ++ s)) - 1 - k) ;; d <- stoi1 c ;; wr l k d)
    (length s) 0 (zeros cap)) as (l & E & Hl).
  - cbn [Z.to_nat firstn map app]. rewrite Nat.sub_0_r. reflexivity.
  - intros k l Hk ->. rewrite app_length.
    rewrite (aget_ok _ _ NUL) by (rewrite app_length; lia). cbn [bind].
    rewrite app_nth2 by lia.
    replace (Z.to_nat (Z.of_nat (length p + length s) - 1 - k) - length p)%nat with (length s - S (Z.to_nat k))%nat by lia.
    set (c := nth (length s - S (Z.to_nat k)) s NUL).
    assert (Hdig : is_digit c = true).
    { rewrite forallb_forall in Hs. apply Hs. apply nth_In. lia. }
    unfold stoi1. rewrite Hdig. cbn [bind].
    assert (Ed : nth (Z.to_nat k) ds 0 = byteZ c - 48).
    { unfold ds. rewrite rev_nth by (rewrite map_length; lia). rewrite map_length.
      rewrite (nth_indep _ 0 (byteZ NUL - 48)) by (rewrite map_length; lia).
      rewrite (map_nth (fun c => byteZ c - 48)). reflexivity. }
    replace (cap - Z.to_nat k)%nat with (S (cap - Z.to_nat (k + 1))) by lia. cbn [repeat].
    rewrite wr_at.
    + eexists. split; [reflexivity|]. replace (Z.to_nat (k + 1)) with (S (Z.to_nat k)) by lia.
      rewrite firstn_S_nth by lia. rewrite map_app, <- app_assoc, Ed. reflexivity.
    + rewrite map_length, firstn_length_le by lia. lia.
    + unfold is_digit in Hdig. apply small32. lia.
  - rewrite E, Hl. replace (0 + Z.of_nat (length s)) with (Z.of_nat (length s)) by lia.
    rewrite Nat2Z.id, <- Lds, firstn_all. reflexivity.
Qed.
Lemma digits_of_string s : forallb is_digit s = true -> Forall digit (rev (map (fun c => byteZ c - 48) s)).
Proof.
  intros H. apply Forall_rev. apply Forall_forall. intros d Hd. apply in_map_iff in Hd.
  destruct Hd as (c & <- & Hc). rewrite forallb_forall in H. specialize (H c Hc). unfold is_digit in H. unfold digit. lia.
Qed.
Lemma last_rev {A} (l : list A) d : last (rev l) d = hd d l.
Proof. destruct l; [reflexivity|]. cbn [rev hd]. apply last_last. Qed.
Lemma string_top s : forallb is_digit s = true -> s <> [] -> hd_error s <> Some "0"%char ->
  last (rev (map (fun c => byteZ c - 48) s)) 0 <> 0.
Proof.
  intros H Hne H0. rewrite last_rev. destruct s as [|c t]; [congruence|]. cbn [map hd].
  intros E. apply H0. cbn [hd_error]. f_equal. apply byteZ_inj. change (byteZ "0"%char) with 48. lia.
Qed.
Lemma of_string_pos cap s : forallb is_digit s = true -> s <> [] -> hd_error s <> Some "0"%char -> (length s <= cap)%nat ->
  exists r, of_string cap s = Ok r /\ denotes cap r (dec_value s) /\ clean r.
Proof.
  intros Hs Hne H0 Hc. unfold of_string.
  assert (Hm : is_minus s = false).
  { destruct s as [|c t]; [reflexivity|]. cbn [is_minus]. destruct (Ascii.eqb_spec c "-"); [|reflexivity].
    subst c. cbn [forallb] in Hs. discriminate. }
  rewrite Hm. rewrite Z.sub_0_r, Nat2Z.id.
  pose proof (string_loop_spec [] s cap Hs Hc) as E. cbn [app] in E. rewrite E. cbn [bind].
  set (ds := rev (map (fun c => byteZ c - 48) s)) in *.
  assert (Lds : length ds = length s) by (unfold ds; rewrite rev_length, map_length; reflexivity).
  pose proof (dec_value_bound s Hs) as Bv.
  eexists. split; [reflexivity|]. rewrite <- Lds. split.
  - split.
    + exists ds, (repeat (Some 0) (cap - length ds)). cbn [el len]. split; [reflexivity|].
      split; [rewrite app_length, map_length, repeat_length; lia|]. split; [reflexivity|].
      split; [apply digits_of_string; assumption|]. split; [intros _; now apply string_top|].
      rewrite Z.abs_eq by lia. unfold ds. now rewrite dval_rev_string.
    + cbn [sgn]. destruct (Z.ltb_spec (dec_value s) 0); [lia|reflexivity].
  - apply (clean_of_el cap _ ds); reflexivity.
Qed.
Lemma of_string_neg cap s : forallb is_digit s = true -> s <> [] -> hd_error s <> Some "0"%char -> (length s <= cap)%nat ->
  exists r, of_string cap ("-"%char :: s) = Ok r /\ denotes cap r (- dec_value s) /\ clean r.
Proof.
  intros Hs Hne H0 Hc. unfold of_string. cbn [is_minus]. change (Ascii.eqb "-" "-") with true. cbv iota.
  assert (Eln : Z.of_nat (length ("-"%char :: s)) - 1 = Z.of_nat (length s)) by (cbn [length]; lia).
  rewrite Eln, Nat2Z.id.
  pose proof (string_loop_spec ["-"%char] s cap Hs Hc) as E. cbn [app] in E. rewrite Eln in E. rewrite E. cbn [bind].
  set (ds := rev (map (fun c => byteZ c - 48) s)) in *.
  assert (Lds : length ds = length s) by (unfold ds; rewrite rev_length, map_length; reflexivity).
  pose proof (dec_value_bound s Hs) as Bv.
  assert (Hpos : 0 < dec_value s).
  { assert (C : canon_digits s) by (split; [assumption|split; [assumption|right; assumption]]).
    assert (s <> ["0"%char]) by (intros ->; apply H0; reflexivity).
    pose proof (canon_digits_lower s C H). pose proof (Z.pow_pos_nonneg 10 (Z.of_nat (length s) - 1)).
    destruct s; [congruence|]. cbn [length] in *. lia. }
  eexists. split; [reflexivity|]. rewrite <- Lds. split.
  - split.
    + exists ds, (repeat (Some 0) (cap - length ds)). cbn [el len]. split; [reflexivity|].
      split; [rewrite app_length, map_length, repeat_length; lia|]. split; [reflexivity|].
      split; [apply digits_of_string; assumption|]. split; [intros _; now apply string_top|].
      rewrite Z.abs_neq by lia. unfold ds. rewrite dval_rev_string. lia.
    + cbn [sgn]. destruct (Z.ltb_spec (- dec_value s) 0); [reflexivity|lia].
  - apply (clean_of_el cap _ ds); reflexivity.
Qed.

(** ** Printing *)
Lemma to_string_digit d : digit d -> to_string_Z d = [digit_char d].
Proof.
  unfold digit. intros H. unfold to_string_Z. destruct (Z.ltb_spec d 0); [lia|].
  unfold dec_nat. cbn [dec_loop]. destruct (Z.ltb_spec d 10); [reflexivity|lia].
Qed.
Lemma print_loop_spec ds tl : Forall digit ds ->
  print_loop (length ds) (map Some ds ++ tl) = Ok (map digit_char (rev ds)).
Proof.
  revert tl; induction ds as [|d ds IH] using rev_ind; intros tl Hd; [reflexivity|].
  apply Forall_app in Hd. destruct Hd as [Hds Hd]. inversion_clear Hd.
  rewrite app_length. cbn [length]. rewrite Nat.add_1_r. cbn [print_loop].
  rewrite map_app. cbn [map]. rewrite <- app_assoc. cbn [app].
  rewrite rd_at by (now rewrite map_length). cbn [bind]. rewrite IH by assumption. cbn [bind].
  rewrite to_string_digit by assumption. rewrite rev_app_distr. reflexivity.
Qed.
Lemma digit_string_canon ds : Forall digit ds -> ds <> [] -> last ds 0 <> 0 ->
  canon_digits (map digit_char (rev ds)) /\ dec_value (map digit_char (rev ds)) = dval ds.
Proof.
  intros Hd Hne Hl. split; [split; [|split]|].
  - destruct (exists_last Hne) as (t & d & ->). rewrite rev_app_distr. discriminate.
  - apply forallb_forall. intros c Hc. apply in_map_iff in Hc. destruct Hc as (d & <- & Hin).
    apply is_digit_char. rewrite Forall_forall in Hd. apply (Hd d). now apply in_rev.
  - right. destruct (exists_last Hne) as (t & d & ->). rewrite rev_app_distr. cbn [rev app map hd_error].
    rewrite last_last in Hl. intros E. injection E as E. apply Hl.
    apply Forall_app in Hd. destruct Hd as [_ Hd]. inversion_clear Hd. apply digit_char_0; assumption.
  - clear Hne Hl. induction ds as [|d ds IH]; [reflexivity|]. inversion_clear Hd.
    cbn [rev]. rewrite map_app, dec_value_app, IH by assumption. cbn [map length].
    unfold dec_value. cbn [fold_left]. rewrite byteZ_digit_char by assumption.
    change (10 ^ Z.of_nat 1) with 10. cbn [dval]. lia.
Qed.
Lemma toString_spec cap b z : denotes cap b z -> z <> 0 -> exists s, toString b = Ok s /\ numeral s z.
Proof.
  intros [Hm Hs] Hz. destruct (magnitude_mag _ _ _ Hm) as (ds & Hmag & Ev).
  assert (Hne : ds <> []).
  { intros E. apply (proj1 (mag_nil _ _ _ Hmag)) in E. lia. }
  destruct Hmag as ([tl E] & _ & N & Hd & Hl).
  destruct (digit_string_canon ds Hd Hne (Hl Hne)) as [Hc Hv].
  unfold toString. rewrite N, Nat2Z.id, E, print_loop_spec by assumption. cbn [bind].
  eexists. split; [reflexivity|]. rewrite Hs. destruct (Z.ltb_spec z 0).
  - change (-1 <? 0) with true. cbv iota. right. eexists. split; [reflexivity|]. split; [assumption|].
    rewrite Hv. lia.
  - change (1 <? 0) with false. cbv iota. left. split; [assumption|]. cbn [app]. rewrite Hv. lia.
Qed.
Lemma toString_zero cap b : denotes cap b 0 -> toString b = Ok [].
Proof.
  intros [Hm Hs]. destruct (magnitude_mag _ _ _ Hm) as (ds & Hmag & Ev).
  assert (ds = []) by (apply (mag_nil _ _ _ Hmag); cbn in Ev; lia). subst ds.
  destruct Hmag as (_ & _ & N & _). unfold toString. rewrite N, Hs. reflexivity.
Qed.

(** ** Comparison of values *)
Lemma cmp_denotes cap a b x y : denotes cap a x -> denotes cap b y -> cmp false a b = Ok (Z.sgn (x - y)).
Proof.
  intros [Ha Sa] [Hb Sb]. destruct (magnitude_mag _ _ _ Ha) as (xs & Hx & Ex).
  destruct (magnitude_mag _ _ _ Hb) as (ys & Hy & Ey).
  unfold cmp. rewrite Sa, Sb.
  destruct (Z.ltb_spec x 0), (Z.ltb_spec y 0); cbn [negb andb Z.eqb Pos.eqb].
  2:{ rewrite Z.sgn_neg by lia. reflexivity. }
  2:{ rewrite Z.sgn_pos by lia. reflexivity. }
  - pose proof (cmp_mag cap a b xs ys Hx Hy) as E. unfold cmp in E. cbn [negb andb] in E.
    rewrite Sa in E. destruct (Z.ltb_spec x 0); [|lia]. rewrite E. f_equal.
    replace (dval xs - dval ys) with (- (x - y)) by lia. rewrite Z.sgn_opp. lia.
  - pose proof (cmp_mag cap a b xs ys Hx Hy) as E. unfold cmp in E. cbn [negb andb] in E.
    rewrite Sa in E. destruct (Z.ltb_spec x 0); [lia|]. rewrite E. f_equal.
    replace (dval xs - dval ys) with (x - y) by lia. lia.
Qed.

(** ** number of digits *)
Lemma mag_len_lt cap b ds k : mag cap b ds -> 0 <= k -> dval ds < 10 ^ k -> Z.of_nat (length ds) <= k.
Proof.
  intros (_ & _ & _ & Hd & Hl) Hk Hv. destruct (list_eq_dec Z.eq_dec ds []) as [->|N]; [cbn; lia|].
  pose proof (dval_lower ds Hd N (Hl N)).
  destruct (Z.le_gt_cases (Z.of_nat (length ds)) k) as [|H1]; [assumption|].
  assert (10 ^ k <= 10 ^ (Z.of_nat (length ds) - 1)) by (apply Z.pow_le_mono_r; lia). lia.
Qed.
