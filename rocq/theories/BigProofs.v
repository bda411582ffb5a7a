(** Lemmas for BigNum. *)
From Verif Require Import Base DecModel DecProofs BigModel BigSpec.
Local Open Scope Z_scope.

(** ** Cells *)
Lemma rd_at l1 x l2 i : Z.of_nat (length l1) = i -> rd (l1 ++ Some x :: l2) i = Ok x.
Proof.
  intros <-. unfold rd. rewrite (aget_nth_error _ _ (Some x)); [reflexivity|lia|].
  rewrite Nat2Z.id. rewrite nth_error_app2 by lia. now rewrite Nat.sub_diag.
Qed.
Lemma upd_app {A} (l1 : list A) c l2 v : upd (l1 ++ c :: l2) (length l1) v = l1 ++ v :: l2.
Proof. induction l1; cbn [app length upd]; [reflexivity|now f_equal]. Qed.
Lemma wr_at l1 c l2 i v : Z.of_nat (length l1) = i -> in_int32 v = true ->
  wr (l1 ++ c :: l2) i v = Ok (l1 ++ Some v :: l2).
Proof.
  intros <- Hv. unfold wr, chk32. rewrite Hv. cbn [bind].
  rewrite aset_ok by (rewrite app_length; cbn [length]; lia).
  rewrite Nat2Z.id. now rewrite upd_app.
Qed.
Lemma small32 v : -1000000000 <= v <= 1000000000 -> in_int32 v = true.
Proof. unfold in_int32, int32_min, int32_max. lia. Qed.

Lemma rd_okub l i : (exists v, rd l i = Ok v) \/ rd l i = UB.
Proof.
  unfold rd, aget. destruct (i <? 0); [right; reflexivity|].
  destruct (nth_error l (Z.to_nat i)) as [[v|]|]; cbn [bind]; eauto.
Qed.
Lemma wr_okub l i v : (exists l', wr l i v = Ok l' /\ length l' = length l) \/ wr l i v = UB.
Proof.
  unfold wr, chk32, aset. destruct (in_int32 v); cbn [bind]; [|now right].
  destruct (_ || _); [now right|]. left. eexists. split; [reflexivity|]. apply upd_length.
Qed.

(** ** Digit values *)
Lemma dval_app xs ys : dval (xs ++ ys) = dval xs + 10 ^ Z.of_nat (length xs) * dval ys.
Proof.
  induction xs as [|x xs IH]; [cbn [app length dval]; change (10 ^ Z.of_nat 0) with 1; lia|].
  cbn [app dval length]. rewrite IH, Nat2Z.inj_succ, Z.pow_succ_r by lia. lia.
Qed.
Lemma dval_zeros n : dval (repeat 0 n) = 0.
Proof. induction n; cbn [repeat dval]; lia. Qed.
Lemma dval_bound ds : Forall digit ds -> 0 <= dval ds < 10 ^ Z.of_nat (length ds).
Proof.
  induction 1 as [|d ds Hd _ IH]; [cbn; lia|].
  cbn [dval length]. rewrite Nat2Z.inj_succ, Z.pow_succ_r by lia. unfold digit in Hd. lia.
Qed.
Lemma dval_single_app ds d : dval (ds ++ [d]) = dval ds + 10 ^ Z.of_nat (length ds) * d.
Proof. rewrite dval_app. cbn [dval]. lia. Qed.
Lemma dval_lower ds : Forall digit ds -> ds <> [] -> last ds 0 <> 0 ->
  10 ^ (Z.of_nat (length ds) - 1) <= dval ds.
Proof.
  intros Hd Hne Hl. destruct (exists_last Hne) as (t & d & ->).
  rewrite last_last in Hl. apply Forall_app in Hd. destruct Hd as [Ht Hd].
  inversion_clear Hd. rewrite dval_single_app, app_length. cbn [length].
  replace (Z.of_nat (length t + 1) - 1) with (Z.of_nat (length t)) by lia.
  pose proof (dval_bound t Ht). unfold digit in *.
  assert (0 < 10 ^ Z.of_nat (length t)) by (apply Z.pow_pos_nonneg; lia). nia.
Qed.
Lemma dval_last ds : Forall digit ds -> 10 ^ (Z.of_nat (length ds) - 1) <= dval ds -> ds <> [] -> last ds 0 <> 0.
Proof.
  intros Hd Hv Hne. destruct (exists_last Hne) as (t & d & ->).
  rewrite last_last. intros ->.
  rewrite dval_single_app, app_length in Hv. cbn [length] in Hv.
  replace (Z.of_nat (length t + 1) - 1) with (Z.of_nat (length t)) in Hv by lia.
  apply Forall_app in Hd. destruct Hd as [Ht _]. pose proof (dval_bound t Ht). lia.
Qed.
Lemma dval_inj xs ys : length xs = length ys -> Forall digit xs -> Forall digit ys ->
  dval xs = dval ys -> xs = ys.
Proof.
  revert ys; induction xs as [|x xs IH]; intros [|y ys] Hl Hx Hy E; try discriminate; [reflexivity|].
  inversion_clear Hx. inversion_clear Hy. cbn [dval] in E. unfold digit in *.
  assert (x = y) by lia. subst y. f_equal. apply IH; [now injection Hl|assumption..|lia].
Qed.
Lemma Forall_repeat {A} (P : A -> Prop) x n : P x -> Forall P (repeat x n).
Proof. intros H. induction n; constructor; auto. Qed.
Lemma digit_zeros n : Forall digit (repeat 0 n).
Proof. apply Forall_repeat. unfold digit. lia. Qed.
Lemma map_repeat' {A B} (f : A -> B) x n : map f (repeat x n) = repeat (f x) n.
Proof. induction n; cbn [repeat map]; [reflexivity|now f_equal]. Qed.

(** ** First phase of add and sub *)
Lemma zip_loop (op : Z -> Z -> Z) (body : Z -> list (option Z) -> outcome (list (option Z))) a b :
  (forall i r, body i r = (x <- rd a i ;; y <- rd b i ;; wr r i (op x y))) ->
  (forall x y, digit x -> digit y -> -100 <= op x y <= 100) ->
  forall xs ys pa pb ta tb done rest,
  a = map Some (pa ++ xs) ++ ta -> b = map Some (pb ++ ys) ++ tb ->
  length pa = length done -> length pb = length done -> length xs = length ys ->
  Forall digit xs -> Forall digit ys ->
  for_loop (length xs) (Z.of_nat (length done)) body (map Some done ++ repeat (Some 0) (length xs + rest))
  = Ok (map Some (done ++ map (fun p => op (fst p) (snd p)) (combine xs ys)) ++ repeat (Some 0) rest).
Proof.
  intros Hbody Hop. induction xs as [|x xs IH]; intros [|y ys] pa pb ta tb done rest Ea Eb La Lb Ll Hx Hy;
    try discriminate.
  - cbn [length for_loop combine map]. now rewrite app_nil_r.
  - cbn [length for_loop]. rewrite Hbody, Ea, Eb. inversion_clear Hx. inversion_clear Hy.
    rewrite !map_app. cbn [map]. rewrite <- !app_assoc. cbn [app].
    rewrite rd_at by (rewrite map_length; lia). cbn [bind].
    rewrite rd_at by (rewrite map_length; lia). cbn [bind].
    cbn [Nat.add repeat]. rewrite wr_at; [|rewrite map_length; lia|].
    2:{ apply small32. specialize (Hop x y). intuition lia. }
    cbn [bind].
    specialize (IH ys (pa ++ [x]) (pb ++ [y]) ta tb (done ++ [op x y]) rest).
    rewrite <- !app_assoc in IH. cbn [app] in IH.
    rewrite !app_length in IH. cbn [length] in IH.
    specialize (IH Ea Eb). rewrite map_app in IH. cbn [map] in IH. rewrite <- app_assoc in IH.
    replace (Z.of_nat (length done) + 1) with (Z.of_nat (length done + 1)) by lia.
    cbn [app] in IH. rewrite IH; try assumption; try lia; try (now injection Ll).
    cbn [combine map fst snd]. rewrite map_app, <- app_assoc. reflexivity.
Qed.

Lemma dval_zip_add xs ys : length xs = length ys ->
  dval (map (fun p => fst p + snd p) (combine xs ys)) = dval xs + dval ys.
Proof.
  revert ys; induction xs as [|x xs IH]; intros [|y ys] H; try discriminate; [reflexivity|].
  cbn [combine map dval fst snd]. rewrite IH by (now injection H). lia.
Qed.
Lemma dval_zip_sub xs ys : length xs = length ys ->
  dval (map (fun p => fst p - snd p) (combine xs ys)) = dval xs - dval ys.
Proof.
  revert ys; induction xs as [|x xs IH]; intros [|y ys] H; try discriminate; [reflexivity|].
  cbn [combine map dval fst snd]. rewrite IH by (now injection H). lia.
Qed.
Lemma zip_bounds (op : Z -> Z -> Z) lo hi xs ys :
  (forall x y, digit x -> digit y -> lo <= op x y <= hi) ->
  Forall digit xs -> Forall digit ys ->
  Forall (fun v => lo <= v <= hi) (map (fun p => op (fst p) (snd p)) (combine xs ys)).
Proof.
  intros Hop Hx. revert ys; induction Hx as [|x xs Hx _ IH]; intros ys Hy; cbn [combine map]; [constructor|].
  destruct Hy as [|y ys Hy Hys]; cbn [combine map]; constructor; auto.
Qed.
Lemma zip_length (op : Z -> Z -> Z) xs ys : length xs = length ys ->
  length (map (fun p => op (fst p) (snd p)) (combine xs ys)) = length xs.
Proof. intros H. rewrite map_length, combine_length. lia. Qed.

(** ** Carry loop of add *)
Definition addhd (c : Z) (l : list Z) : list Z :=
  match l with [] => [] | x :: t => (x + c) :: t end.
Lemma addhd_0 l : addhd 0 l = l.
Proof. destruct l; cbn; [reflexivity|]. f_equal. lia. Qed.

Lemma carry_loop us : forall c t0 rest done,
  Forall (fun u => 0 <= u <= 18) us -> 0 <= c <= 1 -> 0 <= t0 <= 100 ->
  exists zs c',
    for_loop (length us) (Z.of_nat (length done)) add_carry (map Some (done ++ addhd c (us ++ t0 :: rest)))
    = Ok (map Some (done ++ zs ++ (t0 + c') :: rest)) /\
    length zs = length us /\ Forall digit zs /\ 0 <= c' <= 1 /\
    dval zs + 10 ^ Z.of_nat (length us) * c' = dval us + c.
Proof.
  induction us as [|u us IH]; intros c t0 rest done Hu Hc Ht.
  - exists [], c. cbn [length for_loop app addhd dval]. split; [reflexivity|].
    split; [reflexivity|]. split; [constructor|]. split; [lia|]. change (10 ^ Z.of_nat 0) with 1. lia.
  - inversion_clear Hu. cbn [length for_loop].
    set (z := if u + c >=? 10 then u + c - 10 else u + c).
    set (c1 := if u + c >=? 10 then 1 else 0).
    assert (Hz : digit z /\ 0 <= c1 <= 1 /\ u + c = z + 10 * c1).
    { unfold digit, z, c1. destruct (Z.geb_spec (u + c) 10); lia. }
    destruct Hz as (Hz & Hc1 & Ez).
    assert (Estep : add_carry (Z.of_nat (length done)) (map Some (done ++ addhd c ((u :: us) ++ t0 :: rest)))
                    = Ok (map Some ((done ++ [z]) ++ addhd c1 (us ++ t0 :: rest)))).
    { cbn [app addhd]. unfold add_carry. rewrite map_app. cbn [map].
      rewrite rd_at by (now rewrite map_length). cbn [bind].
      unfold z, c1. destruct (Z.geb_spec (u + c) 10).
      - rewrite wr_at; [|now rewrite map_length|apply small32; lia]. cbn [bind].
        destruct (us ++ t0 :: rest) as [|w ws] eqn:E; [destruct us; discriminate|].
        assert (Hw : 0 <= w <= 100).
        { destruct us as [|u' us']; cbn [app] in E; injection E as <- _; [lia|].
          match goal with H : Forall _ (_ :: _) |- _ => inversion_clear H end. lia. }
        cbn [map]. 
        replace (map Some done ++ Some (u + c - 10) :: Some w :: map Some ws)
          with (map Some (done ++ [u + c - 10]) ++ Some w :: map Some ws)
          by (rewrite map_app, <- app_assoc; reflexivity).
        rewrite rd_at by (rewrite map_length, app_length; cbn [length]; lia). cbn [bind].
        rewrite wr_at; [|rewrite map_length, app_length; cbn [length]; lia|apply small32; lia].
        cbn [addhd]. rewrite !map_app. reflexivity.
      - rewrite addhd_0. rewrite !map_app, <- app_assoc. reflexivity. }
    rewrite Estep. cbn [bind].
    destruct (IH c1 t0 rest (done ++ [z])) as (zs & c' & E & Hl & Hd & Hc' & Hv); [assumption..|].
    rewrite app_length in E. cbn [length] in E.
    replace (Z.of_nat (length done) + 1) with (Z.of_nat (length done + 1)) by lia.
    exists (z :: zs), c'. rewrite E. split; [|split; [|split; [|split]]].
    + rewrite <- app_assoc. reflexivity.
    + cbn [length]. lia.
    + now constructor.
    + assumption.
    + cbn [dval]. rewrite Nat2Z.inj_succ, Z.pow_succ_r by lia. lia.
Qed.

(** general behaviour of [add]: cells below the larger length are read, whether
    they belong to the number or are left over *)
Lemma add_gen cap a b xs ys ta tb :
  len a = Z.of_nat (length xs) \/ len b = Z.of_nat (length xs) ->
  Z.max (len a) (len b) = Z.of_nat (length xs) ->
  el a = map Some xs ++ ta -> el b = map Some ys ++ tb ->
  length xs = length ys -> Forall digit xs -> Forall digit ys ->
  (length xs < cap)%nat ->
  exists zs c,
    add cap a b = Ok (Big (map Some (zs ++ c :: repeat 0 (cap - length xs - 1)))
                          (Z.of_nat (length xs) + c) (sgn a)) /\
    length zs = length xs /\ Forall digit zs /\ 0 <= c <= 1 /\
    dval zs + 10 ^ Z.of_nat (length xs) * c = dval xs + dval ys.
Proof.
  intros _ Hn Ea Eb Hl Hx Hy Hcap. unfold add. rewrite Hn, Nat2Z.id.
  pose proof (zip_loop Z.add (add_digits (el a) (el b)) (el a) (el b) (fun _ _ => eq_refl)) as Hz.
  assert (Hop : forall x y, digit x -> digit y -> 0 <= x + y <= 18) by (unfold digit; intros; lia).
  specialize (Hz ltac:(intros x y H1 H2; specialize (Hop x y H1 H2); lia)).
  specialize (Hz xs ys [] [] ta tb [] (cap - length xs)%nat Ea Eb eq_refl eq_refl Hl Hx Hy).
  cbn [map app length] in Hz. change (Z.of_nat 0) with 0 in Hz.
  replace (length xs + (cap - length xs))%nat with cap in Hz by lia.
  fold (zeros cap) in Hz. rewrite Hz. cbn [bind]. clear Hz.
  set (us := map _ (combine xs ys)).
  assert (Hul : length us = length xs) by (apply (zip_length Z.add); assumption).
  assert (Hub : Forall (fun u => 0 <= u <= 18) us) by (apply (zip_bounds Z.add); assumption).
  assert (Huv : dval us = dval xs + dval ys) by (apply dval_zip_add; assumption).
  destruct (carry_loop us 0 0 (repeat 0 (cap - length xs - 1)) []) as (zs & c & E & Hzl & Hzd & Hc & Hv);
    [assumption|lia|lia|].
  rewrite addhd_0 in E. cbn [app length] in E. change (Z.of_nat 0) with 0 in E.
  rewrite Hul in E. 
  assert (Er : map Some us ++ repeat (Some 0) (cap - length xs) = map Some (us ++ 0 :: repeat 0 (cap - length xs - 1))).
  { rewrite map_app. f_equal. cbn [map]. rewrite map_repeat'.
    replace (cap - length xs)%nat with (S (cap - length xs - 1)) at 1 by lia. reflexivity. }
  rewrite Er, E. cbn [bind]. rewrite map_app. cbn [map].
  rewrite rd_at by (rewrite map_length; lia). cbn [bind].
  exists zs, c. split; [|split; [lia|split; [assumption|split; [assumption|]]]].
  - f_equal. f_equal; [rewrite map_app; reflexivity|].
    destruct (Z.eqb_spec (0 + c) 0); lia.
  - rewrite <- Hul. lia.
Qed.

(** ** Non-Ok outcomes of digit loops are UB *)
Lemma for_okub {S} (body : Z -> S -> outcome S) (P : S -> Prop) :
  (forall i s, P s -> (exists s', body i s = Ok s' /\ P s') \/ body i s = UB) ->
  forall n i s, P s -> (exists s', for_loop n i body s = Ok s' /\ P s') \/ for_loop n i body s = UB.
Proof.
  intros H n. induction n as [|n IH]; intros i s Hs; [left; exists s; split; [reflexivity|assumption]|].
  cbn [for_loop]. destruct (H i s Hs) as [(s' & -> & H')| ->]; cbn [bind]; [|now right]. now apply IH.
Qed.

Ltac okub :=
  repeat match goal with
  | |- context [rd ?l ?i] => let v := fresh "v" in let E := fresh "E" in
      destruct (rd_okub l i) as [(v & E)|E]; rewrite E; cbn [bind]; [|now right]
  | |- context [wr ?l ?i ?x] => let r := fresh "r" in let E := fresh "E" in let L := fresh "L" in
      destruct (wr_okub l i x) as [(r & E & L)|E]; rewrite E; cbn [bind]; [|now right]
  end.
Lemma add_digits_okub cap a b i r : length r = cap ->
  (exists r', add_digits a b i r = Ok r' /\ length r' = cap) \/ add_digits a b i r = UB.
Proof. intros H. unfold add_digits. okub. left. eexists. split; [reflexivity|]. congruence. Qed.
Lemma add_carry_okub cap i r : length r = cap ->
  (exists r', add_carry i r = Ok r' /\ length r' = cap) \/ add_carry i r = UB.
Proof.
  intros H. unfold add_carry. okub. destruct (_ >=? _); okub; left; eexists; (split; [reflexivity|]); congruence.
Qed.
Lemma rd_oob l i : Z.of_nat (length l) <= i -> rd l i = UB.
Proof.
  intros H. unfold rd, aget. destruct (i <? 0); [reflexivity|].
  assert (E : nth_error l (Z.to_nat i) = None) by (apply nth_error_None; lia). now rewrite E.
Qed.
Lemma add_full cap a b : Z.of_nat cap <= Z.max (len a) (len b) -> add cap a b = UB.
Proof.
  intros H. unfold add.
  destruct (for_okub (add_digits (el a) (el b)) (fun r => length r = cap)
              (fun i r Hr => add_digits_okub cap _ _ i r Hr)
              (Z.to_nat (Z.max (len a) (len b))) 0 (zeros cap)) as [(r & -> & Hr)| ->];
    [apply repeat_length| |reflexivity].
  cbn [bind].
  destruct (for_okub add_carry (fun r => length r = cap) (fun i r Hr => add_carry_okub cap i r Hr)
              (Z.to_nat (Z.max (len a) (len b))) 0 r Hr) as [(r' & -> & Hr')| ->]; [|reflexivity].
  cbn [bind]. rewrite rd_oob by lia. reflexivity.
Qed.

(** ** Borrow loop of sub *)
Lemma borrow_loop us : forall c rest done,
  Forall (fun u => -9 <= u <= 9) us -> 0 <= c <= 1 -> Forall (fun u => -9 <= u <= 9) rest ->
  exists zs c',
    length zs = length us /\ Forall digit zs /\ 0 <= c' <= 1 /\
    dval zs - 10 ^ Z.of_nat (length us) * c' = dval us - c /\
    (c' = 0 \/ rest <> [] ->
     for_loop (length us) (Z.of_nat (length done)) sub_borrow (map Some (done ++ addhd (- c) (us ++ rest)))
     = Ok (map Some (done ++ zs ++ addhd (- c') rest))) /\
    (c' = 1 -> c = 0 \/ us <> [] -> us <> [] -> rest = [] ->
     for_loop (length us) (Z.of_nat (length done)) sub_borrow (map Some (done ++ addhd (- c) (us ++ rest)))
     = UB).
Proof.
  induction us as [|u us IH]; intros c rest done Hu Hc Hr.
  - exists [], c. cbn [length for_loop app dval]. split; [reflexivity|].
    split; [constructor|]. split; [lia|]. split; [change (10 ^ Z.of_nat 0) with 1; lia|].
    split; [reflexivity|]. intros _ _ H. now exfalso.
  - inversion_clear Hu. cbn [length for_loop].
    set (z := if u - c <? 0 then u - c + 10 else u - c).
    set (c1 := if u - c <? 0 then 1 else 0).
    assert (Hz : digit z /\ 0 <= c1 <= 1 /\ u - c = z - 10 * c1).
    { unfold digit, z, c1. destruct (Z.ltb_spec (u - c) 0); lia. }
    destruct Hz as (Hz & Hc1 & Ez).
    destruct (IH c1 rest (done ++ [z])) as (zs & c' & Hl & Hd & Hc' & Hv & E & E'); [assumption..|].
    rewrite app_length in E, E'. cbn [length] in E, E'.
    assert (Estep : us ++ rest <> [] \/ c1 = 0 ->
                    sub_borrow (Z.of_nat (length done)) (map Some (done ++ addhd (- c) ((u :: us) ++ rest)))
                    = Ok (map Some ((done ++ [z]) ++ addhd (- c1) (us ++ rest)))).
    { intros Hne. cbn [app addhd]. unfold sub_borrow. rewrite map_app. cbn [map].
      rewrite rd_at by (now rewrite map_length). cbn [bind].
      replace (u + - c) with (u - c) by lia.
      revert Hne. unfold z, c1. destruct (Z.ltb_spec (u - c) 0); intros Hne.
      - rewrite wr_at; [|now rewrite map_length|apply small32; lia]. cbn [bind].
        destruct (us ++ rest) as [|w ws] eqn:Ew; [destruct Hne; [congruence|lia]|].
        assert (Hw : -9 <= w <= 9).
        { assert (HF : Forall (fun u => -9 <= u <= 9) (us ++ rest)) by (apply Forall_app; split; assumption).
          rewrite Ew in HF. now inversion_clear HF. }
        cbn [map].
        replace (map Some done ++ Some (u - c + 10) :: Some w :: map Some ws)
          with (map Some (done ++ [u - c + 10]) ++ Some w :: map Some ws)
          by (rewrite map_app, <- app_assoc; reflexivity).
        rewrite rd_at by (rewrite map_length, app_length; cbn [length]; lia). cbn [bind].
        rewrite wr_at; [|rewrite map_length, app_length; cbn [length]; lia|apply small32; lia].
        cbn [addhd]. rewrite !map_app. reflexivity.
      - rewrite addhd_0. rewrite !map_app, <- app_assoc. reflexivity. }
    assert (Hc0 : us = [] -> c' = c1).
    { intros ->. destruct zs; [|discriminate]. cbn [length dval] in Hv.
      change (10 ^ Z.of_nat 0) with 1 in Hv. lia. }
    exists (z :: zs), c'. split; [cbn [length]; lia|]. split; [now constructor|]. split; [assumption|].
    split; [|split].
    + cbn [dval]. rewrite Nat2Z.inj_succ, Z.pow_succ_r by lia. lia.
    + intros Hok. rewrite Estep.
      * cbn [bind]. replace (Z.of_nat (length done) + 1) with (Z.of_nat (length done + 1)) by lia.
        rewrite E by assumption. rewrite <- app_assoc. reflexivity.
      * destruct us as [|u' us']; [|left; discriminate].
        destruct Hok as [Hok|Hok]; [right; rewrite <- Hc0; auto|left; assumption].
    + intros H1 _ _ Hrn. subst rest. destruct us as [|u' us'].
      * rewrite (Hc0 eq_refl) in H1. cbn [app addhd length]. unfold sub_borrow.
        rewrite map_app. cbn [map]. rewrite rd_at by (now rewrite map_length). cbn [bind].
        replace (u + - c) with (u - c) by lia.
        unfold c1 in H1. destruct (Z.ltb_spec (u - c) 0); [|lia].
        rewrite wr_at; [|now rewrite map_length|apply small32; lia]. cbn [bind].
        rewrite rd_oob; [reflexivity|]. rewrite app_length, map_length. cbn [length]. lia.
      * rewrite Estep by (left; discriminate). cbn [bind].
        replace (Z.of_nat (length done) + 1) with (Z.of_nat (length done + 1)) by lia.
        apply E'; [assumption|right; discriminate|discriminate|reflexivity].
Qed.

(** ** Removing leading zeros *)
Lemma strip_spec zs tl : Forall digit zs ->
  exists ds k, zs = ds ++ repeat 0 k /\ (ds <> [] -> last ds 0 <> 0) /\
    strip (length zs) (map Some zs ++ tl) = Ok (Z.of_nat (length ds)).
Proof.
  revert tl. induction zs as [|d zs IH] using rev_ind; intros tl Hd.
  - exists [], 0%nat. split; [reflexivity|]. split; [congruence|]. reflexivity.
  - apply Forall_app in Hd. destruct Hd as [Hzs Hd]. rewrite app_length. cbn [length].
    rewrite Nat.add_1_r. cbn [strip]. rewrite map_app. cbn [map]. rewrite <- app_assoc. cbn [app].
    rewrite rd_at by (now rewrite map_length). cbn [bind].
    destruct (Z.eqb_spec d 0) as [->|Hd0].
    + destruct (IH (Some 0 :: tl) Hzs) as (ds & k & -> & Hl & E).
      exists ds, (S k). split; [|split; [assumption|exact E]].
      rewrite <- app_assoc. f_equal.
      clear. induction k; [reflexivity|]. cbn [repeat app]. now f_equal.
    + exists (zs ++ [d]), 0%nat. cbn [repeat]. rewrite app_nil_r.
      split; [reflexivity|]. split; [intros _; now rewrite last_last|].
      rewrite app_length. cbn [length]. f_equal. lia.
Qed.

(** ** Comparison *)
Lemma cmp_loop_spec s xs : forall ys ta tb, length xs = length ys -> Forall digit xs -> Forall digit ys ->
  cmp_loop (length xs) s (map Some xs ++ ta) (map Some ys ++ tb) = Ok (s * Z.sgn (dval xs - dval ys)).
Proof.
  induction xs as [|x xs IH] using rev_ind; intros ys ta tb Hl Hx Hy.
  - destruct ys; [|discriminate]. cbn. f_equal. lia.
  - destruct (exists_last (l := ys)) as (ys' & y & ->).
    { intros ->. rewrite app_length in Hl. cbn in Hl. lia. }
    rewrite !app_length in Hl. cbn [length] in Hl.
    apply Forall_app in Hx, Hy. destruct Hx as [Hx Hx1], Hy as [Hy Hy1].
    inversion_clear Hx1. inversion_clear Hy1.
    rewrite app_length. cbn [length]. rewrite Nat.add_1_r. cbn [cmp_loop].
    rewrite !map_app. cbn [map]. rewrite <- !app_assoc. cbn [app].
    rewrite rd_at by (now rewrite map_length). cbn [bind].
    rewrite rd_at by (rewrite map_length; lia). cbn [bind].
    rewrite !dval_single_app. replace (length ys') with (length xs) by lia.
    pose proof (dval_bound xs Hx) as Bx. pose proof (dval_bound ys' Hy) as By.
    replace (length ys') with (length xs) in By by lia.
    set (P := 10 ^ Z.of_nat (length xs)) in *.
    destruct (Z.eqb_spec x y) as [->|Hne].
    + rewrite IH by (assumption || lia). f_equal. f_equal. f_equal. lia.
    + rewrite Z.gtb_ltb. destruct (Z.ltb_spec y x); f_equal.
      * rewrite (Z.sgn_pos (_ - _)) by nia. lia.
      * rewrite (Z.sgn_neg (_ - _)) by nia. lia.
Qed.

(** a BigNum with digits [ds] *)
Definition mag (cap : nat) (b : big) (ds : list Z) : Prop :=
  (exists tail, el b = map Some ds ++ tail) /\ length (el b) = cap /\
  len b = Z.of_nat (length ds) /\ Forall digit ds /\ (ds <> [] -> last ds 0 <> 0).

Lemma mag_bounds ds : Forall digit ds -> (ds <> [] -> last ds 0 <> 0) -> ds <> [] ->
  10 ^ (Z.of_nat (length ds) - 1) <= dval ds.
Proof. intros. apply dval_lower; auto. Qed.

Lemma len_lt_val xs ys : Forall digit xs -> Forall digit ys -> (ys <> [] -> last ys 0 <> 0) ->
  (length xs < length ys)%nat -> dval xs < dval ys.
Proof.
  intros Hx Hy Hl H. pose proof (dval_bound xs Hx).
  assert (ys <> []) by (intros ->; cbn in H; lia).
  pose proof (dval_lower ys Hy H1 (Hl H1)).
  assert (10 ^ Z.of_nat (length xs) <= 10 ^ (Z.of_nat (length ys) - 1)) by (apply Z.pow_le_mono_r; lia). lia.
Qed.

Lemma cmp_mag cap a b xs ys : mag cap a xs -> mag cap b ys ->
  cmp true a b = Ok (sgn a * Z.sgn (dval xs - dval ys)).
Proof.
  intros ([ta Ea] & La & Na & Dx & Cx) ([tb Eb] & Lb & Nb & Dy & Cy).
  unfold cmp. cbn [negb andb]. rewrite Na, Nb.
  destruct (Z.eqb_spec (Z.of_nat (length xs)) (Z.of_nat (length ys))) as [E|N]; cbn [negb].
  - rewrite Nat2Z.id, Ea, Eb. rewrite cmp_loop_spec; [reflexivity|lia|assumption..].
  - rewrite Z.gtb_ltb. destruct (Z.ltb_spec (Z.of_nat (length ys)) (Z.of_nat (length xs))); f_equal.
    + pose proof (len_lt_val ys xs Dy Dx Cx ltac:(lia)). rewrite Z.sgn_pos by lia. lia.
    + pose proof (len_lt_val xs ys Dx Dy Cy ltac:(lia)). rewrite Z.sgn_neg by lia. lia.
Qed.

Lemma mag_inj xs ys : Forall digit xs -> Forall digit ys -> (xs <> [] -> last xs 0 <> 0) ->
  (ys <> [] -> last ys 0 <> 0) -> dval xs = dval ys -> xs = ys.
Proof.
  intros Hx Hy Cx Cy E. apply dval_inj; try assumption.
  destruct (Nat.lt_trichotomy (length xs) (length ys)) as [H|[H|H]]; [|assumption|].
  - pose proof (len_lt_val xs ys Hx Hy Cy H). lia.
  - pose proof (len_lt_val ys xs Hy Hx Cx H). lia.
Qed.

(** ** the subtracting branch of sub *)
Lemma sub_base f cap a b xs ys ta tb c :
  cmp true a b = Ok c -> 0 <= c ->
  len a = Z.of_nat (length xs) ->
  el a = map Some xs ++ ta -> el b = map Some ys ++ tb ->
  length xs = length ys -> Forall digit xs -> Forall digit ys ->
  (length xs <= cap)%nat ->
  (dval ys <= dval xs \/ (length xs < cap)%nat) ->
  exists ds k tail, 
    sub (S f) cap a b = Ok (Big (map Some ds ++ tail) (Z.of_nat (length ds)) 1) /\
    Forall digit ds /\ (ds <> [] -> last ds 0 <> 0) /\ length (map Some ds ++ tail) = cap /\
    length xs = (length ds + k)%nat /\
    (dval ys <= dval xs -> tail = repeat (Some 0) (cap - length ds)) /\
    dval ds = (dval xs - dval ys) mod 10 ^ Z.of_nat (length xs).
Proof.
  intros Hcmp Hc Hn Ea Eb Hl Hx Hy Hcap Hroom.
  cbn [sub]. rewrite Hcmp. cbn [bind]. destruct (Z.ltb_spec c 0); [lia|].
  rewrite Hn, Nat2Z.id.
  pose proof (zip_loop Z.sub (sub_digits (el a) (el b)) (el a) (el b) (fun _ _ => eq_refl)) as Hz.
  assert (Hop : forall x y, digit x -> digit y -> -9 <= x - y <= 9) by (unfold digit; intros; lia).
  specialize (Hz ltac:(intros x y H1 H2; specialize (Hop x y H1 H2); lia)).
  specialize (Hz xs ys [] [] ta tb [] (cap - length xs)%nat Ea Eb eq_refl eq_refl Hl Hx Hy).
  cbn [map app length] in Hz. change (Z.of_nat 0) with 0 in Hz.
  replace (length xs + (cap - length xs))%nat with cap in Hz by lia.
  fold (zeros cap) in Hz. rewrite Hz. cbn [bind]. clear Hz.
  set (us := map _ (combine xs ys)).
  assert (Hul : length us = length xs) by (apply (zip_length Z.sub); assumption).
  assert (Hub : Forall (fun u => -9 <= u <= 9) us) by (apply (zip_bounds Z.sub); assumption).
  assert (Huv : dval us = dval xs - dval ys) by (apply dval_zip_sub; assumption).
  destruct (borrow_loop us 0 (repeat 0 (cap - length xs)) []) as (zs & c' & Hzl & Hzd & Hc' & Hv & E & _);
    [assumption|lia|apply Forall_repeat; lia|].
  cbn [app length] in E. change (- 0) with 0 in E. rewrite addhd_0, Hul in E.
  change (Z.of_nat 0) with 0 in E.
  assert (Er : map Some us ++ repeat (Some 0) (cap - length xs) = map Some (us ++ repeat 0 (cap - length xs))).
  { rewrite map_app, map_repeat'. reflexivity. }
  pose proof (dval_bound zs Hzd) as Bz. rewrite Hzl, Hul in Bz. rewrite Hul, Huv in Hv.
  assert (Hle : dval ys <= dval xs -> c' = 0) by nia.
  assert (Hroom' : c' = 0 \/ repeat 0 (cap - length xs) <> []).
  { destruct Hroom as [H1|H1]; [left; auto|right].
    destruct (cap - length xs)%nat eqn:Ec; [lia|discriminate]. }
  rewrite Er, E by assumption. cbn [bind].
  destruct (strip_spec zs (map Some (addhd (- c') (repeat 0 (cap - length xs)))) Hzd) as (ds & k & Ezs & Cds & Es).
  rewrite <- map_app in Es. rewrite Hzl, Hul in Es. rewrite Es. cbn [bind].
  assert (Hzk : length zs = (length ds + k)%nat) by (rewrite Ezs, app_length, repeat_length; reflexivity).
  exists ds, k, (map Some (repeat 0 k ++ addhd (- c') (repeat 0 (cap - length xs)))).
  assert (Eel : map Some (zs ++ addhd (- c') (repeat 0 (cap - length xs)))
                = map Some ds ++ map Some (repeat 0 k ++ addhd (- c') (repeat 0 (cap - length xs)))).
  { rewrite Ezs, <- app_assoc, map_app. reflexivity. }
  assert (Hah : forall z l, length (addhd z l) = length l) by (intros z [|? ?]; reflexivity).
  split; [rewrite Eel; reflexivity|].
  split; [rewrite Ezs in Hzd; apply Forall_app in Hzd; tauto|].
  split; [assumption|].
  split; [rewrite <- map_app, map_length, !app_length, Hah, !repeat_length; lia|].
  split; [lia|]. split.
  - intros H1. rewrite (Hle H1). change (- 0) with 0. rewrite addhd_0, map_app, !map_repeat', <- repeat_app. f_equal. lia.
  - assert (Ed : dval ds = dval zs). { rewrite Ezs, dval_app, dval_zeros. lia. }
    rewrite Ed. apply Z.mod_unique with (q := - c'); [left; lia|]. lia.
Qed.

(** ** Multiplication *)
Lemma dval_upd ws p v : (p < length ws)%nat -> dval (upd ws p v) = dval ws + 10 ^ Z.of_nat p * (v - nth p ws 0).
Proof.
  revert p; induction ws as [|w ws IH]; intros [|p] H; cbn [length] in H; try lia.
  - cbn [upd dval nth]. change (10 ^ Z.of_nat 0) with 1. lia.
  - cbn [upd dval nth]. rewrite IH by lia. rewrite Nat2Z.inj_succ, Z.pow_succ_r by lia. lia.
Qed.
Lemma map_upd {A B} (f : A -> B) l i x : map f (upd l i x) = upd (map f l) i (f x).
Proof. revert i; induction l; intros [|i]; cbn; congruence. Qed.
Lemma rd_map ws i : 0 <= i < Z.of_nat (length ws) -> rd (map Some ws) i = Ok (nth (Z.to_nat i) ws 0).
Proof.
  intros H. unfold rd. rewrite (aget_ok _ _ (Some 0)) by (rewrite map_length; lia).
  rewrite map_nth. reflexivity.
Qed.
Lemma rd_map_app ws tl i : 0 <= i < Z.of_nat (length ws) -> rd (map Some ws ++ tl) i = Ok (nth (Z.to_nat i) ws 0).
Proof.
  intros H. unfold rd. rewrite (aget_ok _ _ (Some 0)) by (rewrite app_length, map_length; lia).
  rewrite app_nth1 by (rewrite map_length; lia). rewrite map_nth. reflexivity.
Qed.
Lemma wr_map ws i v : 0 <= i < Z.of_nat (length ws) -> in_int32 v = true ->
  wr (map Some ws) i v = Ok (map Some (upd ws (Z.to_nat i) v)).
Proof.
  intros H Hv. unfold wr, chk32. rewrite Hv. cbn [bind]. rewrite aset_ok by (rewrite map_length; lia).
  rewrite map_upd. reflexivity.
Qed.
Lemma firstn_S_nth (l : list Z) n : (n < length l)%nat -> firstn (S n) l = firstn n l ++ [nth n l 0].
Proof.
  revert n; induction l as [|x l IH]; intros [|n] H; cbn [length] in H; try lia; [reflexivity|].
  cbn [firstn nth app]. rewrite <- IH by lia. reflexivity.
Qed.
Lemma nth_digit ds p : Forall digit ds -> digit (nth p ds 0).
Proof.
  intros H. destruct (Nat.lt_ge_cases p (length ds)).
  - rewrite Forall_forall in H. apply H. now apply nth_In.
  - rewrite nth_overflow by lia. unfold digit; lia.
Qed.

Definition row_inv (cap n : nat) (i : Z) (V : Z) (k : Z) (r : list (option Z)) : Prop :=
  exists ws, r = map Some ws /\ length ws = cap /\ dval ws = V /\
    (forall p, 0 <= nth p ws 0 <= 81 * i + (if (Z.of_nat p <? i + k) then 81 else 0)) /\
    (forall p, (n <= p)%nat -> nth p ws 0 = 0).

Lemma mul_row_spec cap xs ys ta tb i r V :
  Forall digit xs -> Forall digit ys ->
  0 <= i < Z.of_nat (length xs) -> (0 < length ys)%nat ->
  (length xs + length ys - 1 < cap)%nat -> 90 * Z.of_nat cap <= 1000000000 ->
  row_inv cap (length xs + length ys - 1) i V (- i) r ->
  exists r', mul_row (map Some xs ++ ta) (map Some ys ++ tb) (Z.of_nat (length ys)) i r = Ok r' /\
    row_inv cap (length xs + length ys - 1) (i + 1) (V + nth (Z.to_nat i) xs 0 * 10 ^ i * dval ys) (- (i + 1)) r'.
Proof.
  intros Hx Hy Hi Hy0 Hcap Hbig H0. unfold mul_row. rewrite Nat2Z.id.
  set (n := (length xs + length ys - 1)%nat) in *.
  destruct (for_loop_inv
    (fun k r => row_inv cap n i (V + nth (Z.to_nat i) xs 0 * 10 ^ i * dval (firstn (Z.to_nat k) ys)) k r)
    (mul_inner (map Some xs ++ ta) (map Some ys ++ tb) i) (length ys) 0 r) as (r' & E & H').
  - destruct H0 as (ws & -> & Hl & Hv & Hb & Hz). exists ws. split; [reflexivity|]. split; [assumption|].
    split; [rewrite Hv; cbn; lia|]. split; [|assumption].
    intros p. specialize (Hb p). replace (Z.of_nat p <? i + - i) with false in Hb by lia.
    destruct (_ <? _); lia.
  - intros k s Hk (ws & -> & Hl & Hv & Hb & Hz). unfold mul_inner.
    rewrite !rd_map_app by lia. cbn [bind].
    pose proof (nth_digit xs (Z.to_nat i) Hx) as Dx. pose proof (nth_digit ys (Z.to_nat k) Hy) as Dy.
    set (x := nth (Z.to_nat i) xs 0) in *. set (y := nth (Z.to_nat k) ys 0) in *.
    unfold digit in Dx, Dy. assert (Hxy : 0 <= x * y <= 81) by nia.
    unfold chk32 at 1. rewrite (small32 (x * y)) by lia. cbn [bind].
    rewrite rd_map by lia. cbn [bind].
    pose proof (Hb (Z.to_nat (i + k))) as Hbp.
    replace (Z.of_nat (Z.to_nat (i + k)) <? i + k) with false in Hbp by lia.
    set (z := nth (Z.to_nat (i + k)) ws 0) in *.
    rewrite wr_map by (try apply small32; lia).
    eexists. split; [reflexivity|].
    eexists. split; [reflexivity|]. split; [rewrite upd_length; assumption|]. split; [|split].
    + rewrite dval_upd by lia. fold z. rewrite Hv.
      replace (Z.to_nat (k + 1)) with (S (Z.to_nat k)) by lia.
      rewrite firstn_S_nth by lia. fold y. rewrite dval_single_app, firstn_length_le by lia.
      rewrite !Z2Nat.id by lia. rewrite Z.pow_add_r by lia. ring.
    + intros p. destruct (Nat.eq_dec p (Z.to_nat (i + k))) as [->|Hp].
      * rewrite nth_upd_eq by lia. destruct (Z.ltb_spec (Z.of_nat (Z.to_nat (i + k))) (i + (k + 1))); lia.
      * rewrite nth_upd_neq by lia. specialize (Hb p).
        destruct (Z.ltb_spec (Z.of_nat p) (i + k)); destruct (Z.ltb_spec (Z.of_nat p) (i + (k + 1))); lia.
    + intros p Hp. rewrite nth_upd_neq by lia. now apply Hz.
  - exists r'. split; [exact E|]. destruct H' as (ws & -> & Hl & Hv & Hb & Hz).
    exists ws. split; [reflexivity|]. split; [assumption|]. split; [|split; [|assumption]].
    + rewrite Hv. rewrite firstn_all2 by lia. reflexivity.
    + intros p. specialize (Hb p). destruct (Z.ltb_spec (Z.of_nat p) (i + 1 + - (i + 1))); [lia|].
      destruct (Z.ltb_spec (Z.of_nat p) (i + (0 + Z.of_nat (length ys)))); lia.
Qed.

Lemma mul_carry_loop L us : forall c t0 rest done,
  0 <= L -> 90 * L <= 900000000 ->
  Forall (fun u => 0 <= u <= 81 * L) us -> 0 <= c <= 9 * L -> 0 <= t0 <= 81 * L ->
  exists zs c',
    for_loop (length us) (Z.of_nat (length done)) mul_carry (map Some (done ++ addhd c (us ++ t0 :: rest)))
    = Ok (map Some (done ++ zs ++ (t0 + c') :: rest)) /\
    length zs = length us /\ Forall digit zs /\ 0 <= c' /\
    dval zs + 10 ^ Z.of_nat (length us) * c' = dval us + c.
Proof.
  induction us as [|u us IH]; intros c t0 rest done HL0 HL Hu Hc Ht.
  - exists [], c. cbn [length for_loop app addhd dval]. split; [reflexivity|].
    split; [reflexivity|]. split; [constructor|]. split; [lia|]. change (10 ^ Z.of_nat 0) with 1. lia.
  - inversion_clear Hu. cbn [length for_loop].
    set (z := Z.rem (u + c) 10). set (c1 := Z.quot (u + c) 10).
    assert (Hz : digit z /\ 0 <= c1 <= 9 * L /\ u + c = z + 10 * c1).
    { unfold digit, z, c1. rewrite Z.rem_mod_nonneg, Z.quot_div_nonneg by lia.
      pose proof (Z.mod_pos_bound (u + c) 10 ltac:(lia)). pose proof (Z_div_mod_eq_full (u + c) 10). lia. }
    destruct Hz as (Hz & Hc1 & Ez).
    assert (Estep : mul_carry (Z.of_nat (length done)) (map Some (done ++ addhd c ((u :: us) ++ t0 :: rest)))
                    = Ok (map Some ((done ++ [z]) ++ addhd c1 (us ++ t0 :: rest)))).
    { cbn [app addhd]. unfold mul_carry. 
      destruct (us ++ t0 :: rest) as [|w ws] eqn:E; [destruct us; discriminate|].
      assert (Hw : 0 <= w <= 81 * L).
      { destruct us as [|u' us']; cbn [app] in E; injection E as <- _; [lia|].
        match goal with H : Forall _ (_ :: _) |- _ => inversion_clear H end. lia. }
      rewrite map_app. cbn [map].
      rewrite rd_at by (now rewrite map_length). cbn [bind].
      assert (Es : forall v q, map Some done ++ Some v :: q :: map Some ws = map Some (done ++ [v]) ++ q :: map Some ws).
      { intros v q. rewrite map_app, <- app_assoc. reflexivity. }
      rewrite Es. rewrite rd_at by (rewrite map_length, app_length; cbn [length]; lia). cbn [bind].
      fold c1 z. rewrite wr_at; [|rewrite map_length, app_length; cbn [length]; lia|apply small32; lia].
      cbn [bind]. rewrite <- Es. 
      rewrite wr_at; [|now rewrite map_length|apply small32; unfold digit in Hz; lia].
      cbn [addhd]. rewrite !map_app, <- app_assoc. reflexivity. }
    rewrite Estep. cbn [bind].
    destruct (IH c1 t0 rest (done ++ [z])) as (zs & c' & E & Hl & Hd & Hc' & Hv); [assumption..|].
    rewrite app_length in E. cbn [length] in E.
    replace (Z.of_nat (length done) + 1) with (Z.of_nat (length done + 1)) by lia.
    exists (z :: zs), c'. rewrite E. split; [|split; [|split; [|split]]].
    + rewrite <- app_assoc. reflexivity.
    + cbn [length]. lia.
    + now constructor.
    + assumption.
    + cbn [dval]. rewrite Nat2Z.inj_succ, Z.pow_succ_r by lia. lia.
Qed.

Lemma list_eq_nth0 (l l' : list Z) : length l = length l' -> (forall p, nth p l 0 = nth p l' 0) -> l = l'.
Proof. intros Hl H. apply (nth_ext _ _ 0 0); auto. Qed.

Lemma mul_gen cap a b xs ys :
  mag cap a xs -> mag cap b ys -> xs <> [] -> ys <> [] ->
  (length xs + length ys - 1 < cap)%nat -> 90 * Z.of_nat cap <= 900000000 ->
  exists ds, mul cap a b = Ok (Big (map Some (ds ++ repeat 0 (cap - length ds))) (Z.of_nat (length ds)) (sgn a)) /\
    (length ds <= cap)%nat /\ Forall digit ds /\ ds <> [] /\ last ds 0 <> 0 /\ dval ds = dval xs * dval ys.
Proof.
  intros ([ta Ea] & La & Na & Dx & Cx) ([tb Eb] & Lb & Nb & Dy & Cy) Nx Ny Hcap Hbig.
  assert (Lx : (0 < length xs)%nat) by (destruct xs; [congruence|cbn; lia]).
  assert (Ly : (0 < length ys)%nat) by (destruct ys; [congruence|cbn; lia]).
  unfold mul. rewrite Na, Nb, Ea, Eb.
  destruct (Z.eqb_spec (Z.of_nat (length xs)) 0) as [Hq|Hq]; [lia|clear Hq].
  destruct (Z.eqb_spec (Z.of_nat (length ys)) 0) as [Hq|Hq]; [lia|clear Hq]. cbn [orb].
  set (n := (length xs + length ys - 1)%nat) in *.
  destruct (for_loop_inv
    (fun i r => row_inv cap n i (dval (firstn (Z.to_nat i) xs) * dval ys) (- i) r)
    (mul_row (map Some xs ++ ta) (map Some ys ++ tb) (Z.of_nat (length ys))) (length xs) 0 (zeros cap))
    as (r & E & Hr).
  - exists (repeat 0 cap). split; [now rewrite map_repeat'|]. split; [apply repeat_length|].
    split; [rewrite dval_zeros; reflexivity|].
    assert (Hn0 : forall p, nth p (repeat 0 cap) 0 = 0) by (intros p; apply nth_repeat).
    split; intros p; rewrite Hn0; [|reflexivity]. destruct (_ <? _); lia.
  - intros i s Hi Hs. 
    destruct (mul_row_spec cap xs ys ta tb i s _ Dx Dy ltac:(lia) Ly Hcap ltac:(lia) Hs) as (s' & E & Hs').
    exists s'. split; [exact E|].
    replace (Z.to_nat (i + 1)) with (S (Z.to_nat i)) by lia.
    rewrite firstn_S_nth by lia. rewrite dval_single_app, firstn_length_le, Z2Nat.id by lia.
    rewrite Z.mul_add_distr_r. rewrite (Z.mul_comm (10 ^ i)). exact Hs'.
  - rewrite Nat2Z.id, E. cbn [bind]. destruct Hr as (ws & -> & Hl & Hv & Hb & Hz).
    rewrite firstn_all2 in Hv by lia.
    assert (Ews : ws = firstn n ws ++ 0 :: repeat 0 (cap - n - 1)).
    { rewrite <- (firstn_skipn n ws) at 1. f_equal.
      apply list_eq_nth0.
      - rewrite skipn_length. cbn [length]. rewrite repeat_length. lia.
      - intros p. assert (Ep : nth p (skipn n ws) 0 = nth (n + p) ws 0).
        { rewrite <- (firstn_skipn n ws) at 2. rewrite app_nth2 by (rewrite firstn_length_le; lia).
          rewrite firstn_length_le by lia. f_equal. lia. }
        rewrite Ep, Hz by lia. change (0 :: repeat 0 (cap - n - 1)) with (repeat 0 (S (cap - n - 1))).
        symmetry. apply nth_repeat. }
    set (us := firstn n ws) in *.
    assert (Hul : length us = n) by (apply firstn_length_le; lia).
    assert (Hv' : dval us = dval xs * dval ys).
    { rewrite Ews, dval_app in Hv. change (0 :: repeat 0 (cap - n - 1)) with (repeat 0 (S (cap - n - 1))) in Hv.
      rewrite dval_zeros in Hv. lia. }
    assert (Hub : Forall (fun u => 0 <= u <= 81 * Z.of_nat cap) us).
    { apply Forall_forall. intros u Hin. destruct (In_nth _ _ 0 Hin) as (p & Hp & <-).
      assert (Ep : nth p us 0 = nth p ws 0).
      { rewrite Ews. rewrite app_nth1 by assumption. reflexivity. }
      rewrite Ep. specialize (Hb p).
      destruct (Z.ltb_spec (Z.of_nat p) (0 + Z.of_nat (length xs) + - (0 + Z.of_nat (length xs)))); lia. }
    destruct (mul_carry_loop (Z.of_nat cap) us 0 0 (repeat 0 (cap - n - 1)) []) as (zs & c & E2 & Hzl & Hzd & Hc & Hzv);
      [lia|lia|assumption|lia|lia|].
    rewrite addhd_0 in E2. cbn [app length] in E2. change (Z.of_nat 0) with 0 in E2.
    replace (Z.to_nat (Z.of_nat (length xs) + Z.of_nat (length ys) - 1)) with (length us) by lia.
    rewrite Ews, E2. cbn [bind]. rewrite map_app. cbn [map].
    rewrite rd_at by (rewrite map_length; lia). cbn [bind].
    replace (Z.of_nat (length xs) + Z.of_nat (length ys) - 1) with (Z.of_nat n) by lia.
    pose proof (dval_bound xs Dx) as Bx. pose proof (dval_bound ys Dy) as By.
    pose proof (dval_bound zs Hzd) as Bz. rewrite Hzl, Hul in Bz.
    pose proof (dval_lower xs Dx Nx (Cx Nx)) as Lx'. pose proof (dval_lower ys Dy Ny (Cy Ny)) as Ly'.
    rewrite Hul in Hzv.
    assert (Hlow : 10 ^ (Z.of_nat n - 1) <= dval us).
    { rewrite Hv'. replace (Z.of_nat n - 1) with ((Z.of_nat (length xs) - 1) + (Z.of_nat (length ys) - 1)) by lia.
      rewrite Z.pow_add_r by lia. apply Z.mul_le_mono_nonneg; try assumption; apply Z.pow_nonneg; lia. }
    assert (Hupp : dval us < 10 * 10 ^ Z.of_nat n).
    { rewrite Hv'. rewrite <- Z.pow_succ_r by lia.
      replace (Z.succ (Z.of_nat n)) with (Z.of_nat (length xs) + Z.of_nat (length ys)) by lia.
      rewrite Z.pow_add_r by lia. apply Z.mul_lt_mono_nonneg; lia. }
    assert (HP : 0 < 10 ^ Z.of_nat n) by (apply Z.pow_pos_nonneg; lia).
    assert (Hc9 : c <= 9) by nia.
    destruct (Z.eqb_spec (0 + c) 0) as [Ec|Ec].
    + assert (c = 0) by lia. subst c. exists zs.
      assert (Hne : zs <> []) by (intros ->; cbn in Hzl; lia).
      split; [|split; [lia|split; [assumption|split; [assumption|split; [|lia]]]]].
      * f_equal. f_equal; [|lia]. rewrite map_app. f_equal. rewrite Hzl, Hul.
        destruct (cap - n)%nat as [|q] eqn:Eq; [lia|]. cbn [Nat.sub]. rewrite Nat.sub_0_r. reflexivity.
      * apply dval_last; [assumption| |assumption]. rewrite Hzl, Hul. lia.
    + exists (zs ++ [c]). rewrite app_length. cbn [length].
      split; [|split; [lia|split; [|split; [|split]]]].
      * f_equal. f_equal; [|lia]. rewrite <- app_assoc, !map_app. cbn [map app].
        rewrite Hzl, Hul. replace (cap - (n + 1))%nat with (cap - n - 1)%nat by lia. reflexivity.
      * apply Forall_app. split; [assumption|]. constructor; [unfold digit; lia|constructor].
      * destruct zs; discriminate.
      * rewrite last_last. lia.
      * rewrite dval_single_app, Hzl, Hul. lia.
Qed.
