From Verif Require Import Base NumModel NumSpec NumProofs.
Local Open Scope Z_scope.

(** ** binaryPow *)
Lemma in64 z : in_int64 z = true <-> int64_min <= z <= int64_max.
Proof. unfold in_int64. lia. Qed.
Lemma chk64_ok z : in_int64 z = true -> chk64 z = Ok z.
Proof. unfold chk64. now intros ->. Qed.
Lemma chk64_no z : in_int64 z = false -> chk64 z = UB.
Proof. unfold chk64. now intros ->. Qed.

(** number of halvings of a non-negative exponent *)
Lemma half_pow base e : 0 <= e ->
  base ^ e = (if Z.odd e then base else 1) * (base * base) ^ (e / 2).
Proof.
  intros He. pose proof (Z.div2_odd e) as D. rewrite Z.div2_div in D.
  assert (0 <= e / 2) by (apply Z.div_pos; lia).
  replace (base ^ e) with (base ^ (2 * (e / 2) + Z.b2z (Z.odd e))) by (f_equal; lia).
  clear D. rewrite Z.pow_add_r by (destruct (Z.odd e); cbn [Z.b2z]; lia).
  rewrite Z.pow_mul_r by lia. rewrite Z.pow_2_r.
  destruct (Z.odd e); cbn [Z.b2z]; rewrite ?Z.pow_1_r, ?Z.pow_0_r; ring.
Qed.

Lemma log2_half e : 2 <= e -> Z.log2 (e / 2) + 1 = Z.log2 e.
Proof.
  intros He. rewrite <- Z.div2_div. rewrite Z.div2_spec.
  rewrite Z.log2_shiftr by lia. pose proof (Z.log2_le_mono 2 e He). change (Z.log2 2) with 1 in H. lia.
Qed.
Lemma sq_half base e : 2 <= e ->
  base ^ (2 ^ (Z.log2 e + 1)) = (base * base) ^ (2 ^ (Z.log2 (e / 2) + 1)).
Proof.
  intros He. rewrite <- (log2_half e He).
  assert (0 <= Z.log2 (e / 2)) by apply Z.log2_nonneg.
  rewrite (Z.pow_add_r 2 (Z.log2 (e / 2) + 1) 1) by lia.
  change (2 ^ 1) with 2. rewrite (Z.mul_comm _ 2), Z.pow_mul_r; [|lia|apply Z.pow_nonneg; lia].
  now rewrite Z.pow_2_r.
Qed.
Lemma pow_ge1 b n : 1 <= b -> 1 <= n -> b <= b ^ n.
Proof.
  intros Hb Hn. rewrite <- (Z.pow_1_r b) at 1. apply Z.pow_le_mono_r; lia.
Qed.

Lemma bpow_loop_S k base exp result : bpow_loop (S k) base exp result =
  if exp =? 0 then Ok result
  else
    result <- (if Z.odd exp then chk64 (result * base) else Ok result) ;;
    base <- chk64 (base * base) ;;
    bpow_loop k base (Z.shiftr exp 1) result.
Proof. reflexivity. Qed.

Lemma bpow_loop_spec : forall fuel base exp result,
  0 <= exp < 2 ^ Z.of_nat fuel ->
  1 <= Z.abs result <= Z.abs base -> in_int64 result = true -> in_int64 base = true ->
  bpow_loop (S fuel) base exp result =
    if (exp =? 0) || (base ^ (2 ^ (Z.log2 exp + 1)) <=? int64_max)
    then Ok (result * base ^ exp) else UB.
Proof.
  induction fuel as [|k IH]; intros base exp result He Hr Rr Rb.
  - change (2 ^ Z.of_nat 0) with 1 in He. assert (exp = 0) by lia. subst exp. cbn.
    now rewrite Z.mul_1_r.
  - rewrite bpow_loop_S. destruct (Z.eqb_spec exp 0) as [->|Hn].
    { cbn [orb]. now rewrite Z.pow_0_r, Z.mul_1_r. }
    cbn [orb].
    assert (Hsq : Z.abs (base * base) = base * base) by (rewrite Z.abs_eq; [reflexivity|nia]).
    assert (Hrb : Z.abs (result * base) <= base * base) by (rewrite Z.abs_mul; nia).
    assert (Hb1 : 1 <= base * base) by nia.
    assert (Hbb : Z.abs base <= base * base) by nia.
    set (big := base ^ (2 ^ (Z.log2 exp + 1))).
    assert (Hbig : base * base <= big).
    { unfold big. destruct (Z_le_gt_dec 2 exp) as [H2|H2].
      - rewrite sq_half by assumption. apply pow_ge1; [assumption|].
        pose proof (Z.log2_nonneg (exp / 2)). change 1 with (2 ^ 0).
        apply Z.pow_le_mono_r; lia.
      - assert (exp = 1) by lia. subst exp. change (2 ^ (Z.log2 1 + 1)) with 2. rewrite Z.pow_2_r. lia. }
    rewrite Z.shiftr_div_pow2 by lia. change (2 ^ 1) with 2.
    assert (Hd : 0 <= exp / 2 < 2 ^ Z.of_nat k).
    { rewrite Nat2Z.inj_succ, Z.pow_succ_r in He by lia.
      split; [apply Z.div_pos; lia|apply Z.div_lt_upper_bound; lia]. }
    (* the recursive call, when the squaring is in range *)
    assert (Rec : forall r', 1 <= Z.abs r' <= base * base -> in_int64 r' = true ->
              in_int64 (base * base) = true ->
              bpow_loop (S k) (base * base) (exp / 2) r' =
              if big <=? int64_max then Ok (r' * (base * base) ^ (exp / 2)) else UB).
    { intros r' H1 H2 H3. rewrite IH; [|assumption|lia|assumption|assumption].
      destruct (Z_le_gt_dec 2 exp) as [H4|H4].
      - unfold big. rewrite (sq_half base exp H4).
        destruct (Z.eqb_spec (exp / 2) 0) as [E|E]; [|reflexivity].
        assert (1 <= exp / 2) by (apply Z.div_le_lower_bound; lia). lia.
      - assert (exp = 1) by lia. subst exp. change (1 / 2) with 0. cbn [Z.eqb orb].
        unfold big. change (2 ^ (Z.log2 1 + 1)) with 2. rewrite Z.pow_2_r.
        rewrite in64 in H3. destruct (Z.leb_spec (base * base) int64_max); [reflexivity|lia]. }
    rewrite (half_pow base exp) by lia.
    rewrite in64 in Rr, Rb. unfold int64_min, int64_max in Rr, Rb.
    destruct (in_int64 (base * base)) eqn:Esq.
    + rewrite (chk64_ok (base * base)) by assumption.
      assert (Esq2 := Esq). rewrite in64 in Esq2. unfold int64_min, int64_max in Esq2.
      destruct (Z.odd exp).
      * rewrite chk64_ok by (rewrite in64; unfold int64_min, int64_max; lia). cbn [bind].
        rewrite Rec; [|split; [rewrite Z.abs_mul; nia|assumption]|rewrite in64; unfold int64_min, int64_max; lia|reflexivity].
        now rewrite Z.mul_assoc.
      * cbn [bind]. rewrite Rec; [|lia|rewrite in64; unfold int64_min, int64_max; lia|reflexivity].
        now rewrite Z.mul_1_l.
    + assert (int64_max < base * base).
      { unfold in_int64 in Esq. unfold int64_min in Esq. lia. }
      destruct (Z.leb_spec big int64_max); [lia|].
      rewrite (chk64_no (base * base)) by assumption.
      destruct (Z.odd exp); [|reflexivity].
      unfold chk64. destruct (in_int64 (result * base)); reflexivity.
Qed.

Lemma bpow_loop_zero : forall fuel exp result,
  0 <= exp < 2 ^ Z.of_nat fuel -> in_int64 result = true ->
  bpow_loop (S fuel) 0 exp result = Ok (result * 0 ^ exp).
Proof.
  induction fuel as [|k IH]; intros exp result He Rr.
  - change (2 ^ Z.of_nat 0) with 1 in He. assert (exp = 0) by lia. subst exp. cbn.
    now rewrite Z.mul_1_r.
  - rewrite bpow_loop_S. destruct (Z.eqb_spec exp 0) as [->|Hn].
    { now rewrite Z.pow_0_r, Z.mul_1_r. }
    rewrite Z.mul_0_r. change (chk64 (0 * 0)) with (@Ok Z 0). change (chk64 0) with (@Ok Z 0).
    rewrite Z.shiftr_div_pow2 by lia. change (2 ^ 1) with 2.
    assert (Hd : 0 <= exp / 2 < 2 ^ Z.of_nat k).
    { rewrite Nat2Z.inj_succ, Z.pow_succ_r in He by lia.
      split; [apply Z.div_pos; lia|apply Z.div_lt_upper_bound; lia]. }
    rewrite (Z.pow_0_l exp) by lia. rewrite Z.mul_0_r.
    destruct (Z.odd exp) eqn:Eo; cbn [bind]; rewrite IH by (auto; reflexivity).
    + reflexivity.
    + destruct (Z.eq_dec (exp / 2) 0) as [E|E].
      * exfalso. assert (exp = 1) by (pose proof (Z.div_mod exp 2); pose proof (Z.mod_pos_bound exp 2); lia).
        subst exp. discriminate.
      * rewrite Z.pow_0_l by lia. now rewrite Z.mul_0_r.
Qed.

Lemma binaryPow_spec base exp : in_int64 base = true -> in_int32 exp = true -> 0 <= exp ->
  (pow_safe base exp -> binaryPow base exp = Ok (base ^ exp)) /\
  (~ pow_safe base exp -> binaryPow base exp = UB).
Proof.
  intros Hb He0 Hp. unfold pow_safe.
  assert (He : exp <= 2147483647) by (unfold in_int32, int32_max in He0; lia). clear He0.
  unfold binaryPow.
  destruct (Z.eqb_spec exp 0) as [->|N0]. { rewrite Z.pow_0_r. split; [reflexivity|tauto]. }
  destruct (Z.ltb_spec exp 0); [lia|].
  destruct (Z.eqb_spec base 1) as [->|N1]. { rewrite (Z.pow_1_l exp) by lia. split; [reflexivity|tauto]. }
  destruct (Z.eqb_spec base 2) as [->|N2].
  { rewrite Z.shiftl_mul_pow2 by lia.
    assert (E : 2 * 2 ^ (exp - 1) = 2 ^ exp).
    { rewrite <- Z.pow_succ_r by lia. f_equal. lia. }
    rewrite E. split.
    - intros HS. assert (exp <= 62) by lia. destruct (Z.leb_spec 64 (exp - 1)); [lia|].
      apply chk64_ok, in64. pose proof (Z.pow_nonneg 2 exp).
      assert (2 ^ exp <= 2 ^ 62) by (apply Z.pow_le_mono_r; lia).
      change (2 ^ 62) with 4611686018427387904 in *. unfold int64_min, int64_max. lia.
    - intros HS. assert (63 <= exp) by (destruct (Z_le_gt_dec exp 62); [exfalso; apply HS; lia|lia]).
      destruct (Z.leb_spec 64 (exp - 1)); [reflexivity|]. apply chk64_no.
      assert (2 ^ 63 <= 2 ^ exp) by (apply Z.pow_le_mono_r; lia).
      change (2 ^ 63) with 9223372036854775808 in *. unfold in_int64, int64_max. lia. }
  assert (Hexp : 0 <= exp < 2 ^ Z.of_nat 32) by (change (2 ^ Z.of_nat 32) with 4294967296; lia).
  destruct (Z.eq_dec base 0) as [->|Nb].
  { rewrite bpow_loop_zero by (auto; reflexivity). rewrite (Z.pow_0_l exp) by lia.
    split; [reflexivity|]. intros HS. exfalso. apply HS. right; right; right. split; [lia|].
    rewrite Z.pow_0_l; [unfold int64_max; lia|]. pose proof (Z.log2_nonneg exp).
    apply Z.pow_pos_nonneg; lia. }
  rewrite bpow_loop_spec; [|assumption|lia|reflexivity|assumption].
  rewrite Z.mul_1_l. destruct (Z.eqb_spec exp 0); [contradiction|]. cbn [orb].
  destruct (Z.leb_spec (base ^ (2 ^ (Z.log2 exp + 1))) int64_max); split; intros HS;
    try reflexivity; exfalso; lia.
Qed.

(** ** genericBinaryPow *)
Section Generic.
Context {A : Type} (mul : A -> A -> A).
Hypothesis mul_assoc : forall x y z, mul x (mul y z) = mul (mul x y) z.

Lemma nfold_SS x n : nfold mul x (S (S n)) = mul x (nfold mul x (S n)).
Proof. reflexivity. Qed.
Lemma nfold_add x a b : nfold mul x (S a + S b) = mul (nfold mul x (S a)) (nfold mul x (S b)).
Proof.
  induction a as [|a IH].
  - reflexivity.
  - change (S (S a) + S b)%nat with (S (S (a + S b))). rewrite nfold_SS.
    change (S (a + S b))%nat with (S a + S b)%nat. rewrite IH.
    rewrite nfold_SS. now rewrite mul_assoc.
Qed.
Lemma nfold_sq x n : nfold mul (mul x x) (S n) = nfold mul x (2 * S n).
Proof.
  induction n as [|n IH]; [reflexivity|].
  rewrite nfold_SS, IH. replace (2 * S (S n))%nat with (2 + S (2 * n + 1))%nat by lia.
  replace (2 * S n)%nat with (S (2 * n + 1)) by lia.
  rewrite (nfold_add x 1). reflexivity.
Qed.

Lemma gpow_loop_S k base exp result : gpow_loop mul (S k) base exp result =
  if exp =? 0 then Ok result
  else
    let result := if Z.rem exp 2 =? 1 then mul result base else result in
    gpow_loop mul k (mul base base) (Z.quot exp 2) result.
Proof. reflexivity. Qed.

Lemma gpow_loop_spec : forall fuel base exp result,
  0 <= exp < 2 ^ Z.of_nat fuel ->
  gpow_loop mul (S fuel) base exp result =
    Ok (if exp =? 0 then result else mul result (nfold mul base (Z.to_nat exp))).
Proof.
  induction fuel as [|k IH]; intros base exp result He.
  - change (2 ^ Z.of_nat 0) with 1 in He. assert (exp = 0) by lia. subst exp. reflexivity.
  - rewrite gpow_loop_S. destruct (Z.eqb_spec exp 0) as [->|Hn]; [reflexivity|].
    rewrite Z.quot_div_nonneg, Z.rem_mod_nonneg by lia.
    assert (Hd : 0 <= exp / 2 < 2 ^ Z.of_nat k).
    { rewrite Nat2Z.inj_succ, Z.pow_succ_r in He by lia.
      split; [apply Z.div_pos; lia|apply Z.div_lt_upper_bound; lia]. }
    cbv zeta.
    rewrite IH by assumption. f_equal.
    pose proof (Z.div_mod exp 2 ltac:(lia)) as D. pose proof (Z.mod_pos_bound exp 2 ltac:(lia)) as M.
    destruct (Z.eqb_spec (exp / 2) 0) as [E|E].
    + assert (exp mod 2 = 1) by lia. rewrite H. cbn [Z.eqb].
      assert (exp = 1) by lia. subst exp. reflexivity.
    + destruct (Z.to_nat (exp / 2)) as [|h] eqn:Eh; [lia|].
      rewrite nfold_sq.
      destruct (Z.eqb_spec (exp mod 2) 1) as [E1|E1].
      * replace (Z.to_nat exp) with (1 + S (2 * h + 1))%nat by lia.
        rewrite (nfold_add base 0). rewrite mul_assoc.
        replace (2 * S h)%nat with (S (2 * h + 1)) by lia. reflexivity.
      * replace (Z.to_nat exp) with (2 * S h)%nat by lia. reflexivity.
Qed.

Lemma gpow_body_spec base exp : 1 < exp -> exp < 2 ^ 63 ->
  gpow_loop mul 65 base (exp - 1) base = Ok (nfold mul base (Z.to_nat exp)).
Proof.
  intros H1 H2. rewrite gpow_loop_spec.
  2:{ change (2 ^ Z.of_nat 64) with (2 * 2 ^ 63). lia. }
  destruct (Z.eqb_spec (exp - 1) 0); [lia|]. f_equal.
  destruct (Z.to_nat (exp - 1)) as [|h] eqn:Eh; [lia|].
  replace (Z.to_nat exp) with (S (S h)) by lia. reflexivity.
Qed.
Lemma genericBinaryPow_spec base exp : exp < 2 ^ 63 ->
  genericBinaryPow mul base exp = if exp <=? 0 then Err else Ok (nfold mul base (Z.to_nat exp)).
Proof.
  intros H. unfold genericBinaryPow.
  destruct (Z.eqb_spec exp 1) as [->|]; [reflexivity|].
  destruct (Z.leb_spec exp 0); [reflexivity|]. apply gpow_body_spec; lia.
Qed.
Lemma genericBinaryPow1_spec one base exp : exp < 2 ^ 63 ->
  genericBinaryPow1 mul one base exp =
    if exp <? 0 then Err else if exp =? 0 then Ok one else Ok (nfold mul base (Z.to_nat exp)).
Proof.
  intros H. unfold genericBinaryPow1.
  destruct (Z.eqb_spec exp 0) as [->|]; [reflexivity|].
  destruct (Z.eqb_spec exp 1) as [->|]; [reflexivity|].
  destruct (Z.ltb_spec exp 0); [reflexivity|]. apply gpow_body_spec; lia.
Qed.
End Generic.

(** ** factorial, permutation *)
Lemma zfact_S n : zfact (S n) = Z.of_nat (S n) * zfact n.
Proof. reflexivity. Qed.
Lemma zfact_pos n : 1 <= zfact n.
Proof. induction n; [cbn; lia|]. rewrite zfact_S. nia. Qed.
Lemma zfact_ge n : Z.of_nat n <= zfact n.
Proof. destruct n; [cbn; lia|]. rewrite zfact_S. pose proof (zfact_pos n). nia. Qed.
Lemma zfact_mono a b : (a <= b)%nat -> zfact a <= zfact b.
Proof. induction 1; [lia|]. rewrite zfact_S. pose proof (zfact_pos m). nia. Qed.

Lemma chk_no t z : inr t z = false -> chk t z = UB.
Proof. unfold chk. now intros ->. Qed.

Lemma factorial_spec t n : inr t n = true ->
  factorial t n = if n <? 0 then Err else chk t (zfact (Z.to_nat n)).
Proof.
  intros Hn. unfold factorial. destruct (Z.ltb_spec n 0); [reflexivity|].
  destruct (imin_imax t) as [Hm Hpos].
  assert (G : forall k i, (1 <= i)%nat ->
    for_loop k (Z.of_nat (S i))
      (fun i fac => fac <- chk t (fac * i) ;; _ <- chk t (i + 1) ;; Ok fac) (zfact i)
    = if (k =? 0)%nat then Ok (zfact i) else chk t (zfact (i + k))).
  { induction k as [|k IH]; intros i Hi; [reflexivity|].
    cbn [for_loop Nat.eqb].
    assert (E : zfact i * Z.of_nat (S i) = zfact (S i)) by (rewrite zfact_S; ring).
    rewrite E.
    destruct (inr t (zfact (S i))) eqn:E1.
    - rewrite (chk_ok t (zfact (S i))) by assumption. cbn [bind].
      destruct (inr t (Z.of_nat (S i) + 1)) eqn:E2.
      + rewrite chk_ok by assumption. cbn [bind].
        replace (Z.of_nat (S i) + 1) with (Z.of_nat (S (S i))) by lia.
        rewrite IH by lia. destruct k as [|k].
        * cbn [Nat.eqb]. replace (i + 1)%nat with (S i) by lia. now rewrite chk_ok.
        * cbn [Nat.eqb]. f_equal. f_equal. lia.
      + (* impossible: (i+1)! >= i+2 for i >= 2; for i = 1, 3 is in range *)
        exfalso. rewrite inr_iff in E1.
        assert (imin t <= Z.of_nat (S i) + 1 <= imax t); [|rewrite <- inr_iff in H0; congruence].
        split; [lia|]. destruct i as [|[|i]]; [lia| |].
        * destruct t; cbn; unfold int32_max, int64_max; lia.
        * rewrite zfact_S in E1. pose proof (zfact_ge (S (S i))). nia.
    - rewrite chk_no by assumption. cbn [bind]. symmetry. apply chk_no.
      destruct (inr t (zfact (i + S k))) eqn:E3; [|reflexivity].
      rewrite inr_iff in E3. pose proof (zfact_mono (S i) (i + S k) ltac:(lia)).
      pose proof (zfact_pos (S i)).
      assert (inr t (zfact (S i)) = true) by (rewrite inr_iff; lia). congruence. }
  specialize (G (Z.to_nat (n - 1)) 1%nat (le_n 1)).
  change (Z.of_nat 2) with 2 in G. change (zfact 1) with 1 in G. rewrite G.
  destruct (Z.to_nat (n - 1)) as [|k] eqn:E; cbn [Nat.eqb].
  - assert (n = 0 \/ n = 1) as [-> | ->] by lia; destruct t; reflexivity.
  - f_equal. f_equal. lia.
Qed.

(** falling product n(n-1)...(n-r+1) through factorials *)
Lemma perm_loop_spec t : forall k n result, Z.of_nat k <= n -> n <= imax t -> 1 <= result ->
  inr t result = true ->
  exists p, 1 <= p /\ p * zfact (Z.to_nat n - k) = zfact (Z.to_nat n) /\
    perm_loop k t n result = chk t (result * p).
Proof.
  destruct (imin_imax t) as [Hm Hpos].
  induction k as [|k IH]; intros n result Hk Hn Hr Ri.
  - exists 1. split; [lia|]. rewrite Nat.sub_0_r. split; [lia|].
    cbn [perm_loop]. rewrite Z.mul_1_r. symmetry. now apply chk_ok.
  - cbn [perm_loop].
    destruct (inr t (result * n)) eqn:E1.
    + rewrite (chk_ok t (result * n)) by assumption. cbn [bind].
      rewrite chk_ok by (rewrite inr_iff; lia). cbn [bind].
      destruct (IH (n - 1) (result * n)) as (p & Hp & Ep & ->); [lia|lia|nia|assumption|].
      exists (n * p). split; [nia|]. split; [|f_equal; ring].
      replace (Z.to_nat (n - 1)) with (Z.to_nat n - 1)%nat in Ep by lia.
      replace (Z.to_nat n - S k)%nat with (Z.to_nat n - 1 - k)%nat by lia.
      rewrite <- Z.mul_assoc, Ep.
      destruct (Z.to_nat n) as [|m] eqn:Em; [lia|]. rewrite zfact_S.
      replace (S m - 1)%nat with m by lia. f_equal. lia.
    + rewrite (chk_no t (result * n)) by assumption. cbn [bind].
      (* some p exists; the product is still out of range *)
      assert (G : forall k n, Z.of_nat k <= n -> exists p, 1 <= p /\ p * zfact (Z.to_nat n - k) = zfact (Z.to_nat n)).
      { clear. induction k as [|k IH]; intros n Hk.
        - exists 1. rewrite Nat.sub_0_r. lia.
        - destruct (IH (n - 1)) as (p & Hp & Ep); [lia|]. exists (n * p). split; [nia|].
          replace (Z.to_nat (n - 1)) with (Z.to_nat n - 1)%nat in Ep by lia.
          replace (Z.to_nat n - S k)%nat with (Z.to_nat n - 1 - k)%nat by lia.
          rewrite <- Z.mul_assoc, Ep.
          destruct (Z.to_nat n) as [|m] eqn:Em; [lia|]. rewrite zfact_S.
          replace (S m - 1)%nat with m by lia. f_equal. lia. }
      destruct (G k (n - 1)) as (p & Hp & Ep); [lia|]. exists (n * p). split; [nia|].
      split.
      * replace (Z.to_nat (n - 1)) with (Z.to_nat n - 1)%nat in Ep by lia.
        replace (Z.to_nat n - S k)%nat with (Z.to_nat n - 1 - k)%nat by lia.
        rewrite <- Z.mul_assoc, Ep.
        destruct (Z.to_nat n) as [|m] eqn:Em; [lia|]. rewrite zfact_S.
        replace (S m - 1)%nat with m by lia. f_equal. lia.
      * symmetry. apply chk_no. destruct (inr t (result * (n * p))) eqn:E3; [|reflexivity].
        rewrite inr_iff in E3.
        assert (0 <= result * n) by nia.
        assert (result * n <= result * (n * p)).
        { rewrite Z.mul_assoc. rewrite <- (Z.mul_1_r (result * n)) at 1.
          apply Z.mul_le_mono_nonneg_l; lia. }
        assert (inr t (result * n) = true) by (rewrite inr_iff; lia). congruence.
Qed.

Lemma permutation_spec t n r : inr t n = true -> inr t r = true -> 0 <= n -> 1 <= r <= n ->
  exists p, p * zfact (Z.to_nat (n - r)) = zfact (Z.to_nat n) /\ permutation t n r = chk t p.
Proof.
  intros Hn Hr Pn Pr. unfold permutation.
  destruct (Z.ltb_spec n 0); [lia|]. destruct (Z.ltb_spec r 0); [lia|].
  destruct (Z.ltb_spec n r); [lia|]. cbn [orb].
  rewrite inr_iff in Hn, Hr.
  destruct (perm_loop_spec t (Z.to_nat (r - 1)) (n - 1) n) as (p & Hp & Ep & ->);
    [lia|lia|lia|now apply inr_iff|].
  exists (n * p). split; [|reflexivity].
  replace (Z.to_nat (n - 1) - Z.to_nat (r - 1))%nat with (Z.to_nat (n - r)) in Ep by lia.
  rewrite <- Z.mul_assoc, Ep. replace (Z.to_nat n) with (S (Z.to_nat (n - 1))) by lia.
  rewrite zfact_S. f_equal. lia.
Qed.
Lemma permutation_err t n r : n < 0 \/ r < 0 \/ n < r -> permutation t n r = Err.
Proof.
  intros H. unfold permutation.
  destruct ((n <? 0) || (r <? 0) || (n <? r)) eqn:E; [reflexivity|]. lia.
Qed.
Lemma permutation_0 t n : 0 <= n -> permutation t n 0 = Ok n.
Proof.
  intros H. unfold permutation. destruct (Z.ltb_spec n 0); [lia|]. reflexivity.
Qed.
