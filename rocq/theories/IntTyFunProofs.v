From Verif Require Import Base NumSpec IntTyModel IntTySpec IntTyProofs.
From Verif Require NumProofs NumPowProofs NumBinProofs.
Local Open Scope Z_scope.

(** ** compound assignments between values of one type *)
Lemma checked_dec t : checked t \/ wrapping t.
Proof. unfold wrapping, checked. destruct (sgn t); destruct (Z_lt_le_dec (bits t) 32); intuition (lia || congruence). Qed.
Lemma wrapping_cases t : wrapping t -> (sgn t = false /\ 32 <= bits t) \/ bits t < 32.
Proof. unfold wrapping, checked. destruct (sgn t); destruct (Z_lt_le_dec (bits t) 32); intuition (lia || congruence). Qed.
Lemma narrow_range t x : bits t < 32 -> inty t x -> -32768 <= x <= 65535 /\ (t <> u16 -> -32768 <= x <= 32767).
Proof.
  rewrite inty_iff. destruct t as [[] []]; unfold tmin, tmax; cbn; try lia; (split; [lia|intros N]); try lia.
  exfalso. apply N. reflexivity.
Qed.
Lemma narrow_int t x : bits t < 32 -> inty t x -> inty i32 x.
Proof. intros H1 H2. destruct (narrow_range t x H1 H2). rewrite inty_iff. cbn. lia. Qed.
Lemma int_range x : -2147483648 <= x <= 2147483647 -> inty i32 x.
Proof. rewrite inty_iff. cbn. lia. Qed.

Lemma op_exact (f : Z -> Z -> Z) t x y : inty t x -> inty t y -> inty t (f x y) ->
  opassign (fun c a b => arith c (f a b)) t t x y = Ok (f x y).
Proof.
  intros Hx Hy Hf. unfold opassign. rewrite common_self.
  destruct (Z_lt_le_dec (bits t) 32) as [N|N].
  - rewrite (promote_narrow t N). rewrite (conv_id i32 x), (conv_id i32 y) by (now apply (narrow_int t)).
    rewrite arith_ok by (now apply (narrow_int t)). cbn [bind]. now rewrite conv_id.
  - rewrite (promote_wide t N). rewrite (conv_id t x), (conv_id t y) by assumption.
    rewrite arith_ok by assumption. cbn [bind]. now rewrite conv_id.
Qed.
Lemma op_checked (f : Z -> Z -> Z) t x y : checked t -> inty t x -> inty t y ->
  opassign (fun c a b => arith c (f a b)) t t x y = if has t (f x y) then Ok (f x y) else UB.
Proof.
  intros [S W] Hx Hy. destruct (has t (f x y)) eqn:E.
  - apply op_exact; try assumption. now apply has_iff.
  - unfold opassign. rewrite common_self, (promote_wide t W), (conv_id t x), (conv_id t y) by assumption.
    rewrite arith_ub; [reflexivity|assumption|]. intros H. apply has_iff in H. congruence.
Qed.
Lemma op_wrap (f : Z -> Z -> Z) t x y : wrapping t -> inty t x -> inty t y ->
  (bits t < 32 -> inty i32 (f x y)) ->
  opassign (fun c a b => arith c (f a b)) t t x y = Ok (conv t (f x y)).
Proof.
  intros W Hx Hy Hf. unfold opassign. rewrite common_self.
  destruct (wrapping_cases t W) as [[S N]|N].
  - rewrite (promote_wide t N), (conv_id t x), (conv_id t y) by assumption.
    rewrite arith_unsigned by assumption. cbn [bind]. now rewrite conv_conv by lia.
  - rewrite (promote_narrow t N). rewrite (conv_id i32 x), (conv_id i32 y) by (now apply (narrow_int t)).
    rewrite arith_ok by auto. reflexivity.
Qed.
Lemma mul_exact t x y : inty t x -> inty t y -> inty t (x * y) -> mulassign t t x y = Ok (x * y).
Proof. apply (op_exact Z.mul). Qed.
Lemma mul_checked t x y : checked t -> inty t x -> inty t y ->
  mulassign t t x y = if has t (x * y) then Ok (x * y) else UB.
Proof. apply (op_checked Z.mul). Qed.
Lemma mul_wrap t x y : wrapping t -> inty t x -> inty t y -> (t = u16 -> x * y <= 2147483647) ->
  mulassign t t x y = Ok (conv t (x * y)).
Proof.
  intros W Hx Hy H. apply (op_wrap Z.mul); try assumption. intros N.
  apply int_range. destruct (narrow_range t x N Hx) as [X1 X2]. destruct (narrow_range t y N Hy) as [Y1 Y2].
  assert (D : {t = u16} + {t <> u16}) by (destruct t as [[] []]; (left; reflexivity) || (right; discriminate)).
  destruct D as [E|E].
  - specialize (H E). split; [|lia]. subst t. rewrite inty_iff in Hx, Hy. cbn in Hx, Hy. nia.
  - specialize (X2 E). specialize (Y2 E). nia.
Qed.
Lemma add_checked t x y : checked t -> inty t x -> inty t y ->
  addassign t t x y = if has t (x + y) then Ok (x + y) else UB.
Proof. apply (op_checked Z.add). Qed.
Lemma add_wrap t x y : wrapping t -> inty t x -> inty t y -> addassign t t x y = Ok (conv t (x + y)).
Proof.
  intros W Hx Hy. apply (op_wrap Z.add); try assumption. intros N. apply int_range.
  destruct (narrow_range t x N Hx). destruct (narrow_range t y N Hy). lia.
Qed.
(** [i++] and [n--] *)
Lemma step_int (f : Z -> Z -> Z) t x : (f = Z.add \/ f = Z.sub) -> inty t x ->
  (wrapping t \/ inty t (f x 1)) ->
  opassign (fun c a b => arith c (f a b)) t i32 x 1 = Ok (conv t (f x 1)).
Proof.
  intros Hf Hx H. unfold opassign. destruct (Z_lt_le_dec (bits t) 32) as [N|N].
  - assert (Ec : common t i32 = i32) by (destruct t as [[] []]; cbn in N; try lia; reflexivity).
    rewrite Ec. rewrite (conv_id i32 x) by (now apply (narrow_int t)).
    change (conv i32 1) with 1. rewrite arith_ok; [reflexivity|]. apply int_range.
    destruct (narrow_range t x N Hx). destruct Hf as [-> | ->]; lia.
  - rewrite (common_int_same t N), (conv_id t x), (conv_id t 1) by (try assumption; apply inty_small; lia).
    destruct H as [W|H].
    + destruct (wrapping_cases t W) as [[S _]|]; [|lia]. rewrite arith_unsigned by assumption. cbn [bind].
      now rewrite conv_conv by lia.
    + rewrite arith_ok by assumption. reflexivity.
Qed.
Lemma incr_ok t x : inty t x -> (wrapping t \/ inty t (x + 1)) -> addassign t i32 x 1 = Ok (conv t (x + 1)).
Proof. intros. apply (step_int Z.add); auto. Qed.
Lemma decr_ok t x : inty t x -> (wrapping t \/ inty t (x - 1)) -> subassign t i32 x 1 = Ok (conv t (x - 1)).
Proof. intros. apply (step_int Z.sub); auto. Qed.

Lemma tmax_ge t : 127 <= tmax t.
Proof. rewrite tmax_eq. destruct (modulus t). destruct (sgn t); lia. Qed.
Lemma tmin_le t : tmin t <= 0.
Proof. rewrite tmin_eq. destruct (modulus t). destruct (sgn t); lia. Qed.
Lemma inty_pos t x : 0 <= x <= tmax t -> inty t x.
Proof. pose proof (tmin_le t). rewrite inty_iff. lia. Qed.

(** ** factorial *)
Lemma zfact_succ i : 1 <= i -> zfact (Z.to_nat i) = i * zfact (Z.to_nat (i - 1)).
Proof.
  intros H. replace (Z.to_nat i) with (S (Z.to_nat (i - 1))) by lia. cbn [zfact].
  now replace (Z.of_nat (S (Z.to_nat (i - 1)))) with i by lia.
Qed.
Lemma zfact_ge1 n : 1 <= zfact n.
Proof. induction n as [|n IH]; [cbn; lia|]. cbn [zfact]. nia. Qed.
Lemma zfact_mono a b : (a <= b)%nat -> zfact a <= zfact b.
Proof.
  induction 1 as [|m _ IH]; [lia|]. cbn [zfact]. pose proof (zfact_ge1 m). nia.
Qed.
Lemma fact_18 m : (18 <= m)%nat -> (2 ^ 16 | zfact m).
Proof.
  induction 1 as [|m _ IH].
  - exists 97692469875. vm_compute. reflexivity.
  - cbn [zfact]. now apply Z.divide_mul_r.
Qed.

(** what the loop keeps for [uint16_t]: after 18 the product is 0 *)
Definition fact_inv (t : ty) (i fac : Z) : Prop :=
  inty t i /\ inty t fac /\
  (t = u16 -> fac = 0 \/ (2 <= i <= 18 /\ fac = conv t (zfact (Z.to_nat (i - 1))))).
Lemma fact_step t i fac : wrapping t -> fact_inv t i fac ->
  mulassign t t fac i = Ok (conv t (fac * i)) /\ addassign t i32 i 1 = Ok (conv t (i + 1)) /\
  fact_inv t (conv t (i + 1)) (conv t (fac * i)).
Proof.
  intros W (H1 & H2 & H3). split; [|split].
  - apply mul_wrap; try assumption. intros E. specialize (H3 E). subst t.
    rewrite inty_iff in H2. cbn in H2. destruct H3 as [->|[Hi _]]; nia.
  - apply incr_ok; auto.
  - split; [apply conv_inty|]. split; [apply conv_inty|]. intros E. specialize (H3 E).
    destruct H3 as [->|[Hi Ef]]; [left; apply conv_0|].
    assert (Ec : conv t (fac * i) = conv t (zfact (Z.to_nat i))).
    { rewrite Ef, conv_mul. f_equal. rewrite (zfact_succ i) by lia. ring. }
    destruct (Z.eq_dec i 18) as [->|Hn].
    + left. rewrite Ec. subst t. vm_compute. reflexivity.
    + right. rewrite Ec. rewrite (conv_id t (i + 1)) by (apply inty_pos; pose proof (tmax_ge t); lia).
      split; [lia|]. now replace (i + 1 - 1) with i by lia.
Qed.

Lemma fact_loop_wrap t n : wrapping t -> 0 <= n < tmax t -> forall m i k,
  Z.of_nat m = n + 1 - i -> 2 <= i -> (m < k)%nat ->
  fact_loop k t n i (conv t (zfact (Z.to_nat (i - 1)))) = Ok (conv t (zfact (Z.to_nat n))).
Proof.
  intros W Hn. pose proof (tmax_ge t) as TM.
  assert (FI : forall i, 2 <= i <= n + 1 -> fact_inv t i (conv t (zfact (Z.to_nat (i - 1))))).
  { intros i Hi. split; [apply inty_pos; lia|]. split; [apply conv_inty|]. intros E.
    destruct (Z_le_gt_dec i 18) as [L|L]; [right; split; [lia|reflexivity]|left].
    transitivity (conv t 0); [|apply conv_0]. apply conv_eq. rewrite Z.sub_0_r. subst t.
    apply fact_18. lia. }
  induction m as [|m IH]; intros i k Hm Hi Hk; (destruct k as [|k]; [lia|]); cbn [fact_loop].
  - destruct (Z.leb_spec i n); [lia|]. do 3 f_equal. lia.
  - destruct (Z.leb_spec i n); [|lia].
    destruct (fact_step t i _ W (FI i ltac:(lia))) as (E1 & E2 & _).
    rewrite E1. cbn [bind]. rewrite E2. cbn [bind].
    rewrite (conv_id t (i + 1)) by (apply inty_pos; lia). rewrite conv_mul.
    replace (zfact (Z.to_nat (i - 1)) * i) with (zfact (Z.to_nat (i + 1 - 1))).
    2:{ replace (i + 1 - 1) with i by lia. rewrite (zfact_succ i) by lia. ring. }
    apply IH; lia.
Qed.
Lemma factorial_wrap t n : wrapping t -> 0 <= n < tmax t ->
  converges (fun k => factorial k t n) (Ok (conv t (zfact (Z.to_nat n)))).
Proof.
  intros W Hn. exists (S (Z.to_nat (n + 1))). intros k Hk. unfold factorial.
  destruct (Z.ltb_spec n 0); [lia|].
  assert (E1 : conv t 1 = 1) by (apply conv_id, inty_small; lia).
  destruct (Z_le_gt_dec n 1) as [L|L].
  - destruct k as [|k]; [lia|]. cbn [fact_loop]. destruct (Z.leb_spec 2 n); [lia|].
    assert (n = 0 \/ n = 1) as [->| ->] by lia; symmetry;
      f_equal; exact E1.
  - rewrite <- E1. change 1 with (zfact (Z.to_nat (2 - 1))) at 1.
    apply (fact_loop_wrap t n W Hn (Z.to_nat (n - 1))); lia.
Qed.
Lemma factorial_diverges t : wrapping t -> diverges (fun k => factorial k t (tmax t)).
Proof.
  intros W k. unfold factorial. pose proof (tmax_ge t). destruct (Z.ltb_spec (tmax t) 0); [lia|].
  assert (L : forall k i fac, fact_inv t i fac -> fact_loop k t (tmax t) i fac = Fuel).
  { induction k0 as [|k0 IH]; intros i fac FI; [reflexivity|]. cbn [fact_loop].
    pose proof FI as (Hi & _). rewrite inty_iff in Hi.
    destruct (Z.leb_spec i (tmax t)); [|lia].
    destruct (fact_step t i fac W FI) as (E1 & E2 & E3). rewrite E1. cbn [bind]. rewrite E2. cbn [bind].
    now apply IH. }
  apply L. split; [apply inty_small; lia|]. split; [apply inty_small; lia|]. intros ->. right.
  split; [lia|]. reflexivity.
Qed.
Lemma fact_loop_checked t n : checked t -> inty t n -> forall m i k,
  Z.of_nat m = n + 1 - i -> 2 <= i -> (m < k)%nat -> zfact (Z.to_nat (i - 1)) <= tmax t ->
  fact_loop k t n i (zfact (Z.to_nat (i - 1))) =
    if zfact (Z.to_nat n) <=? tmax t then Ok (zfact (Z.to_nat n)) else UB.
Proof.
  intros C Hn. pose proof (tmax_ge t) as TM.
  induction m as [|m IH]; intros i k Hm Hi Hk Hf; (destruct k as [|k]; [lia|]); cbn [fact_loop].
  - destruct (Z.leb_spec i n); [lia|]. replace (i - 1) with n in * by lia.
    destruct (Z.leb_spec (zfact (Z.to_nat n)) (tmax t)); [reflexivity|lia].
  - destruct (Z.leb_spec i n); [|lia].
    pose proof (zfact_ge1 (Z.to_nat (i - 1))). rewrite inty_iff in Hn.
    rewrite mul_checked; [|assumption|apply inty_pos; lia|apply inty_pos; lia].
    pose proof (zfact_succ i ltac:(lia)) as FS. rewrite (Z.mul_comm _ i), <- FS.
    destruct (has t (zfact (Z.to_nat i))) eqn:E.
    + apply has_iff in E. rewrite inty_iff in E.
      assert (i + 1 <= tmax t).
      { destruct (Z.eq_dec i 2); [lia|]. pose proof (zfact_mono 2 (Z.to_nat (i - 1)) ltac:(lia)) as M.
        change (zfact 2) with 2 in M. nia. }
      cbn [bind]. rewrite incr_ok; [|apply inty_pos; lia|right; apply inty_pos; lia]. cbn [bind].
      rewrite (conv_id t (i + 1)) by (apply inty_pos; lia).
      replace (Z.to_nat i) with (Z.to_nat (i + 1 - 1)) by (f_equal; lia).
      apply IH; try lia. replace (i + 1 - 1) with i by lia. lia.
    + cbn [bind]. assert (~ zfact (Z.to_nat i) <= tmax t).
      { intros X. assert (has t (zfact (Z.to_nat i)) = true); [|congruence]. apply has_iff, inty_pos.
        pose proof (zfact_ge1 (Z.to_nat i)). lia. }
      pose proof (zfact_mono (Z.to_nat i) (Z.to_nat n) ltac:(lia)).
      destruct (Z.leb_spec (zfact (Z.to_nat n)) (tmax t)); [lia|reflexivity].
Qed.
Lemma factorial_checked t n : checked t -> inty t n -> 0 <= n ->
  converges (fun k => factorial k t n) (if zfact (Z.to_nat n) <=? tmax t then Ok (zfact (Z.to_nat n)) else UB).
Proof.
  intros C I Hn. exists (S (Z.to_nat (n + 1))). intros k Hk. unfold factorial. pose proof (tmax_ge t).
  destruct (Z.ltb_spec n 0); [lia|].
  destruct (Z_le_gt_dec n 1) as [L|L].
  - destruct k as [|k]; [lia|]. cbn [fact_loop]. destruct (Z.leb_spec 2 n); [lia|].
    assert (n = 0 \/ n = 1) as [->| ->] by lia;
      [change (zfact (Z.to_nat 0)) with 1|change (zfact (Z.to_nat 1)) with 1]; (destruct (Z.leb_spec 1 (tmax t)); [reflexivity|lia]).
  - change 1 with (zfact (Z.to_nat (2 - 1))) at 1.
    apply (fact_loop_checked t n C I (Z.to_nat (n - 1))); try lia.
    change (zfact (Z.to_nat (2 - 1))) with 1. lia.
Qed.

(** ** permutation *)
Lemma falling_pos n k : Z.of_nat k <= n -> 1 <= falling n k.
Proof.
  revert n; induction k as [|k IH]; intros n H; [cbn; lia|]. cbn [falling].
  specialize (IH (n - 1) ltac:(lia)). nia.
Qed.
Lemma perm_loop_spec t : forall k n result p,
  0 <= result <= tmax t -> Z.of_nat k <= n <= tmax t -> (k = 0%nat \/ 1 <= result) -> p = result * falling n k ->
  (checked t -> perm_loop k t n result = if p <=? tmax t then Ok p else UB) /\
  (p <= tmax t -> perm_loop k t n result = Ok p).
Proof.
  induction k as [|k IH]; intros n result p Hr Hn H1 ->.
  - cbn [perm_loop falling]. rewrite Z.mul_1_r. destruct (Z.leb_spec result (tmax t)); [|lia]. now split.
  - cbn [perm_loop falling]. destruct H1 as [|H1]; [discriminate|].
    pose proof (falling_pos (n - 1) k ltac:(lia)) as FP.
    assert (LE : result * n <= result * (n * falling (n - 1) k)).
    { apply Z.mul_le_mono_nonneg_l; [lia|]. clear - FP Hn. nia. }
    assert (P0 : 1 <= result * n) by (clear - H1 Hn; nia).
    assert (Hd : subassign t i32 n 1 = Ok (n - 1)).
    { rewrite decr_ok; [|apply inty_pos; lia|right; apply inty_pos; lia].
      rewrite conv_id by (apply inty_pos; lia). reflexivity. }
    assert (IH' : result * n <= tmax t ->
      (checked t -> perm_loop k t (n - 1) (result * n) = if result * (n * falling (n - 1) k) <=? tmax t then Ok (result * (n * falling (n - 1) k)) else UB) /\
      (result * (n * falling (n - 1) k) <= tmax t -> perm_loop k t (n - 1) (result * n) = Ok (result * (n * falling (n - 1) k)))).
    { intros L. apply IH; [lia|lia|right; lia|ring]. }
    split.
    + intros C. rewrite mul_checked; [|assumption|apply inty_pos; lia|apply inty_pos; lia].
      destruct (has t (result * n)) eqn:E.
      * apply has_iff in E. rewrite inty_iff in E. cbn [bind]. rewrite Hd. cbn [bind]. now apply IH'.
      * cbn [bind]. assert (~ result * n <= tmax t).
        { intros X. assert (has t (result * n) = true); [|congruence]. apply has_iff, inty_pos. lia. }
        destruct (Z.leb_spec (result * (n * falling (n - 1) k)) (tmax t)); [lia|reflexivity].
    + intros L. rewrite mul_exact; [|apply inty_pos; lia|apply inty_pos; lia|apply inty_pos; lia].
      cbn [bind]. rewrite Hd. cbn [bind]. apply IH'; lia.
Qed.
Lemma perm_loop_wrap t : wrapping t -> t <> u16 -> forall k n p,
  Z.of_nat k <= n <= tmax t -> perm_loop k t n (conv t p) = Ok (conv t (p * falling n k)).
Proof.
  intros W N. induction k as [|k IH]; intros n p Hn.
  - cbn [perm_loop falling]. now rewrite Z.mul_1_r.
  - cbn [perm_loop falling].
    rewrite mul_wrap; [|assumption|apply conv_inty|apply inty_pos; lia|congruence]. cbn [bind].
    rewrite decr_ok; [|apply inty_pos; lia|now left]. cbn [bind].
    rewrite (conv_id t (n - 1)) by (apply inty_pos; lia). rewrite conv_mul.
    rewrite (IH (n - 1) (p * n)) by lia. f_equal. f_equal. ring.
Qed.
Lemma permutation_guard t n r : 0 <= r <= n -> n <= tmax t ->
  permutation t n r = (n' <- subassign t i32 n 1 ;; perm_loop (Z.to_nat (r - 1)) t n' n).
Proof.
  intros. unfold permutation. destruct (Z.ltb_spec n 0); [lia|]. destruct (Z.ltb_spec r 0); [lia|].
  destruct (Z.ltb_spec n r); [lia|]. reflexivity.
Qed.
Lemma falling_first n r : 1 <= r -> falling n (Z.to_nat r) = n * falling (n - 1) (Z.to_nat (r - 1)).
Proof. intros. replace (Z.to_nat r) with (S (Z.to_nat (r - 1))) by lia. reflexivity. Qed.
Lemma permutation_fits t n r : 1 <= r <= n -> n <= tmax t ->
  (checked t -> permutation t n r = if falling n (Z.to_nat r) <=? tmax t then Ok (falling n (Z.to_nat r)) else UB) /\
  (falling n (Z.to_nat r) <= tmax t -> permutation t n r = Ok (falling n (Z.to_nat r))).
Proof.
  intros Hr Hn. rewrite permutation_guard by lia.
  rewrite decr_ok; [|apply inty_pos; lia|right; apply inty_pos; lia]. cbn [bind].
  rewrite (conv_id t (n - 1)) by (apply inty_pos; lia). rewrite falling_first by lia.
  apply perm_loop_spec; [lia|lia|right; lia|reflexivity].
Qed.
Lemma permutation_wrap t n r : wrapping t -> t <> u16 -> 1 <= r <= n -> n <= tmax t ->
  permutation t n r = Ok (conv t (falling n (Z.to_nat r))).
Proof.
  intros W N Hr Hn. rewrite permutation_guard by lia.
  rewrite decr_ok; [|apply inty_pos; lia|right; apply inty_pos; lia]. cbn [bind].
  rewrite (conv_id t (n - 1)) by (apply inty_pos; lia). rewrite falling_first by lia.
  rewrite <- (conv_id t n) at 2 by (apply inty_pos; lia).
  apply perm_loop_wrap; [assumption|assumption|lia].
Qed.
Lemma permutation_zero t n : inty t n -> 0 <= n -> permutation t n 0 = Ok n.
Proof.
  intros I H. rewrite inty_iff in I. rewrite (permutation_guard t n 0) by lia.
  rewrite decr_ok; [reflexivity|apply inty_pos; lia|].
  destruct (checked_dec t) as [[S _]|W]; [right|now left].
  apply inty_iff. rewrite tmin_eq, S in *. destruct (modulus t). lia.
Qed.
Lemma falling_fact n k : (k <= n)%nat -> falling (Z.of_nat n) k * zfact (n - k) = zfact n.
Proof.
  revert n; induction k as [|k IH]; intros n H; [cbn [falling]; rewrite Nat.sub_0_r; ring|].
  destruct n as [|n]; [lia|]. cbn [falling]. replace (Z.of_nat (S n) - 1) with (Z.of_nat n) by lia.
  cbn [Nat.sub]. rewrite <- Z.mul_assoc, IH by lia. reflexivity.
Qed.

(** ** genericBinaryPow *)
Lemma gpow_wrap t : wrapping t -> t <> u16 -> forall fuel base exp result,
  0 <= exp < 2 ^ Z.of_nat fuel ->
  gpow_loop (S fuel) t (conv t base) exp (conv t result) = Ok (conv t (result * base ^ exp)).
Proof.
  intros W N. induction fuel as [|k IH]; intros base exp result He.
  - change (2 ^ Z.of_nat 0) with 1 in He. assert (exp = 0) by lia. subst exp. cbn [gpow_loop Z.eqb].
    now rewrite Z.mul_1_r.
  - change (gpow_loop (S (S k)) t (conv t base) exp (conv t result)) with
      (if exp =? 0 then Ok (conv t result) else
        result0 <- (if Z.rem exp 2 =? 1 then mulassign t t (conv t result) (conv t base) else Ok (conv t result)) ;;
        base0 <- mulassign t t (conv t base) (conv t base) ;;
        gpow_loop (S k) t base0 (Z.quot exp 2) result0).
    destruct (Z.eqb_spec exp 0) as [->|Hn]; [now rewrite Z.mul_1_r|].
    rewrite !mul_wrap; try (apply conv_inty || assumption || congruence).
    assert (CB : forall x y, conv t (conv t x * conv t y) = conv t (x * y)).
    { intros. rewrite conv_mul, Z.mul_comm, conv_mul. f_equal. ring. }
    rewrite !CB. rewrite Z.quot_div_nonneg, Z.rem_mod_nonneg by lia.
    rewrite (NumPowProofs.half_pow base exp) by lia.
    assert (Hd : 0 <= exp / 2 < 2 ^ Z.of_nat k).
    { rewrite Nat2Z.inj_succ, Z.pow_succ_r in He by lia.
      split; [apply Z.div_pos; lia|apply Z.div_lt_upper_bound; lia]. }
    rewrite Zmod_odd. destruct (Z.odd exp); cbn [Z.eqb Pos.eqb bind].
    + rewrite (IH (base * base) (exp / 2) (result * base) Hd). f_equal. f_equal. ring.
    + rewrite (IH (base * base) (exp / 2) result Hd). f_equal. f_equal. ring.
Qed.

Section CheckedPow.
Variable t : ty.
Hypothesis C : checked t.
Lemma gpow_checked : forall fuel base exp result,
  0 <= exp < 2 ^ Z.of_nat fuel -> 1 <= Z.abs result <= Z.abs base -> inty t result -> inty t base ->
  gpow_loop (S fuel) t base exp result =
    if (exp =? 0) || (base ^ (2 ^ (Z.log2 exp + 1)) <=? tmax t) then Ok (result * base ^ exp) else UB.
Proof.
  induction fuel as [|k IH]; intros base exp result He Hr Rr Rb.
  - change (2 ^ Z.of_nat 0) with 1 in He. assert (exp = 0) by lia. subst exp. cbn.
    now rewrite Z.mul_1_r.
  - change (gpow_loop (S (S k)) t base exp result) with
      (if exp =? 0 then Ok result else
        result0 <- (if Z.rem exp 2 =? 1 then mulassign t t result base else Ok result) ;;
        base0 <- mulassign t t base base ;;
        gpow_loop (S k) t base0 (Z.quot exp 2) result0).
    destruct (Z.eqb_spec exp 0) as [->|Hn].
    { cbn [orb]. now rewrite Z.pow_0_r, Z.mul_1_r. }
    cbn [orb].
    assert (Hrb : Z.abs (result * base) <= base * base) by (rewrite Z.abs_mul; nia).
    assert (Hb1 : 1 <= base * base) by nia.
    assert (Hbb : Z.abs base <= base * base) by nia.
    set (big := base ^ (2 ^ (Z.log2 exp + 1))).
    assert (Hbig : base * base <= big).
    { unfold big. destruct (Z_le_gt_dec 2 exp) as [H2|H2].
      - rewrite NumPowProofs.sq_half by assumption. apply NumPowProofs.pow_ge1; [assumption|].
        pose proof (Z.log2_nonneg (exp / 2)). change 1 with (2 ^ 0).
        apply Z.pow_le_mono_r; lia.
      - assert (exp = 1) by lia. subst exp. change (2 ^ (Z.log2 1 + 1)) with 2. rewrite Z.pow_2_r. lia. }
    rewrite Z.quot_div_nonneg, Z.rem_mod_nonneg by lia.
    assert (Hd : 0 <= exp / 2 < 2 ^ Z.of_nat k).
    { rewrite Nat2Z.inj_succ, Z.pow_succ_r in He by lia.
      split; [apply Z.div_pos; lia|apply Z.div_lt_upper_bound; lia]. }
    destruct C as [Sg _]. destruct (modulus t) as [_ Hh].
    assert (TB : forall x, inty t x <-> - half t <= x <= half t - 1) by (intros x; now rewrite inty_iff, tmin_eq, tmax_eq, Sg).
    assert (TX : tmax t = half t - 1) by (now rewrite tmax_eq, Sg).
    assert (Rec : forall r', 1 <= Z.abs r' <= base * base -> inty t r' -> inty t (base * base) ->
              gpow_loop (S k) t (base * base) (exp / 2) r' =
              if big <=? tmax t then Ok (r' * (base * base) ^ (exp / 2)) else UB).
    { intros r' H1 H2 H3. rewrite IH; [|assumption|lia|assumption|assumption].
      destruct (Z_le_gt_dec 2 exp) as [H4|H4].
      - unfold big. rewrite (NumPowProofs.sq_half base exp H4).
        destruct (Z.eqb_spec (exp / 2) 0) as [E|E]; [|reflexivity].
        assert (1 <= exp / 2) by (apply Z.div_le_lower_bound; lia). lia.
      - assert (exp = 1) by lia. subst exp. change (1 / 2) with 0. cbn [Z.eqb orb].
        unfold big. change (2 ^ (Z.log2 1 + 1)) with 2. rewrite Z.pow_2_r.
        rewrite TB in H3. destruct (Z.leb_spec (base * base) (tmax t)); [reflexivity|lia]. }
    rewrite (NumPowProofs.half_pow base exp) by lia. rewrite Zmod_odd.
    rewrite !mul_checked by assumption.
    destruct (has t (base * base)) eqn:Esq.
    + apply has_iff in Esq. pose proof Esq as Esq2. rewrite TB in Esq2.
      assert (IR : inty t (result * base)) by (rewrite TB; lia).
      rewrite (proj2 (has_iff t (result * base)) IR).
      destruct (Z.odd exp); cbn [Z.eqb Pos.eqb bind].
      * rewrite Rec; [|split; [rewrite Z.abs_mul; nia|assumption]|assumption|assumption].
        now rewrite Z.mul_assoc.
      * rewrite Rec; [|lia|assumption|assumption].
        now rewrite Z.mul_1_l.
    + assert (~ inty t (base * base)) by (intros X; apply has_iff in X; congruence).
      rewrite TB in H. destruct (Z.leb_spec big (tmax t)); [lia|].
      destruct (Z.odd exp); cbn [Z.eqb Pos.eqb bind]; [|reflexivity].
      destruct (has t (result * base)); reflexivity.
Qed.
Lemma gpow_zero : forall fuel exp, 0 <= exp < 2 ^ Z.of_nat fuel ->
  gpow_loop (S fuel) t 0 exp 0 = Ok 0.
Proof.
  induction fuel as [|k IH]; intros exp He.
  - change (2 ^ Z.of_nat 0) with 1 in He. assert (exp = 0) by lia. subst exp. reflexivity.
  - change (gpow_loop (S (S k)) t 0 exp 0) with
      (if exp =? 0 then Ok 0 else
        result0 <- (if Z.rem exp 2 =? 1 then mulassign t t 0 0 else Ok 0) ;;
        base0 <- mulassign t t 0 0 ;;
        gpow_loop (S k) t base0 (Z.quot exp 2) result0).
    destruct (Z.eqb_spec exp 0); [reflexivity|].
    rewrite mul_exact by apply inty_0. change (0 * 0) with 0.
    rewrite Z.quot_div_nonneg by lia.
    assert (Hd : 0 <= exp / 2 < 2 ^ Z.of_nat k).
    { rewrite Nat2Z.inj_succ, Z.pow_succ_r in He by lia.
      split; [apply Z.div_pos; lia|apply Z.div_lt_upper_bound; lia]. }
    destruct (Z.rem exp 2 =? 1); cbn [bind]; now apply IH.
Qed.
End CheckedPow.
