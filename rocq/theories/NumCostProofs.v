From Verif Require Import Base NumModel NumCostModel NumCostSpec.
Local Open Scope Z_scope.

Lemma gcd_loop_erase t fuel : forall a b, omap fst (gcd_loopC fuel t a b) = gcd_loop fuel t a b.
Proof.
  induction fuel as [|f IH]; intros a b; [reflexivity|]. cbn [gcd_loopC gcd_loop].
  destruct (imod t a b) as [r| | |]; try reflexivity. cbn [bind]. destruct (r =? 0); [reflexivity|].
  destruct (imod t b r) as [s| | |]; try reflexivity. cbn [bind]. destruct (s =? 0); [reflexivity|].
  rewrite <- IH. destruct (gcd_loopC f t r s) as [[? ?]| | |]; reflexivity.
Qed.
Lemma gcd_erase t a b : omap fst (gcdC t a b) = gcd t a b.
Proof.
  unfold gcdC, gcd. destruct (negb (b =? 0)).
  - rewrite <- gcd_loop_erase. destruct (gcd_loopC 65 t a b) as [[[x y] n]| | |]; try reflexivity. cbn [bind omap fst].
    destruct (chk t (x + y)); reflexivity.
  - cbn [bind]. destruct (chk t (a + b)); reflexivity.
Qed.
Lemma bpow_loop_erase fuel : forall b e r, omap fst (bpow_loopC fuel b e r) = bpow_loop fuel b e r.
Proof.
  induction fuel as [|f IH]; intros b e r; [reflexivity|]. cbn [bpow_loopC bpow_loop]. destruct (e =? 0); [reflexivity|].
  assert (G : forall r' m, omap fst (base <- chk64 (b * b) ;; ' (x, n) <- bpow_loopC f base (Z.shiftr e 1) r' ;; Ok (x, m + 1 + n)) =
    (base <- chk64 (b * b) ;; bpow_loop f base (Z.shiftr e 1) r')).
  { intros r' m. destruct (chk64 (b * b)) as [b2| | |]; try reflexivity. cbn [bind]. rewrite <- IH.
    destruct (bpow_loopC f b2 (Z.shiftr e 1) r') as [[? ?]| | |]; reflexivity. }
  destruct (Z.odd e); [|apply G]. destruct (chk64 (r * b)) as [r2| | |]; try reflexivity. cbn [bind]. apply G.
Qed.
Lemma binaryPow_erase b e : omap fst (binaryPowC b e) = binaryPow b e.
Proof.
  unfold binaryPowC, binaryPow. destruct (e =? 0); [reflexivity|]. destruct (e <? 0); [reflexivity|].
  destruct (b =? 1); [reflexivity|]. destruct (b =? 2); [|apply bpow_loop_erase].
  destruct (64 <=? e - 1); [reflexivity|]. destruct (chk64 _); reflexivity.
Qed.
Lemma gpow_loop_erase {A} (mul : A -> A -> A) fuel : forall b e r, omap fst (gpow_loopC mul fuel b e r) = gpow_loop mul fuel b e r.
Proof.
  induction fuel as [|f IH]; intros b e r; [reflexivity|]. cbn [gpow_loopC gpow_loop]. destruct (e =? 0); [reflexivity|].
  cbv zeta. rewrite <- IH. destruct (Z.rem e 2 =? 1); destruct (gpow_loopC mul f _ _ _) as [[? ?]| | |]; reflexivity.
Qed.
Lemma generic_erase {A} (mul : A -> A -> A) one b e :
  omap fst (genericBinaryPow1C mul one b e) = genericBinaryPow1 mul one b e /\
  omap fst (genericBinaryPowC mul b e) = genericBinaryPow mul b e.
Proof.
  unfold genericBinaryPow1C, genericBinaryPow1, genericBinaryPowC, genericBinaryPow. split.
  - destruct (e =? 0); [reflexivity|]. destruct (e =? 1); [reflexivity|]. destruct (e <? 0); [reflexivity|]. apply gpow_loop_erase.
  - destruct (e =? 1); [reflexivity|]. destruct (e <=? 0); [reflexivity|]. apply gpow_loop_erase.
Qed.

(** * Lamé *)
Lemma fib_SS n : fib (S (S n)) = fib (S n) + fib n.
Proof. unfold fib. cbn [fibs]. destruct (fibs n) as [a b]. cbn [fst]. lia. Qed.
Lemma fib_pos n : 0 <= fib n /\ 1 <= fib (S n).
Proof. induction n as [|n [A B]]; [unfold fib; simpl; lia|]. rewrite fib_SS. lia. Qed.
Lemma fib_mono_S n : fib (S n) <= fib (S (S n)).
Proof. rewrite fib_SS. pose proof (fib_pos n). lia. Qed.
Lemma fib_mono m n : (m <= n)%nat -> fib (S m) <= fib (S n).
Proof. induction 1 as [|n H IH]; [lia|]. pose proof (fib_mono_S n). lia. Qed.

Definition lame (k : nat) (a b : Z) : Prop :=
  fib (k + 1) <= Z.abs b /\ (Z.abs b < Z.abs a -> fib (k + 2) <= Z.abs a).
Lemma lame_base a b : b <> 0 -> lame 1 a b.
Proof. intros H. split; unfold fib; simpl; lia. Qed.
Lemma lame_step k a b : b <> 0 -> Z.rem a b <> 0 -> lame k b (Z.rem a b) -> lame (S k) a b.
Proof.
  intros B R [L1 L2]. pose proof (Z.rem_bound_abs a b B) as RB. unfold lame.
  replace (S k + 1)%nat with (k + 2)%nat by lia. replace (S k + 2)%nat with (S (S (k + 1))) by lia.
  split; [apply L2; lia|]. intros AB. rewrite fib_SS. replace (S (k + 1)) with (k + 2)%nat by lia.
  specialize (L2 ltac:(lia)).
  assert (Z.abs b + Z.abs (Z.rem a b) <= Z.abs a); [|lia].
  pose proof (Z.quot_rem' a b) as Q.
  assert (Z.abs a = Z.abs b * Z.abs (Z.quot a b) + Z.abs (Z.rem a b)).
  { rewrite <- Z.abs_mul. destruct (Z.le_gt_cases 0 a) as [PA|PA].
    - pose proof (Z.rem_nonneg a b B PA). pose proof (Z.mul_quot_le a b PA B) as M. lia.
    - pose proof (Z.rem_nonpos a b B ltac:(lia)). pose proof (Z.mul_quot_ge a b ltac:(lia) B) as M. lia. }
  assert (1 <= Z.abs (Z.quot a b)); [|nia].
  destruct (Z.eq_dec (Z.quot a b) 0) as [E|E]; [|lia]. rewrite E in H. simpl in H. lia.
Qed.
Lemma gcd_loop_lame t fuel : forall a b p k, b <> 0 -> gcd_loopC fuel t a b = Ok (p, k) -> lame k a b.
Proof.
  induction fuel as [|f IH]; intros a b p k B E; [discriminate|]. cbn [gcd_loopC] in E. unfold imod in E.
  destruct (Z.eqb_spec b 0); [contradiction|]. destruct (inr t (Z.quot a b)); [|discriminate]. cbn [bind] in E.
  destruct (Z.eqb_spec (Z.rem a b) 0) as [R|R]; [injection E as <- <-; now apply lame_base|].
  destruct (inr t (Z.quot b (Z.rem a b))); [|discriminate]. cbn [bind] in E.
  destruct (Z.eqb_spec (Z.rem b (Z.rem a b)) 0) as [R2|R2].
  { injection E as <- <-. apply lame_step; [assumption|assumption|]. now apply lame_base. }
  destruct (gcd_loopC f t (Z.rem a b) (Z.rem b (Z.rem a b))) as [[q n']| | |] eqn:E2; try discriminate. cbn [bind] in E.
  injection E as <- <-. apply IH in E2; [|assumption]. change (S (S n')) with (S (S n')).
  apply lame_step; [assumption|assumption|]. now apply lame_step.
Qed.
Lemma gcd_lame t a b g k : b <> 0 -> gcdC t a b = Ok (g, k) -> fib (k + 1) <= Z.abs b.
Proof.
  intros B E. unfold gcdC in E. destruct (Z.eqb_spec b 0); [contradiction|]. cbn [negb] in E.
  destruct (gcd_loopC 65 t a b) as [[[x y] n']| | |] eqn:L; try discriminate. cbn [bind] in E.
  destruct (chk t (x + y)); try discriminate. cbn [bind] in E. injection E as <- <-.
  eapply gcd_loop_lame; [exact B|exact L].
Qed.

(** * Multiplications *)
Lemma products_step e : 0 < e -> products e = (if Z.odd e then 1 else 0) + 1 + products (Z.div2 e).
Proof.
  intros H. unfold products. destruct (Z.leb_spec e 0); [lia|]. destruct e as [|p|p]; try lia.
  destruct p as [p|p|]; [| |reflexivity].
  - change (Z.div2 (Z.pos p~1)) with (Z.pos p). cbn [Z.odd ones pones].
    destruct (Z.leb_spec (Z.pos p) 0); [lia|]. change (Z.pos p~1) with (2 * Z.pos p + 1).
    rewrite Z.log2_succ_double by lia. lia.
  - change (Z.div2 (Z.pos p~0)) with (Z.pos p). cbn [Z.odd ones pones].
    destruct (Z.leb_spec (Z.pos p) 0); [lia|]. change (Z.pos p~0) with (2 * Z.pos p).
    rewrite Z.log2_double by lia. lia.
Qed.
Lemma div2_pos e : 0 < e -> 0 <= Z.div2 e.
Proof. intros. apply Z.div2_nonneg. lia. Qed.
Lemma bpow_products fuel : forall b e r x k, 0 <= e -> bpow_loopC fuel b e r = Ok (x, k) -> k = products e.
Proof.
  induction fuel as [|f IH]; intros b e r x k H E; [discriminate|]. cbn [bpow_loopC] in E.
  destruct (Z.eqb_spec e 0) as [->|NE]; [injection E as <- <-; reflexivity|].
  rewrite products_step by lia. rewrite Z.div2_spec.
  destruct (if Z.odd e then _ else _) as [[r' m]| | |] eqn:M; try discriminate. cbn [bind] in E.
  destruct (chk64 (b * b)) as [b2| | |]; try discriminate. cbn [bind] in E.
  destruct (bpow_loopC f b2 (Z.shiftr e 1) r') as [[y n]| | |] eqn:E2; try discriminate. cbn [bind] in E.
  assert (K : k = m + 1 + n) by congruence. apply IH in E2; [|rewrite <- Z.div2_spec; apply div2_pos; lia].
  assert (m = if Z.odd e then 1 else 0); [|lia].
  destruct (Z.odd e); [|congruence]. destruct (chk64 (r * b)); try discriminate. cbn [bind] in M. congruence.
Qed.
Lemma gpow_products {A} (mul : A -> A -> A) fuel : forall b e r x k, 0 <= e -> gpow_loopC mul fuel b e r = Ok (x, k) -> k = products e.
Proof.
  induction fuel as [|f IH]; intros b e r x k H E; [discriminate|]. cbn [gpow_loopC] in E.
  destruct (Z.eqb_spec e 0) as [->|NE]; [injection E as <- <-; reflexivity|].
  rewrite products_step by lia. 
  assert (Q : Z.quot e 2 = Z.div2 e) by (rewrite Z.quot_div_nonneg by lia; symmetry; apply Z.div2_div). rewrite Q in E.
  assert (R : (Z.rem e 2 =? 1) = Z.odd e).
  { rewrite Z.rem_mod_nonneg by lia. rewrite Zmod_odd. destruct (Z.odd e); reflexivity. }
  rewrite R in E. pose proof (div2_pos e ltac:(lia)).
  destruct (Z.odd e).
  - destruct (gpow_loopC mul f (mul b b) (Z.div2 e) (mul r b)) as [[y n]| | |] eqn:E2; try discriminate. cbn [bind] in E.
    assert (k = 1 + 1 + n) by congruence. apply IH in E2; lia.
  - destruct (gpow_loopC mul f (mul b b) (Z.div2 e) r) as [[y n]| | |] eqn:E2; try discriminate. cbn [bind] in E.
    assert (k = 0 + 1 + n) by congruence. apply IH in E2; lia.
Qed.
Lemma ones_le p : 1 <= pones p <= Z.log2 (Z.pos p) + 1.
Proof.
  induction p as [p IH|p IH|]; cbn [pones]; [| |simpl; lia].
  - change (Z.pos p~1) with (2 * Z.pos p + 1). rewrite Z.log2_succ_double by lia. lia.
  - change (Z.pos p~0) with (2 * Z.pos p). rewrite Z.log2_double by lia. lia.
Qed.
Lemma products_le e : 0 < e -> Z.log2 e + 2 <= products e <= 2 * (Z.log2 e + 1).
Proof.
  intros H. unfold products. destruct (Z.leb_spec e 0); [lia|]. destruct e as [|p|p]; try lia.
  pose proof (ones_le p). cbn [ones]. lia.
Qed.
