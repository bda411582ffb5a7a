(** How many engine outputs lead to each result. *)
From Coq Require Import Znumtheory Reals Lra Floats.SpecFloat.
From Flocq Require Import Core Mult_error.
From Verif Require Import Base Float FloatProofs RandModel RandSpec RandProofs RandDoubleProofs FairSpec.
Local Open Scope Z_scope.

(** arithmetic progressions *)
Definition steps (a d n : Z) : list Z := map (fun k => a + d * Z.of_nat k) (seq 0 (Z.to_nat n)).
Lemma steps_length a d n : 0 <= n -> Z.of_nat (length (steps a d n)) = n.
Proof. intros. unfold steps. rewrite map_length, seq_length. lia. Qed.
Lemma steps_nodup a d n : 0 < d -> NoDup (steps a d n).
Proof.
  intros D. unfold steps. apply FinFun.Injective_map_NoDup; [|apply seq_NoDup]. intros i j E.
  assert (Z.of_nat i = Z.of_nat j) by nia. lia.
Qed.
Lemma steps_in a d n x : In x (steps a d n) <-> exists k, 0 <= k < n /\ x = a + d * k.
Proof.
  unfold steps. rewrite in_map_iff. split.
  - intros (k & <- & I). apply in_seq in I. exists (Z.of_nat k). split; [lia|reflexivity].
  - intros (k & K & ->). exists (Z.to_nat k). split; [now rewrite Z2Nat.id by lia|]. apply in_seq. lia.
Qed.
Lemma causes_steps (event : Z -> Prop) a d n : 0 < d -> 0 <= n ->
  (forall x, output x /\ event x <-> exists k, 0 <= k < n /\ x = a + d * k) -> causes event n.
Proof.
  intros D N H. exists (steps a d n). split; [now apply steps_nodup|]. split; [|now apply steps_length].
  intros x. rewrite steps_in. symmetry. apply H.
Qed.
Lemma causes_ext (e f : Z -> Prop) n : (forall x, output x -> (e x <-> f x)) -> causes e n -> causes f n.
Proof.
  intros H (l & D & I & L). exists l. split; [assumption|]. split; [|assumption]. intros x. rewrite I. split; intros [O E]; (split; [assumption|]); now apply (H x O).
Qed.
(** outputs with a given remainder *)
Lemma causes_mod d r : 0 < d -> d <= 2 ^ 64 -> 0 <= r < d ->
  causes (fun x => x mod d = r) (2 ^ 64 / d + (if r <? 2 ^ 64 mod d then 1 else 0)).
Proof.
  intros D Dl R. unfold causes, output. set (M := 2 ^ 64) in *. assert (0 < M) by (subst M; lia). clearbody M.
  pose proof (Z.div_mod M d ltac:(lia)) as E. pose proof (Z.mod_pos_bound M d D) as B. set (q := M / d) in *. set (s := M mod d) in *.
  assert (Q : 0 <= q) by nia.
  apply (fun P1 P2 P3 => ex_intro _ (steps r d (q + (if r <? s then 1 else 0))) (conj P1 (conj P2 P3))).
  - now apply steps_nodup.
  - intros x. rewrite steps_in. split.
    + intros (k & K & ->). rewrite (Z.mul_comm d k), Z.mod_add, Z.mod_small by lia. split; [|reflexivity]. destruct (Z.ltb_spec r s); nia.
    + intros [X Er]. exists (x / d). pose proof (Z.div_mod x d ltac:(lia)) as Ex. rewrite Er in Ex. split; [|lia].
      split; [apply Z.div_pos; lia|]. destruct (Z.ltb_spec r s); nia.
  - apply steps_length. destruct (r <? s); lia.
Qed.

(** events that hold up to a threshold *)
Lemma threshold (f : Z -> bool) (mono : forall x y, 0 <= x <= y -> f y = true -> f x = true) N : 0 <= N ->
  exists t, 0 <= t <= N /\ forall x, 0 <= x < N -> (f x = true <-> x < t).
Proof.
  intros HN. pattern N. apply natlike_ind; [|clear N HN|assumption].
  - exists 0. split; [lia|]. intros; lia.
  - intros N HN (t & T & I). destruct (f N) eqn:E.
    + exists (N + 1). split; [lia|]. intros x X. split; [lia|]. intros _. apply (mono x N); [lia|assumption].
    + exists t. split; [lia|]. intros x X. destruct (Z.eq_dec x N) as [->|]; [|apply I; lia]. rewrite E. split; [discriminate|lia].
Qed.

(** rounding an output moves it by at most 1024 *)
Lemma rnd_output x : output x -> (Rabs (rnd (IZR x) - IZR x) <= 1024)%R.
Proof.
  intros [X0 X1]. destruct (Z.eq_dec x 0) as [->|N].
  - rewrite rnd_0, Rminus_0_r, Rabs_R0. lra.
  - unfold rnd. eapply Rle_trans; [apply error_le_half_ulp; typeclasses eauto|].
    assert (U : (ulp radix2 fx (IZR x) <= bpow radix2 11)%R).
    { rewrite ulp_neq_0 by (apply IZR_neq; lia). apply bpow_le. unfold cexp, fx, FLT_exp.
      assert (M : mag radix2 (IZR x) <= 64). { apply mag_le_bpow; [apply IZR_neq; lia|]. rewrite Rabs_pos_eq by (apply IZR_le; lia). fold two64. rewrite two64_IZR. apply IZR_lt. lia. }
      unfold fexp; cbn; lia. }
    change (bpow radix2 11) with 2048%R in U. lra.
Qed.
(** multiplying a double by 2^64 is exact *)
Lemma scale_up p : dvalid p = true -> rnd (real p * two64) = (real p * two64)%R.
Proof.
  intros V. unfold rnd. apply round_generic; [typeclasses eauto|]. unfold two64. change fx with (FLT_exp (-1074) 53).
  apply mult_bpow_pos_exact_FLT; [|lia]. rewrite <- (rnd_real p V). apply format_rnd.
Qed.
Lemma unit_below_threshold p : dvalid p = true -> dfinite p = true -> (0 <= real p <= 1)%R ->
  exists n, causes (fun x => (real (unit_draw x) < real p)%R) n /\ (real p * two64 - 1024 <= IZR n < real p * two64 + 1)%R.
Proof.
  intros V F P. set (P64 := (real p * two64)%R). assert (T : (0 < two64)%R) by apply bpow_gt_0.
  assert (B : (0 <= P64 <= two64)%R) by (unfold P64; nra).
  assert (H : forall x, output x -> ((real (unit_draw x) < real p)%R <-> (rnd (IZR x) < P64)%R)).
  { intros x X. destruct (unit_spec x X) as (_ & _ & -> & _). unfold P64. split; intros L.
    - apply Rmult_lt_compat_r with (r := two64) in L; [|assumption]. unfold Rdiv in L. rewrite Rmult_assoc, Rinv_l in L; lra.
    - apply Rmult_lt_reg_r with two64; [assumption|]. unfold Rdiv. rewrite Rmult_assoc, Rinv_l; lra. }
  destruct (threshold (fun x => Rlt_bool (rnd (IZR x)) P64)) with (N := 2 ^ 64) as (t & Tt & I).
  { intros x y X. intros L. destruct (Rlt_bool_spec (rnd (IZR y)) P64) as [L'|]; [|discriminate].
    apply Rlt_bool_true. eapply Rle_lt_trans; [|exact L']. apply rnd_le, IZR_le. lia. }
  { lia. }
  exists t. split.
  - apply (causes_steps _ 0 1 t); [lia|lia|]. intros x. split.
    + intros [X E]. exists x. split; [|lia]. apply (H x X) in E. split; [apply X|]. apply I; [exact X|]. now apply Rlt_bool_true.
    + intros (k & K & ->). replace (0 + 1 * k) with k by lia. assert (X : output k) by (unfold output; lia). split; [assumption|]. apply (H k X).
      assert (Q : Rlt_bool (rnd (IZR k)) P64 = true) by (apply I; [exact X|lia]). now destruct (Rlt_bool_spec (rnd (IZR k)) P64).
  - split.
    + destruct (Z.eq_dec t (2 ^ 64)) as [->|Nt].
      * rewrite <- two64_IZR. lra.
      * assert (X : output t) by (unfold output; lia). pose proof (rnd_output t X) as Q. apply Rabs_le_inv in Q.
        destruct (Rlt_le_dec (rnd (IZR t)) P64) as [L|L]; [|lra]. exfalso. assert (t < t); [|lia]. apply I; [exact X|]. now apply Rlt_bool_true.
    + destruct (Rlt_le_dec (IZR t) (P64 + 1)) as [|L]; [assumption|]. exfalso.
      assert (P64 <= IZR (t - 1))%R by (rewrite minus_IZR; lra).
      assert (1 <= t). { apply le_IZR. lra. }
      assert (Q : Rlt_bool (rnd (IZR (t - 1))) P64 = true) by (apply I; lia). destruct (Rlt_bool_spec (rnd (IZR (t - 1))) P64) as [Q'|]; [|discriminate].
      assert (P64 <= rnd (IZR (t - 1)))%R; [|lra]. unfold P64. rewrite <- (scale_up p V). now apply rnd_le.
Qed.
Lemma pow2_divisor (n : nat) : forall d, 0 < d -> (d | 2 ^ Z.of_nat n) -> exists k, 0 <= k /\ d = 2 ^ k.
Proof.
  induction n as [|n IH]; intros d D H.
  - exists 0. split; [lia|]. change (2 ^ Z.of_nat 0) with 1 in H. apply Z.divide_1_r_nonneg in H; lia.
  - rewrite Nat2Z.inj_succ, Z.pow_succ_r in H by lia. destruct (Zeven_odd_dec d) as [Ev|Od].
    + destruct (Zeven_ex d Ev) as [e ->]. destruct (IH e) as (k & K & ->); [lia| |].
      * destruct H as [q H]. exists q. lia.
      * exists (k + 1). split; [lia|]. rewrite Z.pow_add_r by lia. lia.
    + apply (IH d D). apply Z.gauss with 2; [assumption|]. apply Zgcd_1_rel_prime, rel_prime_sym. apply prime_rel_prime; [exact prime_2|].
      intros [q E]. apply Zodd_not_Zeven in Od. apply Od. rewrite E, Z.mul_comm. apply Zeven_2p.
Qed.
Lemma causes_map (event : Z -> Prop) (f h : Z -> Z) n : 0 <= n ->
  (forall k, 0 <= k < n -> output (f k) /\ event (f k) /\ h (f k) = k) ->
  (forall x, output x -> event x -> 0 <= h x < n /\ f (h x) = x) -> causes event n.
Proof.
  intros N Hf Hh. exists (map f (steps 0 1 n)). split; [|split].
  - assert (D : NoDup (map h (map f (steps 0 1 n)))); [|exact (NoDup_map_inv _ _ D)].
    rewrite map_map. rewrite (map_ext_in _ (fun k => k)), map_id; [apply steps_nodup; lia|].
    intros k K. apply steps_in in K. destruct K as (i & I & ->). apply Hf. lia.
  - intros x. rewrite in_map_iff. split.
    + intros (k & <- & K). apply steps_in in K. destruct K as (i & I & ->). destruct (Hf (0 + 1 * i)) as (? & ? & _); [lia|tauto].
    + intros [X E]. destruct (Hh x X E) as [B Ex]. exists (h x). split; [assumption|]. apply steps_in. exists (h x). lia.
  - rewrite map_length. now apply steps_length.
Qed.
Lemma causes_odd_blocks : causes (fun x => (x / 2 ^ 31) mod 2 = 1) (2 ^ 63).
Proof.
  apply (causes_map _ (fun k => (2 * (k / 2 ^ 31) + 1) * 2 ^ 31 + k mod 2 ^ 31) (fun x => x / 2 ^ 32 * 2 ^ 31 + x mod 2 ^ 31)); [lia| |].
  - intros k K. pose proof (Z.div_mod k (2 ^ 31) ltac:(lia)) as E. pose proof (Z.mod_pos_bound k (2 ^ 31) ltac:(lia)) as B. set (q := k / 2 ^ 31) in *. set (r := k mod 2 ^ 31) in *. clearbody q r.
    assert (D1 : ((2 * q + 1) * 2 ^ 31 + r) / 2 ^ 31 = 2 * q + 1) by (symmetry; apply Z.div_unique with r; lia).
    assert (D2 : ((2 * q + 1) * 2 ^ 31 + r) / 2 ^ 32 = q) by (symmetry; apply Z.div_unique with (2 ^ 31 + r); lia).
    assert (D3 : ((2 * q + 1) * 2 ^ 31 + r) mod 2 ^ 31 = r) by (symmetry; apply Z.mod_unique with (2 * q + 1); lia).
    rewrite D1, D2, D3. split; [unfold output; lia|]. split; [|lia]. symmetry. apply Z.mod_unique with q; lia.
  - intros x [X0 X1] E. pose proof (Z.div_mod x (2 ^ 31) ltac:(lia)) as Ex. pose proof (Z.mod_pos_bound x (2 ^ 31) ltac:(lia)) as B.
    assert (Q : x / 2 ^ 32 = x / 2 ^ 31 / 2) by (change (2 ^ 32) with (2 ^ 31 * 2); now rewrite Z.div_div by lia).
    rewrite Q. set (q := x / 2 ^ 31) in *. set (r := x mod 2 ^ 31) in *. pose proof (Z.div_mod q 2 ltac:(lia)) as Eq. rewrite E in Eq. set (p := q / 2) in *. clearbody p r q.
    split; [lia|].
    assert (D1 : (p * 2 ^ 31 + r) / 2 ^ 31 = p) by (symmetry; apply Z.div_unique with r; lia).
    assert (D2 : (p * 2 ^ 31 + r) mod 2 ^ 31 = r) by (symmetry; apply Z.mod_unique with p; lia).
    rewrite D1, D2. lia.
Qed.
Lemma causes_mod_even d q r : 0 < d -> d * q = 2 ^ 64 -> 0 <= r < d -> causes (fun x => x mod d = r) q.
Proof.
  intros D E R. replace q with (2 ^ 64 / d + (if r <? 2 ^ 64 mod d then 1 else 0)); [apply causes_mod; [lia|rewrite <- E; assert (0 < q) by nia; nia|lia]|].
  rewrite <- E, (Z.mul_comm d q), Z.mod_mul, Z.div_mul by lia. destruct (Z.ltb_spec r 0); lia.
Qed.
