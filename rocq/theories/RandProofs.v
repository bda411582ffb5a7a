From Coq Require Import QArith Lqa.
From Verif Require Import Base Float NumModel NumSpec NumProofs NumPowProofs NumBinProofs RandModel RandSpec.
Local Open Scope Z_scope.

(** integers *)
Lemma nextInt_spec x min max : output x -> in_int32 min = true -> in_int32 max = true ->
  nextInt_range x min max = if max <=? min then Err else if max - min <=? int32_max then Ok (min + x mod (max - min)) else UB.
Proof.
  unfold output, nextInt_range, in_int32. intros X A B. destruct (Z.leb_spec max min); [reflexivity|].
  unfold chk32, in_int32. destruct (Z.leb_spec (max - min) int32_max) as [L|L].
  - replace (int32_min <=? max - min) with true by (symmetry; apply Z.leb_le; unfold int32_min in *; lia).
    replace (max - min <=? int32_max) with true by (symmetry; apply Z.leb_le; lia). cbn [andb bind].
    unfold wrapu64. rewrite (Z.mod_small (max - min)) by (unfold int32_max in *; lia).
    pose proof (Z.mod_pos_bound x (max - min) ltac:(lia)) as M. rewrite wrap32_id by (unfold in_int32, int32_min, int32_max in *; lia).
    replace (x mod (max - min) + min) with (min + x mod (max - min)) by lia.
    replace ((int32_min <=? min + x mod (max - min)) && (min + x mod (max - min) <=? int32_max)) with true; [reflexivity|].
    symmetry. apply andb_true_iff. rewrite !Z.leb_le. unfold int32_min, int32_max in *. lia.
  - replace (max - min <=? int32_max) with false by (symmetry; apply Z.leb_gt; lia). rewrite andb_false_r. reflexivity.
Qed.
Lemma nextInt_all_spec x : output x ->
  nextInt_all x = (if x mod 2 ^ 32 <? 2 ^ 31 then Ok (x mod 2 ^ 32 - 2 ^ 31) else UB) /\
  nextInt_all_wrap x = x mod 2 ^ 32 - 2 ^ 31.
Proof.
  intros X. unfold nextInt_all, nextInt_all_wrap. change (wrapu64 (int32_max + 1 - int32_min)) with (2 ^ 32).
  pose proof (Z.mod_pos_bound x (2 ^ 32) ltac:(lia)) as M. set (r := x mod 2 ^ 32) in *. clearbody r. split.
  - destruct (Z.ltb_spec r (2 ^ 31)) as [L|L].
    + rewrite wrap32_id by (unfold in_int32, int32_min, int32_max; lia). unfold chk32, in_int32, int32_min, int32_max.
      replace ((-2147483648 <=? r + -2147483648) && (r + -2147483648 <=? 2147483647)) with true by lia. f_equal; lia.
    + assert (W : wrap32 r = r - 2 ^ 32).
      { unfold wrap32. rewrite <- (Z.mod_unique (r + 2147483648) 4294967296 1 (r - 2147483648)) by lia. lia. }
      rewrite W. unfold chk32, in_int32, int32_min, int32_max.
      replace ((-2147483648 <=? r - 2 ^ 32 + -2147483648) && (r - 2 ^ 32 + -2147483648 <=? 2147483647)) with false by lia. reflexivity.
  - destruct (Z.ltb_spec r (2 ^ 31)) as [L|L].
    + rewrite (wrap32_id r) by (unfold in_int32, int32_min, int32_max; lia). unfold int32_min.
      rewrite wrap32_id by (unfold in_int32, int32_min, int32_max; lia). lia.
    + assert (W : wrap32 r = r - 2 ^ 32).
      { unfold wrap32. rewrite <- (Z.mod_unique (r + 2147483648) 4294967296 1 (r - 2147483648)) by lia. lia. }
      rewrite W. unfold wrap32, int32_min. rewrite <- (Z.mod_unique (r - 2 ^ 32 + -2147483648 + 2147483648) 4294967296 (-1) r) by lia. lia.
Qed.

(** replay *)
Section Engine.
Context {G : Type} (E : engine G).
Lemma rand_run_app os1 : forall g os2, rand_run E g (os1 ++ os2) =
  ' (g, r1) <- rand_run E g os1 ;; ' (g, r2) <- rand_run E g os2 ;; Ok (g, r1 ++ r2).
Proof.
  induction os1 as [|o os1 IH]; intros g os2; cbn [app rand_run].
  - cbn [bind]. destruct (rand_run E g os2) as [[g2 r2]| | |]; reflexivity.
  - destruct (rand_step E g o) as [[g1 r]| | |]; cbn [bind]; try reflexivity. rewrite IH.
    destruct (rand_run E g1 os1) as [[g2 r2]| | |]; cbn [bind]; try reflexivity.
    destruct (rand_run E g2 os2) as [[g3 r3]| | |]; reflexivity.
Qed.
End Engine.

(** inverse-CDF search in exact arithmetic *)
Section Search.
Context (pmf : nat -> Q) (u : Q) (M : Z).
Fixpoint search (fuel k : nat) : outcome Z :=
  match fuel with
  | O => Fuel
  | S fuel =>
      if Qle_bool (cdf pmf k) u then (if Z.of_nat (S k) <=? M then search fuel (S k) else UB)
      else Ok (Z.of_nat k)
  end.
Lemma search_case fuel : forall k,
  match search fuel k with
  | Ok z => exists k', z = Z.of_nat k' /\ (k <= k')%nat /\ (u < cdf pmf k')%Q /\ (forall j, (k <= j < k')%nat -> (cdf pmf j <= u)%Q) /\
              ((k < k')%nat -> Z.of_nat k' <= M)
  | UB => forall j, (k <= j)%nat -> (Z.of_nat j <= M \/ j = k) -> (cdf pmf j <= u)%Q
  | Fuel => True
  | Err => False
  end.
Proof.
  induction fuel as [|fuel IH]; intros k; cbn [search]; [exact I|].
  destruct (Qle_bool (cdf pmf k) u) eqn:C.
  - apply Qle_bool_iff in C. destruct (Z.leb_spec (Z.of_nat (S k)) M) as [L|L].
    + specialize (IH (S k)). destruct (search fuel (S k)) as [z| | |]; auto.
      * destruct IH as (k' & -> & H1 & H2 & H3 & H4). exists k'. split; [reflexivity|]. split; [lia|]. split; [assumption|]. split.
        -- intros j J. destruct (Nat.eq_dec j k) as [-> |]; [assumption|]. apply H3. lia.
        -- intros _. destruct (Nat.eq_dec k' (S k)) as [-> |]; [assumption|]. apply H4. lia.
      * intros j J B. destruct (Nat.eq_dec j k) as [-> |]; [assumption|]. apply IH; [lia|]. destruct B; [auto|lia].
    + intros j J B. destruct B as [B| ->]; [|assumption]. assert (j = k) as -> by lia. assumption.
  - exists k. split; [reflexivity|]. split; [lia|]. split; [|split; intros; lia].
    apply Qnot_le_lt. intros H. apply Qle_bool_iff in H. congruence.
Qed.
Lemma search_ok k' : forall n k fuel, (k + n = k')%nat -> (n < fuel)%nat -> (u < cdf pmf k')%Q ->
  (forall j, (k <= j < k')%nat -> (cdf pmf j <= u)%Q) -> (k = k' \/ Z.of_nat k' <= M) -> search fuel k = Ok (Z.of_nat k').
Proof.
  induction n as [|n IH]; intros k [|fuel] E L U P B; try lia; cbn [search].
  - assert (k = k') as -> by lia. destruct (Qle_bool (cdf pmf k') u) eqn:C; [|reflexivity]. apply Qle_bool_iff in C. lra.
  - assert (C : (cdf pmf k <= u)%Q) by (apply P; lia). apply Qle_bool_iff in C. rewrite C.
    destruct (Z.leb_spec (Z.of_nat (S k)) M); [|lia]. apply IH; try lia; try assumption. intros j J. apply P. lia.
Qed.
Lemma search_ub : 0 <= M -> (forall j, Z.of_nat j <= M -> (cdf pmf j <= u)%Q) ->
  forall n k fuel, Z.of_nat (k + n) = M -> (n < fuel)%nat -> search fuel k = UB.
Proof.
  intros M0 P. induction n as [|n IH]; intros k [|fuel] E L; try lia; cbn [search].
  - assert (C : (cdf pmf k <= u)%Q) by (apply P; lia). apply Qle_bool_iff in C. rewrite C. destruct (Z.leb_spec (Z.of_nat (S k)) M); [lia|reflexivity].
  - assert (C : (cdf pmf k <= u)%Q) by (apply P; lia). apply Qle_bool_iff in C. rewrite C. destruct (Z.leb_spec (Z.of_nat (S k)) M); [|lia]. apply IH; lia.
Qed.
Lemma search_exact : 0 <= M ->
  (forall z, (exists fuel, search fuel 0 = Ok z) <-> exists k, z = Z.of_nat k /\ z <= M /\ inverse_cdf pmf u k) /\
  ((exists fuel, search fuel 0 = UB) <-> forall k, Z.of_nat k <= M -> (cdf pmf k <= u)%Q).
Proof.
  intros M0. split; [intros z; split|split].
  - intros [fuel H]. pose proof (search_case fuel 0) as C. rewrite H in C. destruct C as (k & -> & _ & U & P & B). exists k.
    split; [reflexivity|]. split; [destruct k; [lia|apply B; lia]|]. split; [assumption|]. intros j J. apply P. lia.
  - intros (k & -> & B & U & P). exists (S k). apply (search_ok k k); auto; try lia. intros j J. apply P. lia.
  - intros [fuel H]. pose proof (search_case fuel 0) as C. rewrite H in C. intros k B. apply C; [lia|auto].
  - intros P. exists (S (Z.to_nat M)). apply (search_ub M0 P (Z.to_nat M) 0); lia.
Qed.
End Search.
Lemma cdf_ext f g k : (forall i, (f i == g i)%Q) -> (cdf f k == cdf g k)%Q.
Proof. intros H. induction k as [|k IH]; cbn [cdf]; [apply H|]. now rewrite IH, H. Qed.

(** ratios of the mass functions *)
Lemma fac_pos n : 0 < fac n. Proof. induction n; cbn [fac]; lia. Qed.
Lemma fac_nz n : ~ (inject_Z (fac n) == 0)%Q.
Proof. pose proof (fac_pos n). unfold Qeq. cbn. lia. Qed.
Lemma fac_S n : (inject_Z (fac (S n)) == inject_Z (Z.of_nat (S n)) * inject_Z (fac n))%Q.
Proof. cbn [fac]. now rewrite inject_Z_mult. Qed.
Lemma injS_nz n : ~ (inject_Z (Z.of_nat (S n)) == 0)%Q.
Proof. unfold Qeq. cbn. lia. Qed.
Lemma negbin_ratio r p k : (1 <= r)%nat ->
  (negbin_pmf r p (S k) == negbin_pmf r p k * ((1 - p) * inject_Z (Z.of_nat (r + k)) / inject_Z (Z.of_nat (S k))))%Q.
Proof.
  intros R. unfold negbin_pmf. replace (S k + r - 1)%nat with (S (k + r - 1)) by lia.
  rewrite !fac_S. replace (S (k + r - 1))%nat with (r + k)%nat by lia. cbn [qpow].
  field. repeat split; apply fac_nz || apply injS_nz.
Qed.
Lemma poisson_ratio l e k : (poisson_pmf l e (S k) == poisson_pmf l e k * (l / inject_Z (Z.of_nat (S k))))%Q.
Proof. unfold poisson_pmf. rewrite fac_S. cbn [qpow]. field. repeat split; apply fac_nz || apply injS_nz. Qed.
Lemma negbin_0 r p : (negbin_pmf r p 0 == qpow p r)%Q.
Proof. unfold negbin_pmf. cbn [plus fac qpow]. change (inject_Z 1) with 1%Q. field. apply fac_nz. Qed.
Lemma chk_ok z : 0 <= z <= int32_max -> chk32 z = Ok z.
Proof. intros H. unfold chk32, in_int32. replace ((int32_min <=? z) && (z <=? int32_max)) with true; [reflexivity|]. unfold int32_min. lia. Qed.
Lemma chk_ub z : int32_max < z -> chk32 z = UB.
Proof. intros H. unfold chk32, in_int32. replace ((int32_min <=? z) && (z <=? int32_max)) with false; [reflexivity|]. lia. Qed.
Lemma Qle_bool_ext a a' b b' : (a == a')%Q -> (b == b')%Q -> Qle_bool a b = Qle_bool a' b'.
Proof. intros -> ->. reflexivity. Qed.
Lemma negbin_search r p u fuel : 1 <= r <= int32_max -> forall k pr th, (pr == negbin_pmf (Z.to_nat r) p k)%Q -> (th == cdf (negbin_pmf (Z.to_nat r) p) k)%Q ->
  Z.of_nat k <= int32_max - r \/ k = 0%nat ->
  negbin_loop exact fuel r (1 - p)%Q u (Z.of_nat k) pr th = search (negbin_pmf (Z.to_nat r) p) u (int32_max - r) fuel k.
Proof.
  intros R. induction fuel as [|fuel IH]; intros k pr th P T B; cbn [negbin_loop search]; [reflexivity|].
  cbn [geb exact]. rewrite (Qle_bool_ext _ _ _ _ T (Qeq_refl u)). destruct (Qle_bool _ u); [|reflexivity].
  destruct (Z.leb_spec (Z.of_nat (S k)) (int32_max - r)) as [L|L].
  - rewrite (chk_ok (Z.of_nat k + 1)) by lia. cbn [bind]. rewrite chk_ok by lia. cbn [bind add mul div of_int exact].
    replace (Z.of_nat k + 1) with (Z.of_nat (S k)) by lia. replace (r + Z.of_nat (S k) - 1) with (Z.of_nat (Z.to_nat r + k)) by lia.
    assert (P' : (pr * ((1 - p) * inject_Z (Z.of_nat (Z.to_nat r + k)) / inject_Z (Z.of_nat (S k))) == negbin_pmf (Z.to_nat r) p (S k))%Q).
    { rewrite negbin_ratio by lia. now rewrite P. }
    apply IH; [exact P'|cbn [cdf]; now rewrite T, P'|lia].
  - destruct (Z.leb_spec (Z.of_nat k + 1) int32_max).
    + rewrite (chk_ok (Z.of_nat k + 1)) by lia. cbn [bind]. rewrite chk_ub by lia. reflexivity.
    + rewrite (chk_ub (Z.of_nat k + 1)) by lia. reflexivity.
Qed.
Lemma poisson_search l e u fuel : forall k pr th, (pr == poisson_pmf l e k)%Q -> (th == cdf (poisson_pmf l e) k)%Q ->
  Z.of_nat k <= int32_max ->
  poisson_loop exact fuel l u (Z.of_nat k) pr th = search (poisson_pmf l e) u int32_max fuel k.
Proof.
  induction fuel as [|fuel IH]; intros k pr th P T B; cbn [poisson_loop search]; [reflexivity|].
  cbn [geb exact]. rewrite (Qle_bool_ext _ _ _ _ T (Qeq_refl u)). destruct (Qle_bool _ u); [|reflexivity].
  destruct (Z.leb_spec (Z.of_nat (S k)) int32_max) as [L|L].
  - rewrite (chk_ok (Z.of_nat k + 1)) by lia. cbn [bind]. cbn [bind add mul div of_int exact].
    replace (Z.of_nat k + 1) with (Z.of_nat (S k)) by lia.
    assert (P' : (pr * (l / inject_Z (Z.of_nat (S k))) == poisson_pmf l e (S k))%Q) by (rewrite poisson_ratio; now rewrite P).
    apply IH; [exact P'|cbn [cdf]; now rewrite T, P'|lia].
  - rewrite (chk_ub (Z.of_nat k + 1)) by lia. reflexivity.
Qed.
Lemma Qmult_assoc_eq (a b c : Q) : (a * (b * c) = a * b * c)%Q.
Proof. destruct a, b, c. unfold Qmult. cbn. f_equal; [lia|]. apply Pos.mul_assoc. Qed.
Lemma nfold_qpow p n : (1 <= n)%nat -> (nfold Qmult p n == qpow p n)%Q.
Proof.
  induction n as [|n IH]; intros H; [lia|]. destruct n as [|n]; [cbn; ring|].
  change (nfold Qmult p (S (S n))) with (p * nfold Qmult p (S n))%Q. cbn [qpow] in *. rewrite IH by lia. reflexivity.
Qed.
Lemma Qltb_spec a b : Qltb a b = true <-> (a < b)%Q.
Proof.
  unfold Qltb. rewrite negb_true_iff. split; intros H.
  - apply Qnot_le_lt. intros C. apply Qle_bool_iff in C. congruence.
  - destruct (Qle_bool b a) eqn:C; [|reflexivity]. apply Qle_bool_iff in C. lra.
Qed.
Lemma negbin_init_spec r p : 1 <= r <= int32_max -> (0 < p)%Q -> (p <= 1)%Q ->
  exists e, negbin_init exact r p = Ok (r, p, e) /\ (e == qpow p (Z.to_nat r))%Q.
Proof.
  intros R P0 P1. unfold negbin_init. cbn [geb ltb of_int mul exact].
  assert (X1 : (r <=? 0) = false) by lia. assert (X2 : Qle_bool p (inject_Z 0) = false).
  { destruct (Qle_bool p (inject_Z 0)) eqn:C; [|reflexivity]. apply Qle_bool_iff in C. change (inject_Z 0) with 0%Q in C. lra. }
  assert (X3 : Qltb (inject_Z 1) p = false).
  { destruct (Qltb (inject_Z 1) p) eqn:C; [|reflexivity]. apply Qltb_spec in C. change (inject_Z 1) with 1%Q in C. lra. }
  rewrite X1, X2, X3. cbn [orb]. pose proof (genericBinaryPow1_spec Qmult Qmult_assoc_eq (inject_Z 1) p r ltac:(unfold int32_max in R; lia)) as H.
  rewrite H. replace (r <? 0) with false by lia. replace (r =? 0) with false by lia.
  cbn [bind]. eexists. split; [reflexivity|]. apply nfold_qpow. lia.
Qed.
