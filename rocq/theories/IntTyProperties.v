(** Property theorems C95-C97: the integer templates at every integer type. *)
From Verif Require Import Base NumSpec IntTyModel IntTySpec IntTyProofs IntTyLcmProofs IntTyFunProofs IntTyBinProofs.
From Verif Require NumProofs NumBinProofs.
Local Open Scope Z_scope.

(** C95: the type in which two operands meet: at least [int], at least as wide as both; it is unsigned
    exactly if an unsigned operand type of at least 32 bits is not narrower than the other *)
Theorem C95_common_type :
  forall t1 t2,
    bits (common t1 t2) = Z.max 32 (Z.max (bits t1) (bits t2)) /\
    (sgn (common t1 t2) = false <->
       (sgn t1 = false /\ 32 <= bits t1 /\ bits t2 <= bits t1) \/
       (sgn t2 = false /\ 32 <= bits t2 /\ bits t1 <= bits t2)).
Proof.
  intros t1 t2. destruct t1 as [[] []], t2 as [[] []]; (split; [reflexivity|]); cbn; split; intros H;
    try discriminate H; try reflexivity; try (left; repeat split; try reflexivity; lia);
    try (right; repeat split; try reflexivity; lia);
    destruct H as [(A & B & C)|(A & B & C)]; try discriminate A; try lia.
Qed.
Print Assumptions C95_common_type.

(** when the operands meet in a signed type, or both are non-negative, the result is a greatest
    common divisor, for every pair of types *)
Theorem C95_gcd :
  forall t1 t2 a b, inty t1 a -> inty t2 b ->
    sgn (common t1 t2) = true \/ (0 <= a /\ 0 <= b) ->
    ~ (sgn (common t1 t2) = true /\ a = - 2 ^ (bits (common t1 t2) - 1) /\ b = -1) ->
    ~ (sgn (common t1 t2) = true /\ b = - 2 ^ (bits (common t1 t2) - 1) /\ a = -1) ->
    exists g, converges (fun k => gcd k t1 t2 a b) (Ok g) /\ inty (ret t1 t2) g /\ is_gcd g a b /\
      (0 <= a -> 0 <= b -> 0 <= g) /\ (a <= 0 -> b <= 0 -> g <= 0).
Proof.
  intros t1 t2 a b Ha Hb H N1 N2. set (c := common t1 t2) in *.
  assert (Ca : inty c a).
  { destruct H as [H|[H _]]; [now apply common_signed|now apply common_nonneg]. }
  assert (Cb : inty c b).
  { unfold c in *. rewrite common_sym in *.
    destruct H as [H|[_ H]]; [now apply common_signed|now apply common_nonneg]. }
  assert (M : forall x y, ~ (sgn c = true /\ x = - 2 ^ (bits c - 1) /\ y = -1) -> ~ min_pair c x y).
  { intros x y N (S & E & F). apply N. unfold tmin in E. rewrite S in E. auto. }
  destruct (gcd_stable t1 t2 a b Ha Hb) as (g & G1 & G2 & G3 & G4 & G5 & G6).
  { now left. } { now left. }
  { fold c. rewrite (conv_id c a Ca), (conv_id c b Cb). auto. }
  { fold c. rewrite (conv_id c a Ca), (conv_id c b Cb). auto. }
  fold c in G1, G2, G3, G4, G5, G6. rewrite (conv_id c a Ca), (conv_id c b Cb) in *. exists g. auto.
Qed.
Print Assumptions C95_gcd.
(** the two excluded pairs are undefined behaviour *)
Theorem C95_gcd_undefined :
  forall t1 t2 a b, inty t1 a -> inty t2 b -> sgn (common t1 t2) = true ->
    (a = - 2 ^ (bits (common t1 t2) - 1) /\ b = -1) \/ (b = - 2 ^ (bits (common t1 t2) - 1) /\ a = -1) ->
    converges (fun k => gcd k t1 t2 a b) UB.
Proof.
  intros t1 t2 a b Ha Hb S H. exists 1%nat. intros [|k] Hk; [lia|].
  destruct H as [[E F]|[E F]]; [apply gcd_min_pair|apply gcd_min_pair_r]; try assumption;
    (split; [assumption|split; [|assumption]]); unfold tmin; now rewrite S.
Qed.
Print Assumptions C95_gcd_undefined.
(** a negative operand meeting an unsigned operand of the same width: the greatest common divisor of
    the operands taken modulo 2^bits *)
Theorem C95_gcd_same_width :
  forall t1 t2 a b A B, inty t1 a -> inty t2 b -> bits t1 = bits t2 -> sgn (common t1 t2) = false ->
    residue (common t1 t2) a A -> residue (common t1 t2) b B ->
    converges (fun k => gcd k t1 t2 a b) (Ok (Z.gcd A B)).
Proof.
  intros t1 t2 a b A B Ha Hb E S RA RB. apply residue_unique in RA, RB. subst A B.
  set (c := common t1 t2) in *.
  assert (Ec : bits t1 = bits c).
  { unfold c. rewrite (proj1 (C95_common_type t1 t2)). destruct (C95_common_type t1 t2) as [_ [D _]].
    specialize (D S). lia. }
  assert (M : forall x y, ~ min_pair c x y) by (intros x y (X & _); congruence).
  destruct (gcd_stable t1 t2 a b Ha Hb) as (g & G1 & _ & G3 & G4 & G5 & _).
  { right. assumption. } { right. fold c. congruence. } { apply M. } { apply M. }
  fold c in G1, G3, G4, G5. pose proof (conv_inty c a) as CA. pose proof (conv_inty c b) as CB.
  unfold inty in CA, CB. rewrite S in CA, CB.
  assert (Eg : g = Z.gcd (conv c a) (conv c b)) by (apply NumProofs.is_gcd_nonneg; [apply G5; lia|assumption]).
  now rewrite <- Eg.
Qed.
Print Assumptions C95_gcd_same_width.
(** a negative operand meeting a wider unsigned type: the call need not return at all (in C++ such a
    loop is undefined behaviour): any negative value against any power of two from 2^bits on, in
    either argument order *)
Theorem C95_gcd_endless :
  forall t1 t2 a e, sgn t1 = true -> sgn t2 = false -> 32 <= bits t2 -> inty t1 a -> a < 0 ->
    bits t1 <= e < bits t2 ->
    inty t2 (2 ^ e) /\
    diverges (fun k => gcd k t1 t2 a (2 ^ e)) /\ diverges (fun k => gcd k t2 t1 (2 ^ e) a).
Proof.
  intros t1 t2 a e S1 S2 W Ha Na He. split; [|apply gcd_diverges; try assumption; lia].
  unfold inty. rewrite S2. pose proof (bits_cases t1).
  split; [apply Z.pow_nonneg; lia|apply Z.pow_lt_mono_r; lia].
Qed.
Print Assumptions C95_gcd_endless.
(** and when it returns, the result can be the divisor of neither argument: in each of these calls a
    negative number meets an unsigned type *)
Theorem C95_gcd_mixed_refuted :
  exists t1 t2 a b g, inty t1 a /\ inty t2 b /\ converges (fun k => gcd k t1 t2 a b) (Ok g) /\
    ~ (g | a) /\ bits t1 < bits t2 /\
    (exists t1' t2' a' b' g', inty t1' a' /\ inty t2' b' /\ bits t1' = bits t2' /\
       converges (fun k => gcd k t1' t2' a' b') (Ok g') /\ ~ (g' | a')).
Proof.
  exists i32, u64, (-1), 10000000000, 25.
  split; [vm_compute; intuition congruence|]. split; [vm_compute; intuition congruence|].
  split. { apply (gcd_converges _ _ _ _ 60). vm_compute. reflexivity. }
  split. { intros [q E]. lia. }
  split; [reflexivity|].
  exists i32, u32, (-1), 3, 3.
  split; [vm_compute; intuition congruence|]. split; [vm_compute; intuition congruence|].
  split; [reflexivity|].
  split. { apply (gcd_converges _ _ _ _ 60). vm_compute. reflexivity. }
  intros [q E]. lia.
Qed.
Print Assumptions C95_gcd_mixed_refuted.

(** [lcm]: the exact condition, for non-negative arguments of any two types *)
Theorem C95_lcm :
  forall t1 t2 a b, inty t1 a -> inty t2 b -> 0 <= a -> 0 <= b -> ~ (a = 0 /\ b = 0) ->
    ((exists m, converges (fun k => lcm k t1 t2 a b) (Ok m) /\ is_lcm m a b) <->
     inty (common t1 t2) (a * b) /\ inty (ret t1 t2) (Z.lcm a b)).
Proof.
  intros t1 t2 a b Ha Hb Pa Pb N0. set (c := common t1 t2) in *.
  assert (Ca : inty c a) by (now apply common_nonneg).
  assert (Cb : inty c b) by (unfold c; rewrite common_sym; now apply common_nonneg).
  assert (U : forall f (x y : outcome Z), converges f x -> converges f y -> x = y).
  { intros f x y [n F] [m G]. rewrite <- (F (n + m)%nat), <- (G (n + m)%nat) by lia. reflexivity. }
  assert (LL : is_lcm (Z.lcm a b) a b).
  { split; [apply Z.lcm_nonneg|]. split; [apply Z.divide_lcm_l|]. split; [apply Z.divide_lcm_r|].
    intros. now apply Z.lcm_least. }
  assert (LU : forall m, is_lcm m a b -> m = Z.lcm a b).
  { intros m (L1 & L2 & L3 & L4). apply Z.divide_antisym_nonneg; [assumption|apply Z.lcm_nonneg| |].
    - apply L4; [apply Z.divide_lcm_l|apply Z.divide_lcm_r].
    - now apply Z.lcm_least. }
  split.
  - intros (m & Cm & Lm). apply LU in Lm. subst m.
    destruct (has c (a * b)) eqn:E.
    + apply has_iff in E. split; [assumption|].
      destruct (lcm_fits t1 t2 a b Ha Hb Ca Cb N0 E) as (m & M & C1 & C2 & C3 & C4 & C5).
      pose proof (U _ _ _ Cm C1) as X. injection X as X. rewrite X. apply C2.
    + exfalso. assert (NI : ~ inty c (a * b)) by (intros X; apply has_iff in X; congruence).
      destruct (sgn c) eqn:S.
      * assert (X : converges (fun k => lcm k t1 t2 a b) UB).
        { exists 0%nat. intros k _. now apply lcm_product_ub. }
        pose proof (U _ _ _ Cm X). discriminate.
      * destruct (lcm_unsigned_wrong t1 t2 a b Ha Hb Ca Cb N0 S NI) as (m & C1 & C2).
        pose proof (U _ _ _ Cm C1) as X. injection X as X. apply C2. now rewrite <- X.
  - intros [E1 E2].
    destruct (lcm_fits t1 t2 a b Ha Hb Ca Cb N0 E1) as (m & M & C1 & C2 & C3 & C4 & C5).
    exists m. split; [assumption|]. specialize (C4 Pa Pb). rewrite Z.abs_eq in C3 by assumption.
    apply residue_unique in C2. rewrite C3, conv_id in C2 by assumption. now rewrite C2.
Qed.
Print Assumptions C95_lcm.
(** what happens otherwise: a product outside the common type is undefined for a signed one and gives
    a wrong number for an unsigned one *)
Theorem C95_lcm_overflow :
  forall t1 t2 a b, inty t1 a -> inty t2 b -> 0 <= a -> 0 <= b -> ~ inty (common t1 t2) (a * b) ->
    (sgn (common t1 t2) = true -> converges (fun k => lcm k t1 t2 a b) UB) /\
    (sgn (common t1 t2) = false -> exists m, converges (fun k => lcm k t1 t2 a b) (Ok m) /\ ~ is_lcm m a b).
Proof.
  intros t1 t2 a b Ha Hb Pa Pb N. set (c := common t1 t2) in *.
  assert (Ca : inty c a) by (now apply common_nonneg).
  assert (Cb : inty c b) by (unfold c; rewrite common_sym; now apply common_nonneg).
  split; intros S.
  - exists 0%nat. intros k _. now apply lcm_product_ub.
  - apply lcm_unsigned_wrong; try assumption. intros [-> ->]. apply N. apply inty_0.
Qed.
Print Assumptions C95_lcm_overflow.
(** negative arguments: the magnitude is that of the least common multiple *)
Theorem C95_lcm_signed :
  forall t1 t2 a b, inty t1 a -> inty t2 b -> sgn (common t1 t2) = true -> ~ (a = 0 /\ b = 0) ->
    inty (common t1 t2) (a * b) -> bits (ret t1 t2) = bits (common t1 t2) ->
    exists m, converges (fun k => lcm k t1 t2 a b) (Ok m) /\ Z.abs m = Z.lcm a b.
Proof.
  intros t1 t2 a b Ha Hb S N0 E Er. set (c := common t1 t2) in *.
  assert (Ca : inty c a) by (now apply common_signed).
  assert (Cb : inty c b) by (unfold c in *; rewrite common_sym in *; now apply common_signed).
  destruct (lcm_fits t1 t2 a b Ha Hb Ca Cb N0 E) as (m & M & C1 & C2 & C3 & C4 & C5).
  exists m. split; [assumption|]. apply residue_unique in C2.
  assert (Rc : ret t1 t2 = c).
  { clear - Er S. unfold c in *. destruct t1 as [[] []], t2 as [[] []]; cbn in *; try reflexivity; try discriminate. }
  rewrite Rc in C2.
  rewrite conv_id in C2 by assumption. now subst m.
Qed.
Print Assumptions C95_lcm_signed.
Theorem C95_lcm_zero : forall t1 t2, converges (fun k => lcm k t1 t2 0 0) UB.
Proof. intros t1 t2. exists 0%nat. intros k _. apply lcm_0_0. Qed.
Print Assumptions C95_lcm_zero.
(** unsigned arguments do not exclude undefined behaviour: [uint16_t] operands are multiplied as [int] *)
Theorem C95_lcm_unsigned_refuted :
  exists t a b, sgn t = false /\ inty t a /\ inty t b /\ is_lcm (Z.lcm a b) a b /\
    inty t (Z.lcm a b) /\ converges (fun k => lcm k t t a b) UB.
Proof.
  exists u16, 65535, 65535. split; [reflexivity|]. split; [vm_compute; intuition congruence|].
  split; [vm_compute; intuition congruence|].
  split.
  { split; [apply Z.lcm_nonneg|]. split; [apply Z.divide_lcm_l|]. split; [apply Z.divide_lcm_r|].
    intros. now apply Z.lcm_least. }
  split; [vm_compute; intuition congruence|].
  exists 0%nat. intros k _. reflexivity.
Qed.
Print Assumptions C95_lcm_unsigned_refuted.
(** the hypotheses on concrete calls of each kind *)
Example C95_example :
  gcd 10 i32 i64 (-12) 18 = Ok 6 /\ gcd 10 u32 i64 12 (-18) = Ok (-6) /\ gcd 10 i16 i16 (-32768) (-1) = Ok (-1)
  /\ gcd 10 i32 u32 (-6) 4294967295 = Ok 5 /\ Z.gcd 4294967290 4294967295 = 5
  /\ gcd 1000 i32 u64 (-6) (2 ^ 40) = Fuel
  /\ lcm 10 i32 u32 21 6 = Ok 42 /\ lcm 10 u32 u32 65536 65536 = Ok 0 /\ lcm 10 i16 i16 300 299 = Ok 24164
  /\ lcm 10 i16 i32 300 299 = Ok 89700 /\ lcm 10 i32 i32 (-4) 6 = Ok (-12).
Proof. repeat split; vm_compute; reflexivity. Qed.

(** C96: factorials.  For [int] and [int64_t] an overflow is undefined; every other type returns the
    factorial modulo 2^bits, except that the largest value of the type never returns *)
Theorem C96_factorial :
  forall t n, inty t n ->
    (n < 0 -> converges (fun k => factorial k t n) Err) /\
    (0 <= n -> zfact (Z.to_nat n) <= tmax t -> converges (fun k => factorial k t n) (Ok (zfact (Z.to_nat n)))) /\
    (0 <= n -> tmax t < zfact (Z.to_nat n) -> sgn t = true -> 32 <= bits t -> converges (fun k => factorial k t n) UB) /\
    (0 <= n -> n < tmax t -> sgn t = false \/ bits t < 32 ->
       exists v, residue t (zfact (Z.to_nat n)) v /\ converges (fun k => factorial k t n) (Ok v)) /\
    (n = tmax t -> sgn t = false \/ bits t < 32 -> diverges (fun k => factorial k t n)).
Proof.
  intros t n I. pose proof (tmax_ge t) as TM.
  assert (NW : sgn t = false \/ bits t < 32 -> wrapping t) by (intros H [S W]; destruct H; [congruence|lia]).
  split; [|split; [|split; [|split]]].
  - intros H. exists 0%nat. intros k _. unfold factorial. destruct (Z.ltb_spec n 0); [reflexivity|lia].
  - intros H L. destruct (checked_dec t) as [C|W].
    + pose proof (factorial_checked t n C I H) as F. destruct (Z.leb_spec (zfact (Z.to_nat n)) (tmax t)); [assumption|lia].
    + assert (n < tmax t).
      { destruct (Z_lt_le_dec n (tmax t)); [assumption|exfalso].
        pose proof (zfact_succ n ltac:(lia)) as FS.
        pose proof (zfact_mono 2 (Z.to_nat (n - 1)) ltac:(lia)) as M. change (zfact 2) with 2 in M. nia. }
      rewrite <- (conv_id t (zfact (Z.to_nat n))).
      * apply factorial_wrap; [assumption|lia].
      * apply inty_pos. pose proof (zfact_ge1 (Z.to_nat n)). lia.
  - intros H L S W. pose proof (factorial_checked t n (conj S W) I H) as F.
    destruct (Z.leb_spec (zfact (Z.to_nat n)) (tmax t)); [lia|assumption].
  - intros H L W. exists (conv t (zfact (Z.to_nat n))). split; [apply conv_residue|].
    apply factorial_wrap; [auto|lia].
  - intros -> W. apply factorial_diverges. auto.
Qed.
Print Assumptions C96_factorial.
(** permutations: exact whenever the number fits, in every type; otherwise undefined for [int] and
    [int64_t] and reduced modulo 2^bits for the other types except [uint16_t] *)
Theorem C96_permutation :
  forall t n r, 1 <= r <= n -> n <= tmax t ->
    exists p, p * zfact (Z.to_nat (n - r)) = zfact (Z.to_nat n) /\
      (p <= tmax t -> permutation t n r = Ok p) /\
      (tmax t < p -> sgn t = true -> 32 <= bits t -> permutation t n r = UB) /\
      (sgn t = false \/ bits t < 32 -> t <> u16 -> exists v, residue t p v /\ permutation t n r = Ok v).
Proof.
  intros t n r Hr Hn. exists (falling n (Z.to_nat r)).
  destruct (permutation_fits t n r Hr Hn) as [P1 P2].
  split.
  { pose proof (falling_fact (Z.to_nat n) (Z.to_nat r) ltac:(lia)) as F.
    replace (Z.of_nat (Z.to_nat n)) with n in F by lia.
    now replace (Z.to_nat (n - r)) with (Z.to_nat n - Z.to_nat r)%nat by lia. }
  split; [assumption|]. split.
  - intros L S W. rewrite (P1 (conj S W)). destruct (Z.leb_spec (falling n (Z.to_nat r)) (tmax t)); [lia|reflexivity].
  - intros H N. exists (conv t (falling n (Z.to_nat r))). split; [apply conv_residue|].
    apply permutation_wrap; try assumption. intros [S W]. destruct H; [congruence|lia].
Qed.
Print Assumptions C96_permutation.
Theorem C96_permutation_invalid : forall t n r, n < 0 \/ r < 0 \/ n < r -> permutation t n r = Err.
Proof.
  intros t n r H. unfold permutation. destruct ((n <? 0) || (r <? 0) || (n <? r)) eqn:E; [reflexivity|lia].
Qed.
Print Assumptions C96_permutation_invalid.
(** nP0 is 1, but the call returns n in every type *)
Theorem C96_permutation_zero : forall t n, inty t n -> 0 <= n -> permutation t n 0 = Ok n.
Proof. exact permutation_zero. Qed.
Print Assumptions C96_permutation_zero.
(** [uint16_t] is unsigned, yet its products are computed in [int] and can overflow there *)
Theorem C96_permutation_unsigned_refuted :
  exists t n r, sgn t = false /\ inty t n /\ 1 <= r <= n /\ permutation t n r = UB.
Proof. exists u16, 65535, 2. repeat split; try (vm_compute; congruence). Qed.
Print Assumptions C96_permutation_unsigned_refuted.
(** binomial coefficients (types of at least 32 bits): as long as both r and n - r are [int] values,
    exact if it fits, undefined for a signed type and reduced for an unsigned type otherwise *)
Theorem C96_binomial :
  forall t n r, 32 <= bits t -> 0 <= r <= n -> r <= int32_max -> n - r <= int32_max ->
    exists c, c * zfact (Z.to_nat r) * zfact (Z.to_nat (n - r)) = zfact (Z.to_nat n) /\
      (c <= tmax t -> binomial t n r = Ok c) /\
      (tmax t < c -> sgn t = true -> binomial t n r = UB) /\
      (sgn t = false -> binomial t n r = Ok (c mod 2 ^ bits t)).
Proof.
  intros t n r W Hr H1 H2. exists (NumBinProofs.GZ (n - r) r).
  split; [now apply NumBinProofs.binomial_fact|]. rewrite binomial_value by assumption.
  set (c := NumBinProofs.GZ (n - r) r).
  assert (P : 1 <= c) by apply NumBinProofs.G_pos.
  split; [|split].
  - intros L. assert (I : inty t c) by (apply inty_pos; lia). rewrite (proj2 (has_iff t c) I).
    rewrite conv_id by assumption. now destruct (sgn t).
  - intros L S. rewrite S. destruct (has t c) eqn:E; [|reflexivity]. apply has_iff, inty_iff in E. lia.
  - intros S. rewrite S. now rewrite conv_mod_unsigned.
Qed.
Print Assumptions C96_binomial.
(** the loop counters are [int] whatever the type: beyond them the call is undefined *)
Theorem C96_binomial_counter :
  forall t n r, 0 < r < n -> int32_max < r \/ int32_max < n - r -> binomial t n r = UB.
Proof. exact binomial_counter. Qed.
Print Assumptions C96_binomial_counter.
Theorem C96_binomial_counter_refuted :
  exists t n r c, sgn t = false /\ inty t n /\ 0 < r < n /\ inty t c /\
    c * r = n /\ r = 1 /\ binomial t n r = UB.
Proof.
  exists u64, (2 ^ 32), 1, (2 ^ 32).
  split; [reflexivity|]. split; [vm_compute; intuition congruence|]. split; [lia|].
  split; [vm_compute; intuition congruence|]. split; [reflexivity|]. split; [reflexivity|].
  apply binomial_counter; [lia|]. right. reflexivity.
Qed.
Print Assumptions C96_binomial_counter_refuted.
Example C96_example :
  factorial 100 u32 13 = Ok 1932053504 /\ factorial 100 i16 8 = Ok (-25216) /\ factorial 1000 (Ty false W8) 255 = Fuel
  /\ factorial 100 u64 20 = Ok 2432902008176640000 /\ factorial 100 i32 13 = UB
  /\ permutation u32 10 3 = Ok 720 /\ permutation i16 200 3 = Ok 16080 /\ permutation u16 40 3 = Ok 59280
  /\ binomial u32 34 17 = Ok 2333606220 /\ binomial u32 40 20 = Ok 407575348 /\ binomial i32 34 17 = UB.
Proof. repeat split; vm_compute; reflexivity. Qed.

(** C97: [genericBinaryPow] on integers.  The last squaring is superfluous and can overflow although
    the power itself fits *)
Theorem C97_power :
  forall t base exp, inty t base -> 0 <= exp < 2 ^ 64 ->
    (sgn t = true -> 32 <= bits t ->
       (exp <= 1 \/ base = 0 \/ base ^ (2 ^ (Z.log2 (exp - 1) + 1)) <= tmax t ->
          genericBinaryPow t base exp = Ok (base ^ exp)) /\
       (~ (exp <= 1 \/ base = 0 \/ base ^ (2 ^ (Z.log2 (exp - 1) + 1)) <= tmax t) ->
          genericBinaryPow t base exp = UB)) /\
    (sgn t = false \/ bits t < 32 -> t <> u16 ->
       exists v, residue t (base ^ exp) v /\ genericBinaryPow t base exp = Ok v).
Proof.
  intros t base exp Hb He. unfold genericBinaryPow. split.
  - intros S W. assert (C : checked t) by (now split).
    destruct (Z.eqb_spec exp 0) as [->|N0].
    { split; [intros _; reflexivity|]. intros H. exfalso. apply H. left. lia. }
    destruct (Z.eqb_spec exp 1) as [->|N1].
    { split; [intros _; now rewrite Z.pow_1_r|]. intros H. exfalso. apply H. left. lia. }
    destruct (Z.ltb_spec exp 0); [lia|].
    destruct (Z.eq_dec base 0) as [->|Nb].
    { rewrite (gpow_zero t 64) by (change (2 ^ Z.of_nat 64) with (2 ^ 64); lia).
      split; [intros _; rewrite Z.pow_0_l by lia; reflexivity|]. intros H0. exfalso. apply H0. right. now left. }
    rewrite (gpow_checked t C 64); [|change (2 ^ Z.of_nat 64) with (2 ^ 64); lia|lia|assumption|assumption].
    destruct (Z.eqb_spec (exp - 1) 0); [lia|]. cbn [orb].
    destruct (Z.leb_spec (base ^ (2 ^ (Z.log2 (exp - 1) + 1))) (tmax t)) as [L|L].
    + split; [|intros X; exfalso; apply X; now right; right].
      intros _. f_equal. rewrite <- (Z.pow_1_r base) at 1. rewrite <- Z.pow_add_r by lia. f_equal. lia.
    + split; [intros [X|[X|X]]; lia|reflexivity].
  - intros H N. assert (W : wrapping t) by (intros [S W]; destruct H; [congruence|lia]).
    exists (conv t (base ^ exp)). split; [apply conv_residue|].
    destruct (Z.eqb_spec exp 0) as [->|N0].
    { rewrite Z.pow_0_r, conv_id; [reflexivity|apply inty_small; lia]. }
    destruct (Z.eqb_spec exp 1) as [->|N1].
    { now rewrite Z.pow_1_r, conv_id. }
    destruct (Z.ltb_spec exp 0); [lia|].
    rewrite <- (conv_id t base) at 1 2 by assumption.
    rewrite (gpow_wrap t W N 64) by (change (2 ^ Z.of_nat 64) with (2 ^ 64); lia).
    f_equal. f_equal. rewrite <- (Z.pow_1_r base) at 1. rewrite <- Z.pow_add_r by lia. f_equal. lia.
Qed.
Print Assumptions C97_power.
Theorem C97_power_negative : forall t base exp, exp < 0 -> genericBinaryPow t base exp = Err.
Proof.
  intros t base exp H. unfold genericBinaryPow. destruct (Z.eqb_spec exp 0); [lia|].
  destruct (Z.eqb_spec exp 1); [lia|]. destruct (Z.ltb_spec exp 0); [reflexivity|lia].
Qed.
Print Assumptions C97_power_negative.
(** a representable power is not enough: 2^17 as [int] is undefined; nor is an unsigned type *)
Theorem C97_power_representable_refuted :
  exists base exp, inty i32 (base ^ exp) /\ 0 < base /\ genericBinaryPow i32 base exp = UB /\
    genericBinaryPow u16 65535 2 = UB.
Proof. exists 2, 17. repeat split; try (vm_compute; congruence). Qed.
Print Assumptions C97_power_representable_refuted.

(** sums of the elements: modulo 2^bits, or for [int] and [int64_t] exact, undefined as soon as the sum
    of a prefix does not fit *)
Theorem C97_sum :
  forall t l, Forall (inty t) l ->
    (sgn t = true -> 32 <= bits t ->
       (prefixes_fit t l -> sum t l = Ok (zsum l)) /\ (~ prefixes_fit t l -> sum t l = UB)) /\
    (sgn t = false \/ bits t < 32 -> exists v, residue t (zsum l) v /\ sum t l = Ok v).
Proof.
  intros t l F. split.
  - intros S W. destruct (sum_loop_checked t (conj S W) l 0 F (inty_0 t)) as [[E P]|[E (p & q & El & P)]];
      unfold sum; rewrite E; split; intros H; try reflexivity.
    + exfalso. apply H. intros p q Epq. apply (P p q Epq).
    + exfalso. apply P. apply (H p q El).
  - intros H. assert (W : wrapping t) by (intros [S W]; destruct H; [congruence|lia]).
    exists (conv t (zsum l)). split; [apply conv_residue|]. unfold sum.
    rewrite <- (conv_0 t). now rewrite sum_loop_wrap.
Qed.
Print Assumptions C97_sum.
(** with a mapping function: the sum of the results, in the result type of the function; a call that
    ends the program ends the sum *)
Theorem C97_sum_map :
  forall (A : Type) t (fn : A -> outcome Z) l,
    (forall vs, Forall2 (fun x v => fn x = Ok v) l vs -> sum_map t fn l = sum t vs) /\
    (forall p x q vs s, l = p ++ x :: q -> Forall2 (fun x v => fn x = Ok v) p vs -> sum t vs = Ok s ->
       fn x = Err -> sum_map t fn l = Err).
Proof.
  intros A t fn l. split.
  - intros vs H. now apply sum_map_eq.
  - intros p x q vs s -> H E X. now apply (sum_map_stop t fn p vs x q 0 s).
Qed.
Print Assumptions C97_sum_map.
Example C97_example :
  genericBinaryPow i32 3 17 = UB /\ genericBinaryPow i64 3 17 = Ok 129140163 /\ genericBinaryPow u32 3 30 = Ok 3284826297
  /\ genericBinaryPow i32 (-1) 1000000001 = Ok (-1) /\ genericBinaryPow i16 3 11 = Ok (-19461)
  /\ sum i32 [2147483647; -1; 1] = Ok 2147483647 /\ sum i32 [2147483647; 1; -1] = UB
  /\ sum u32 [4294967295; 2] = Ok 1 /\ sum i16 [32767; 1] = Ok (-32768)
  /\ sum_map i32 (fun x => if x <? 0 then Err else Ok (2 * x)) [1; 2; 3] = Ok 12
  /\ sum_map i32 (fun x => if x <? 0 then Err else Ok (2 * x)) [1; -2; 3] = Err.
Proof. repeat split; vm_compute; reflexivity. Qed.
