(** Property theorems C25-C30 (BigNum). *)
From Verif Require Import BigStepProofs.
From Verif Require Import Base DecModel DecProofs BigModel BigSpec BigProofs BigOpProofs BigThmProofs.
Local Open Scope Z_scope.

(** ** C25: text and integers *)
Theorem C25_string_round_trip :
  forall cap s z, numeral s z -> z <> 0 -> Z.abs z < 10 ^ Z.of_nat cap ->
    exists b, of_string cap s = Ok b /\ denotes cap b z /\ toString b = Ok s.
Proof.
  intros cap s z Hn Hz Hc.
  assert (Hlen : forall t, canon_digits t -> dec_value t <> 0 -> dec_value t < 10 ^ Z.of_nat cap ->
            t <> [] /\ forallb is_digit t = true /\ hd_error t <> Some "0"%char /\ (length t <= cap)%nat).
  { intros t Ht H0 H1. assert (Hnz : t <> ["0"%char]) by (intros ->; apply H0; reflexivity).
    pose proof (canon_digits_lower t Ht Hnz) as Hl. destruct Ht as (H2 & H3 & H4).
    split; [assumption|]. split; [assumption|]. split.
    - destruct H4 as [H4|H4]; [|assumption]. intros E. destruct t as [|c t]; [congruence|].
      destruct t; [|discriminate]. cbn [hd_error] in E. injection E as ->. now apply Hnz.
    - destruct (Nat.le_gt_cases (length t) cap) as [|Hgt]; [assumption|].
      assert (10 ^ Z.of_nat cap <= 10 ^ (Z.of_nat (length t) - 1)) by (apply Z.pow_le_mono_r; lia). lia. }
  destruct Hn as [[Hd E]|(t & -> & Hd & H0 & E)].
  - destruct (Hlen s Hd) as (H1 & H2 & H3 & H4); [lia|lia|].
    destruct (of_string_pos cap s H2 H1 H3 H4) as (b & Eb & Db & _). rewrite E in Db.
    exists b. split; [assumption|]. split; [assumption|].
    destruct (toString_spec cap b z Db Hz) as (s' & Es & Hs'). rewrite Es. f_equal.
    apply (numeral_unique s' s z); [assumption|]. left. auto.
  - destruct Hd as [D1 [D2 D3]] eqn:ED. pose proof (dec_value_bound t D2) as Bt.
    destruct (Hlen t Hd) as (H1 & H2 & H3 & H4); [lia|lia|].
    destruct (of_string_neg cap t H2 H1 H3 H4) as (b & Eb & Db & _). rewrite E in Db.
    exists b. split; [assumption|]. split; [assumption|].
    destruct (toString_spec cap b z Db Hz) as (s' & Es & Hs'). rewrite Es. f_equal.
    apply (numeral_unique s' _ z); [assumption|]. right. eauto.
Qed.
Print Assumptions C25_string_round_trip.
Theorem C25_int64 :
  forall cap x, in_int64 x = true -> x <> int64_min -> Z.abs x < 10 ^ Z.of_nat cap ->
    exists b, of_int64 cap x = Ok b /\ denotes cap b x /\ clean b /\
      (x <> 0 -> exists s, toString b = Ok s /\ numeral s x) /\ (x = 0 -> toString b = Ok []).
Proof.
  intros cap x H1 H2 H3. destruct (of_int64_spec cap x H1 H2 H3) as (b & E & D & C).
  exists b. split; [assumption|]. split; [assumption|]. split; [assumption|]. split.
  - intros Hx. now apply (toString_spec cap).
  - intros ->. now apply (toString_zero cap).
Qed.
Print Assumptions C25_int64.
Theorem C25_int64_min : forall cap, of_int64 cap int64_min = UB.
Proof. reflexivity. Qed.
Print Assumptions C25_int64_min.
(** two printable values are printed alike only if they are equal *)
Theorem C25_toString_injective :
  forall cap a b x y, denotes cap a x -> denotes cap b y -> toString a = toString b -> x = y.
Proof.
  intros cap a b x y Ha Hb E.
  assert (Hne : forall s z, numeral s z -> s <> []).
  { intros s z [[(H & _) _]|(t & -> & _)]; [assumption|discriminate]. }
  destruct (Z.eq_dec x 0) as [->|Hx], (Z.eq_dec y 0) as [->|Hy]; [reflexivity|..].
  - rewrite (toString_zero _ _ Ha) in E. destruct (toString_spec _ _ _ Hb Hy) as (s & Es & Hs).
    rewrite Es in E. injection E as <-. now apply Hne in Hs.
  - rewrite (toString_zero _ _ Hb) in E. destruct (toString_spec _ _ _ Ha Hx) as (s & Es & Hs).
    rewrite Es in E. injection E as ->. now apply Hne in Hs.
  - destruct (toString_spec _ _ _ Ha Hx) as (s & Es & Hs). destruct (toString_spec _ _ _ Hb Hy) as (t & Et & Ht).
    rewrite Es, Et in E. injection E as ->.
    destruct Hs as [[(H1 & H1' & _) H2]|(u & -> & H1 & H2 & H3)], Ht as [[K1 K2]|(v & Ev & K1 & K2 & K3)].
    + congruence.
    + subst t. cbn [forallb] in H1'. discriminate.
    + destruct K1 as (_ & K1 & _). cbn [forallb] in K1. discriminate.
    + injection Ev as <-. lia.
Qed.
Print Assumptions C25_toString_injective.
(** zero does not print as "0" *)
Theorem C25_zero_prints_empty_refuted : exists b, of_int64 5 0 = Ok b /\ toString b <> Ok (str "0").
Proof. eexists. split; [reflexivity|]. vm_compute. discriminate. Qed.
Print Assumptions C25_zero_prints_empty_refuted.
Example C25_example :
  (b <- of_string 20 (str "-90071992547409931") ;; toString b) = Ok (str "-90071992547409931")
  /\ numeral (str "-90071992547409931") (-90071992547409931)
  /\ (b <- of_int64 20 (-9223372036854775807) ;; toString b) = Ok (str "-9223372036854775807").
Proof.
  split; [vm_compute; reflexivity|]. split; [|vm_compute; reflexivity].
  right. exists (str "90071992547409931"). repeat split; try (vm_compute; congruence). right. vm_compute. congruence.
Qed.

(** ** C26: exact sums and differences *)
Theorem C26_add_same_sign :
  forall cap a b x y f, denotes cap a x -> denotes cap b y -> clean a -> clean b ->
    Z.max (len a) (len b) < Z.of_nat cap -> (x < 0 <-> y < 0) ->
    (exists r, plus f cap a b = Ok r /\ denotes cap r (x + y) /\ clean r) /\
    (exists r, plus_assign f cap a b = Ok r /\ denotes cap r (x + y) /\ clean r).
Proof. intros. now apply plus_same. Qed.
Print Assumptions C26_add_same_sign.
Theorem C26_sub_nonnegative :
  forall cap a b x y f, denotes cap a x -> denotes cap b y -> clean a -> clean b -> 0 <= x -> 0 <= y ->
    (exists r, minus (S (S f)) cap a b = Ok r /\ denotes cap r (x - y) /\ clean r) /\
    (exists r, minus_assign (S (S f)) cap a b = Ok r /\ denotes cap r (x - y)).
Proof.
  intros cap a b x y f Ha Hb Ca Cb Hx Hy.
  destruct (minus_nonneg cap a b x y f Ha Hb Ca Cb Hx Hy) as (v & r & Ev & Er & Dr & Cr & Dv). split; [eauto|].
  unfold minus_assign. rewrite Ev. cbn [bind].
  destruct Ha as [(ds & tl & _ & La & _) _].
  destruct (assign_value cap a v (x - y) La Dv) as (r' & E & D & _). eauto.
Qed.
Print Assumptions C26_sub_nonnegative.
Theorem C26_sub_different_sign :
  forall cap a b x y f, denotes cap a x -> denotes cap b y -> clean a -> clean b ->
    Z.max (len a) (len b) < Z.of_nat cap -> (x < 0 <-> ~ y < 0) ->
    exists r, minus f cap a b = Ok r /\ denotes cap r (x - y) /\ clean r.
Proof. intros. now apply minus_diff. Qed.
Print Assumptions C26_sub_different_sign.
(** a full array (as many digits as the capacity) cannot be added to at all *)
Theorem C26_add_at_capacity :
  forall cap a b f, sgn a = sgn b -> Z.max (len a) (len b) = Z.of_nat cap -> plus f cap a b = UB.
Proof.
  intros cap a b f Hs Hl. unfold plus, plus_val. rewrite Hs, Z.eqb_refl. rewrite add_full by lia. reflexivity.
Qed.
Print Assumptions C26_add_at_capacity.
(** whole expressions over natural numbers evaluate exactly *)
Theorem C26_natural_expressions :
  forall cap e, (1 <= cap)%nat -> 90 * Z.of_nat cap <= 900000000 -> natural cap e ->
    exists b, beval cap e = Ok b /\ denotes cap b (zeval e) /\ clean b.
Proof. intros cap e H1 H2. now apply beval_natural. Qed.
Print Assumptions C26_natural_expressions.
Example C26_example :
  natural 30 (BSub (BMul (BStr (str "99999999999")) (BInt 999999999)) (BAdd (BInt 7) (BStr (str "98999999999999999"))))
  /\ (b <- beval 30 (BSub (BMul (BStr (str "99999999999")) (BInt 999999999)) (BAdd (BInt 7) (BStr (str "98999999999999999")))) ;; toString b)
     = Ok (str "99900999898999999995").
Proof. split; [|vm_compute; reflexivity].
  cbn [natural]. repeat match goal with |- _ /\ _ => split end; vm_compute; congruence. Qed.

(** ** C27: mixed signs *)
Theorem C27_add_mixed_signs :
  forall cap a b x y, denotes cap a x -> denotes cap b y -> clean a -> clean b -> (x < 0 <-> ~ y < 0) ->
    (0 <= x + y -> forall f, exists r, plus (S f) cap a b = Ok r /\ denotes cap r (x + y) /\ clean r) /\
    (x + y < 0 -> forall f, plus f cap a b = Fuel /\ plus_assign f cap a b = Fuel).
Proof.
  intros cap a b x y Ha Hb Ca Cb Hs. split.
  - intros H f. destruct (plus_mixed cap a b x y f Ha Hb Ca Cb Hs) as [H1 _]. auto.
  - intros H. destruct (plus_mixed cap a b x y 0 Ha Hb Ca Cb Hs) as [_ H1]. auto.
Qed.
Print Assumptions C27_add_mixed_signs.
Theorem C27_sub_negatives :
  forall cap a b x y f, denotes cap a x -> denotes cap b y -> x < 0 -> y < 0 ->
    Z.min (len a) (len b) < Z.of_nat cap ->
    exists r, minus (S (S f)) cap a b = Ok r /\
      (x = y -> denotes cap r 0) /\
      (x < y -> sgn r = 1 /\ magnitude cap r ((x - y) mod 10 ^ len b)) /\
      (y < x -> sgn r = -1 /\ magnitude cap r ((y - x) mod 10 ^ len a)) /\
      (x <> y -> ~ denotes cap r (x - y)).
Proof. intros. now apply minus_negative. Qed.
Print Assumptions C27_sub_negatives.
(** [++] is exact from -1 upwards and never returns below; [--] is always exact *)
Theorem C27_increment :
  forall cap a x, denotes cap a x -> clean a -> len a < Z.of_nat cap -> (2 <= cap)%nat ->
    (-1 <= x -> forall f, exists r, incr (S f) cap a = Ok r /\ denotes cap r (x + 1)) /\
    (x < -1 -> forall f, incr f cap a = Fuel).
Proof.
  intros cap a x Ha Ca Hl Hc. split; intros Hx f.
  - now apply incr_value.
  - eapply incr_diverges; try eassumption. lia.
Qed.
Print Assumptions C27_increment.
Theorem C27_decrement :
  forall cap a x f, denotes cap a x -> clean a -> len a < Z.of_nat cap -> (2 <= cap)%nat ->
    exists r, decr (S (S f)) cap a = Ok r /\ denotes cap r (x - 1).
Proof. intros. now apply decr_value. Qed.
Print Assumptions C27_decrement.
(** the compound assignments with operands of different signs *)
Theorem C27_assign_mixed_signs :
  forall cap a b x y f, denotes cap a x -> denotes cap b y -> clean a -> clean b -> (x < 0 <-> ~ y < 0) ->
    (0 <= x + y -> exists r, plus_assign (S f) cap a b = Ok r /\ denotes cap r (x + y)) /\
    (Z.max (len a) (len b) < Z.of_nat cap -> exists r, minus_assign f cap a b = Ok r /\ denotes cap r (x - y)).
Proof. intros. split; intros; [now apply plus_assign_mixed|now apply minus_assign_diff]. Qed.
Print Assumptions C27_assign_mixed_signs.
Definition show (m : outcome big) : outcome bytes := b <- m ;; toString b.
Example C27_example :
  show (a <- of_int64 9 1234 ;; b <- of_int64 9 (-234) ;; plus 5 9 a b) = Ok (str "1000")
  /\ show (a <- of_int64 9 (-1235) ;; b <- of_int64 9 1234 ;; plus 1000 9 a b) = Fuel
  /\ show (a <- of_int64 9 (-5) ;; b <- of_int64 9 (-3) ;; minus 5 9 a b) = Ok (str "8")
  /\ show (a <- of_int64 9 (-3) ;; b <- of_int64 9 (-5) ;; minus 5 9 a b) = Ok (str "-8")
  /\ show (a <- of_int64 9 999 ;; incr 5 9 a) = Ok (str "1000")
  /\ show (a <- of_int64 9 (-2) ;; incr 500 9 a) = Fuel
  /\ show (a <- of_int64 9 (-99) ;; decr 5 9 a) = Ok (str "-100").
Proof. repeat split; vm_compute; reflexivity. Qed.

(** ** C28: multiplication *)
Theorem C28_product :
  forall cap a b x y, denotes cap a x -> denotes cap b y -> 90 * Z.of_nat cap <= 900000000 ->
    len a + len b <= Z.of_nat cap ->
    exists r, times cap a b = Ok r /\ denotes cap r (x * Z.abs y) /\ clean r.
Proof. intros. now apply times_value. Qed.
Print Assumptions C28_product.
(** hence the product is exact iff the right operand is non-negative or the left is zero *)
Theorem C28_exact_iff :
  forall cap a b x y, denotes cap a x -> denotes cap b y -> 90 * Z.of_nat cap <= 900000000 ->
    len a + len b <= Z.of_nat cap ->
    exists r, times cap a b = Ok r /\ (denotes cap r (x * y) <-> 0 <= y \/ x = 0).
Proof.
  intros cap a b x y Ha Hb Hbig Hc. destruct (times_value cap a b x y Ha Hb Hbig Hc) as (r & E & D & _).
  exists r. split; [assumption|]. split.
  - intros D'. assert (Hv : x * y = x * Z.abs y).
    { destruct D as [(ds & tl & E1 & L1 & N1 & F1 & T1 & V1) S1], D' as [(ds' & tl' & E2 & L2 & N2 & F2 & T2 & V2) S2].
      assert (Heq : Z.abs (x * y) = Z.abs (x * Z.abs y)) by (rewrite !Z.abs_mul, Z.abs_involutive; reflexivity).
      rewrite S1 in S2. destruct (Z.ltb_spec (x * y) 0), (Z.ltb_spec (x * Z.abs y) 0); lia. }
    destruct (Z.le_gt_cases 0 y); [now left|]. right. rewrite Z.abs_neq in Hv by lia. nia.
  - intros [Hy|Hx]; [rewrite Z.abs_eq in D by assumption; assumption|]. subst x. rewrite Z.mul_0_l in *. assumption.
Qed.
Print Assumptions C28_exact_iff.
Theorem C28_product_beyond_capacity :
  forall cap a b x y, denotes cap a x -> denotes cap b y -> x <> 0 -> y <> 0 ->
    Z.of_nat cap < len a + len b -> times cap a b = UB.
Proof. exact times_full. Qed.
Print Assumptions C28_product_beyond_capacity.
(** the forms taking an int64, [a * n] and [a *= n] *)
Theorem C28_product_int :
  forall cap a x n k, denotes cap a x -> 90 * Z.of_nat cap <= 900000000 ->
    int64_min < n <= int64_max -> Z.abs n < 10 ^ Z.of_nat k -> len a + Z.of_nat k <= Z.of_nat cap ->
    (exists r, times_int cap a n = Ok r /\ denotes cap r (x * Z.abs n) /\ clean r) /\
    (exists r, times_assign_int cap a n = Ok r /\ denotes cap r (x * Z.abs n)).
Proof.
  intros cap a x n k Ha Hb Hn Hk Hl. apply (times_int_value cap a x n k); try assumption.
  - unfold in_int64. lia.
  - lia.
  - destruct Ha as [(ds & tl & _ & _ & -> & _) _]. lia.
Qed.
Print Assumptions C28_product_int.
Example C28_example :
  show (a <- of_int64 40 (-999999999999) ;; b <- of_int64 40 987654321987 ;; times 40 a b) = Ok (str "-987654321986012345678013")
  /\ show (a <- of_int64 9 7 ;; b <- of_int64 9 (-6) ;; times 9 a b) = Ok (str "42")
  /\ show (a <- of_int64 3 11 ;; b <- of_int64 3 11 ;; times 3 a b) = UB
  /\ show (a <- of_int64 9 (-123) ;; times_assign_int 9 a 45) = Ok (str "-5535").
Proof. repeat split; vm_compute; reflexivity. Qed.

(** ** C29: comparison *)
Theorem C29_comparison :
  forall cap a b x y, denotes cap a x -> denotes cap b y ->
    eq a b = Ok (x =? y) /\ ne a b = Ok (negb (x =? y)) /\
    lt a b = Ok (x <? y) /\ le a b = Ok (x <=? y) /\ gt a b = Ok (y <? x) /\ ge a b = Ok (y <=? x).
Proof.
  intros cap a b x y Ha Hb. pose proof (cmp_denotes cap a b x y Ha Hb) as E.
  unfold eq, ne, lt, le, gt, ge, omap. rewrite E. cbn [bind].
  destruct (Z.lt_trichotomy x y) as [H|[H|H]].
  - rewrite Z.sgn_neg by lia. cbn. repeat split; f_equal; lia.
  - rewrite H, Z.sub_diag. cbn. repeat split; f_equal; lia.
  - rewrite Z.sgn_pos by lia. cbn. repeat split; f_equal; lia.
Qed.
Print Assumptions C29_comparison.
(** negating zero gives a second zero that differs from the first *)
Theorem C29_negative_zero :
  forall cap a, denotes cap a 0 -> exists r, opp cap a = Ok r /\ eq r a = Ok false /\ lt r a = Ok true.
Proof.
  intros cap a Ha. destruct (opp_value cap a 0 Ha) as (r & E & _ & _ & _ & S & _). exists r. split; [assumption|].
  destruct Ha as [_ Sa]. cbn in Sa. rewrite Sa in S.
  unfold eq, lt, cmp. rewrite S, Sa. split; reflexivity.
Qed.
Print Assumptions C29_negative_zero.
Theorem C29_negation :
  forall cap a x, denotes cap a x -> x <> 0 -> exists r, opp cap a = Ok r /\ denotes cap r (- x).
Proof. intros cap a x Ha Hx. destruct (opp_value cap a x Ha) as (r & E & D & _). eauto. Qed.
Print Assumptions C29_negation.
Example C29_example :
  (a <- of_int64 20 (-90071992547409931) ;; b <- of_int64 20 (-90071992547409930) ;; lt a b) = Ok true
  /\ (a <- of_int64 20 100 ;; b <- of_int64 20 99 ;; le a b) = Ok false
  /\ (a <- of_int64 20 0 ;; b <- opp 20 a ;; eq a b) = Ok false.
Proof. repeat split; vm_compute; reflexivity. Qed.

(** ** C30: left-over digits *)
(** [d = s] makes [d] denote the value of [s] and keeps the cells of [d] above it *)
Theorem C30_assignment_keeps_old_digits :
  forall cap d s z, length (el d) = cap -> denotes cap s z ->
    exists r, assign d s = Ok r /\ denotes cap r z /\
      forall i, len s <= i -> aget (el r) i = aget (el d) i.
Proof. exact assign_value. Qed.
Print Assumptions C30_assignment_keeps_old_digits.
(** a sum with a longer operand adds the left-over digits in *)
Theorem C30_sum_adds_leftover_digits :
  forall cap a b x y st f, denotes cap a x -> denotes cap b y -> 0 <= x -> 0 <= y ->
    leftover b st -> len b + Z.of_nat (length st) = len a -> len a < Z.of_nat cap ->
    (exists r, plus f cap a b = Ok r /\ denotes cap r (x + (y + 10 ^ len b * dval st))) /\
    (exists r, plus f cap b a = Ok r /\ denotes cap r ((y + 10 ^ len b * dval st) + x)).
Proof. intros. now apply plus_leftover. Qed.
Print Assumptions C30_sum_adds_leftover_digits.
(** unary minus leaves indeterminate cells: adding a longer number of the same sign is UB *)
Theorem C30_negation_then_longer_sum :
  forall cap a c x z f, denotes cap a x -> denotes cap c z -> x <> 0 -> (x < 0 <-> 0 <= z) ->
    len a < len c -> exists r, opp cap a = Ok r /\ plus f cap r c = UB.
Proof.
  intros cap a c x z f Ha Hc Hx Hs Hl.
  destruct (opp_value cap a x Ha) as (r & E & D & Hn & Lr & Sr & _). exists r. split; [assumption|].
  destruct Ha as [(ds & tl & _ & _ & Na & _) Sa], Hc as [(ds' & tl' & Ec & Lc & Nc & _) Sc].
  unfold plus, plus_val. rewrite Sr, Sa, Sc.
  replace ((- (if x <? 0 then -1 else 1)) =? (if z <? 0 then -1 else 1)) with true
    by (destruct (Z.ltb_spec x 0), (Z.ltb_spec z 0); lia).
  rewrite (add_none cap r c (len a)); [reflexivity|lia|]. apply Hn.
  rewrite Ec, app_length, map_length in Lc. lia.
Qed.
Print Assumptions C30_negation_then_longer_sum.
(** so equal printed values do not give equal sums *)
Theorem C30_value_semantics_refuted :
  exists x y w, show x = show y /\ show (a <- x ;; c <- w ;; plus 5 9 a c) <> show (a <- y ;; c <- w ;; plus 5 9 a c).
Proof.
  exists (a <- of_int64 9 100 ;; b <- of_int64 9 99 ;; minus_assign 5 9 a b), (of_int64 9 1), (of_int64 9 500).
  split; [vm_compute; reflexivity|vm_compute; discriminate].
Qed.
Print Assumptions C30_value_semantics_refuted.
Example C30_example :
  show (a <- of_int64 9 100 ;; b <- of_int64 9 99 ;; x <- minus_assign 5 9 a b ;; c <- of_int64 9 500 ;; plus 5 9 x c) = Ok (str "601")
  /\ (exists d s r, of_int64 9 987 = Ok d /\ of_int64 9 5 = Ok s /\ assign d s = Ok r /\ leftover r [8; 9] /\ ~ clean r).
Proof.
  split; [vm_compute; reflexivity|]. do 3 eexists. split; [reflexivity|]. split; [reflexivity|]. split; [reflexivity|].
  split.
  - split; [repeat constructor; unfold digit; lia|]. intros k Hk. cbn [length] in Hk.
    destruct k as [|[|k]]; [reflexivity|reflexivity|lia].
  - intros H. specialize (H 1 ltac:(vm_compute; split; congruence)). discriminate.
Qed.
