(** Values for the examples of DiscProperties. *)
From Coq Require Import Reals Lra Psatz Floats.SpecFloat List.
From Flocq Require Import Core.
From Verif Require Import Base Float FloatProofs StatProofs NumModel RandModel RandSpec RandDoubleProofs DistNumSpec DistAccProofs DiscSpec DiscProofs DiscLoopProofs DiscNegProofs DiscBinProofs.
Local Open Scope R_scope.

(** 1/e to 53 bits *)
Definition inv_e : double := dmake 828390857088487 (-51).
Lemma real_inv_e : real inv_e = 828390857088487 / 2251799813685248.
Proof. change inv_e with (S754_finite false 6627126856707896 (-54)). unfold real. cbn. unfold F2R. cbn. lra. Qed.
Lemma exp_one : sum_f_R0 (tg_alt (fun i => / INR (fact i))) 19 <= exp (- 1) <= sum_f_R0 (tg_alt (fun i => / INR (fact i))) 18.
Proof.
  apply (alternated_series_ineq (fun i => / INR (fact i)) (exp (- 1)) 9).
  - intros n. apply Rinv_le; [apply INR_fact_lt_0|]. apply le_INR. cbn [fact]. nia.
  - intros eps H. destruct (cv_speed_pow_fact 1 eps H) as [N HN]. exists N. intros n L. specialize (HN n L). rewrite pow1 in HN. unfold Rdiv in HN. rewrite Rmult_1_l in HN. exact HN.
  - unfold exp. destruct (exist_exp (- 1)) as (l & E). cbn [proj1_sig]. intros eps H. destruct (E eps H) as [N HN]. exists N. intros n L. specialize (HN n L).
    replace (sum_f_R0 (tg_alt (fun i : nat => / INR (fact i))) n) with (sum_f_R0 (fun i : nat => / INR (fact i) * (- 1) ^ i) n); [exact HN|].
    apply sum_eq. intros i _. unfold tg_alt. ring.
Qed.
Lemma inv_e_close : Rabs (real inv_e - exp (- 1)) <= bpow radix2 (-51) * exp (- 1).
Proof.
  rewrite real_inv_e. change (bpow radix2 (-51)) with (/ 2251799813685248). pose proof exp_one as E. unfold tg_alt in E.
  rewrite !(sum_eq (fun i => (-1) ^ i * / INR (fact i)) (fun i => (if Nat.even i then 1 else -1) * / IZR (fac i)) _) in E.
  2:{ intros i _. rewrite fac_fact. f_equal. induction i as [|i IH]; [reflexivity|]. rewrite Nat.even_succ, <- Nat.negb_even. cbn [Rpow_def.pow]. rewrite IH. destruct (Nat.even i); cbn; lra. }
  2:{ intros i _. rewrite fac_fact. f_equal. induction i as [|i IH]; [reflexivity|]. rewrite Nat.even_succ, <- Nat.negb_even. cbn [Rpow_def.pow]. rewrite IH. destruct (Nat.even i); cbn; lra. }
  cbn [sum_f_R0 Nat.even] in E.
  repeat match type of E with context [IZR (fac ?k)] => let v := eval vm_compute in (fac k) in change (fac k) with v in E end.
  apply Rabs_le. lra.
Qed.
(** a correctly rounded power *)
Definition exact_pow (x : double) (i : Z) : double :=
  match x with
  | S754_finite s m e => dmake ((if s then Z.neg m else Z.pos m) ^ i) (e * i)
  | S754_zero _ => if (i =? 0)%Z then done else dzero
  | _ => x
  end.
Lemma bpow_pow e k : bpow radix2 (e * Z.of_nat k) = bpow radix2 e ^ k.
Proof. induction k as [|k IH]; [now rewrite Z.mul_0_r|]. replace (e * Z.of_nat (S k))%Z with (e + e * Z.of_nat k)%Z by lia. rewrite bpow_plus, IH. reflexivity. Qed.
Lemma exact_pow_accurate : accurate_pow exact_pow.
Proof.
  intros x i [V F] B I. destruct x as [s|s| |s m e]; try discriminate.
  - cbn [exact_pow real]. destruct (Z.eqb_spec i 0) as [->|N].
    + split; [exact valid_one|]. cbn [Z.to_nat Rpow_def.pow]. rewrite real_one. replace (1 - 1) with 0 by ring. rewrite Rabs_R0. pose proof (bpow_gt_0 radix2 (-52)). pose proof (bpow_gt_0 radix2 (-1074)). lra.
    + split; [split; reflexivity|]. change (real (S754_zero s)) with 0. rewrite pow_i by lia. change (real dzero) with 0. replace (0 - 0) with 0 by ring. rewrite Rabs_R0. pose proof (bpow_gt_0 radix2 (-1074)). lra.
  - assert (E : real (S754_finite s m e) = IZR (if s then Z.neg m else Z.pos m) * bpow radix2 e) by (destruct s; reflexivity).
    unfold exact_pow. set (z := (if s then Z.neg m else Z.pos m)) in *. destruct (dmake_spec (z ^ i) (e * i)) as [V' S].
    assert (P : IZR (z ^ i) * bpow radix2 (e * i) = real (S754_finite s m e) ^ Z.to_nat i).
    { rewrite E, Rpow_mult_distr. rewrite <- (Z2Nat.id i) at 1 2 by lia. rewrite bpow_pow, pow_IZR. reflexivity. }
    rewrite P in S. set (X := real (S754_finite s m e)) in *. pose proof (pow_le_one X (Z.to_nat i) B) as XB. set (Y := X ^ Z.to_nat i) in *.
    assert (RB : Rabs (rnd Y) <= 1). { change 1 with (bpow radix2 0). apply rnd_bound; [lia|]. change (bpow radix2 0) with 1. apply Rabs_le. lra. }
    rewrite Rlt_bool_true in S.
    2:{ eapply Rle_lt_trans; [exact RB|]. change 1 with (bpow radix2 0). apply bpow_lt. lia. }
    destruct S as [S1 S2]. split; [now split|]. rewrite S1. pose proof (rnd_err Y) as RE. rewrite (Rabs_pos_eq Y) in RE by lra. eapply Rle_trans; [exact RE|].
    apply Rplus_le_compat; [apply Rmult_le_compat_r; [lra|]; unfold u|]; apply bpow_le; lia.
Qed.
