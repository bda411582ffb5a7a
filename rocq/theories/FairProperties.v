(** Property theorem C92: how many of the 2^64 engine outputs lead to each result. *)
From Coq Require Import Reals Lra Floats.SpecFloat.
From Flocq Require Import Core.
From Verif Require Import Base Float FloatProofs RandModel RandSpec RandProofs RandDoubleProofs RandSamplerProofs FairSpec FairProofs RandProperties.
Local Open Scope Z_scope.

(** nextInt(min, max) and UniformIntDistribution *)
Theorem C92_nextInt :
  forall min max v, in_int32 min = true -> in_int32 max = true -> max - min <= int32_max -> min <= v < max ->
    causes (fun x => nextInt_range x min max = Ok v)
      (2 ^ 64 / (max - min) + (if v - min <? 2 ^ 64 mod (max - min) then 1 else 0)).
Proof.
  intros min max v A B L V. apply causes_ext with (e := fun x => x mod (max - min) = v - min).
  - intros x X. rewrite nextInt_spec by assumption. destruct (Z.leb_spec max min); [lia|]. destruct (Z.leb_spec (max - min) int32_max); [|lia].
    split; [intros ->; f_equal; lia|]. intros E. injection E. lia.
  - apply causes_mod; unfold int32_max in *; lia.
Qed.
Print Assumptions C92_nextInt.
(** two values never differ by more than one output *)
Theorem C92_nextInt_bias :
  forall min max v w m n, in_int32 min = true -> in_int32 max = true -> max - min <= int32_max -> min <= v < max -> min <= w < max ->
    causes (fun x => nextInt_range x min max = Ok v) m -> causes (fun x => nextInt_range x min max = Ok w) n ->
    Z.abs (m - n) <= 1 /\ 2 ^ 64 - (max - min) < m * (max - min) < 2 ^ 64 + (max - min).
Proof.
  intros min max v w m n A B L V W Hm Hn.
  rewrite (causes_unique _ _ _ Hm (C92_nextInt min max v A B L V)), (causes_unique _ _ _ Hn (C92_nextInt min max w A B L W)).
  pose proof (Z.div_mod (2 ^ 64) (max - min) ltac:(lia)) as E. pose proof (Z.mod_pos_bound (2 ^ 64) (max - min) ltac:(lia)) as R.
  set (M := 2 ^ 64) in *. clearbody M. set (q := M / (max - min)) in *. set (r := M mod (max - min)) in *. clearbody q r.
  split; [destruct (v - min <? r), (w - min <? r); lia|]. destruct (Z.ltb_spec (v - min) r); nia.
Qed.
Print Assumptions C92_nextInt_bias.
Theorem C92_nextInt_max :
  forall max v, in_int32 max = true -> 0 <= v < max ->
    causes (fun x => nextInt_max x max = Ok v) (2 ^ 64 / max + (if v <? 2 ^ 64 mod max then 1 else 0)).
Proof.
  intros max v A V. pose proof (C92_nextInt 0 max v eq_refl A) as H. rewrite !Z.sub_0_r in H.
  eapply causes_ext; [|apply H; [unfold in_int32 in A; lia|assumption]]. intros x X. cbn beta. unfold nextInt_max.
  destruct (Z.leb_spec max 0); [lia|]. reflexivity.
Qed.
Print Assumptions C92_nextInt_max.
(** the draw is fair exactly when the length of the interval is a power of two *)
Theorem C92_nextInt_fair :
  forall min max, in_int32 min = true -> in_int32 max = true -> min < max -> max - min <= int32_max ->
    ((forall v w m n, min <= v < max -> min <= w < max ->
        causes (fun x => nextInt_range x min max = Ok v) m -> causes (fun x => nextInt_range x min max = Ok w) n -> m = n) <->
     exists k, 0 <= k /\ max - min = 2 ^ k).
Proof.
  intros min max A B O L. split.
  - intros F. pose proof (C92_nextInt min max min A B L ltac:(lia)) as H0. pose proof (C92_nextInt min max (max - 1) A B L ltac:(lia)) as H1.
    pose proof (F min (max - 1) _ _ ltac:(lia) ltac:(lia) H0 H1) as E. assert (D : 2 ^ 64 mod (max - min) = 0).
    { pose proof (Z.mod_pos_bound (2 ^ 64) (max - min) ltac:(lia)) as R. set (r := 2 ^ 64 mod (max - min)) in *. set (q := 2 ^ 64 / (max - min)) in *. clearbody r q. clear H0 H1 F.
      destruct (Z.ltb_spec (min - min) r), (Z.ltb_spec (max - 1 - min) r); lia. }
    apply Z.mod_divide in D; [|lia]. apply (pow2_divisor 64 (max - min) ltac:(lia)) in D. destruct D as (k & K & Ek). exists k. lia.
  - intros (k & K & E) v w m n V W Hm Hn. assert (R : 2 ^ 64 mod (max - min) = 0).
    { rewrite E. assert (k <= 64). { apply (Z.pow_le_mono_r_iff 2); unfold int32_max in *; lia. }
      replace 64 with (64 - k + k) by lia. rewrite Z.pow_add_r by lia. apply Z.mod_mul. lia. }
    rewrite (causes_unique _ _ _ Hm (C92_nextInt min max v A B L V)), (causes_unique _ _ _ Hn (C92_nextInt min max w A B L W)), R.
    destruct (Z.ltb_spec (v - min) 0), (Z.ltb_spec (w - min) 0); lia.
Qed.
Print Assumptions C92_nextInt_fair.
Theorem C92_nextBool : forall b, causes (fun x => nextBool x = Ok b) (2 ^ 63).
Proof.
  intros b. apply causes_ext with (e := fun x => x mod 2 = (if b then 1 else 0)).
  - intros x X. rewrite C58_nextBool, Zmod_odd by assumption. destruct b, (Z.odd x); split; congruence || discriminate.
  - apply (causes_mod_even 2); destruct b; lia.
Qed.
Print Assumptions C92_nextBool.
(** nextInt(): undefined behaviour for half of the outputs, every negative int 2^32 times *)
Theorem C92_nextInt_all :
  causes (fun x => nextInt_all x = UB) (2 ^ 63) /\
  (forall v, - 2 ^ 31 <= v < 0 -> causes (fun x => nextInt_all x = Ok v) (2 ^ 32)) /\
  (forall v, - 2 ^ 31 <= v < 2 ^ 31 -> causes (fun x => nextInt_all_wrap x = v) (2 ^ 32)).
Proof.
  split; [|split].
  - apply causes_ext with (e := fun x => (x / 2 ^ 31) mod 2 = 1).
    + intros x X. rewrite (proj1 (C59_nextInt_overflow x X)). change (2 ^ 32) with (2 ^ 31 * 2). rewrite Z.rem_mul_r by lia.
      pose proof (Z.mod_pos_bound x (2 ^ 31) ltac:(lia)). pose proof (Z.mod_pos_bound (x / 2 ^ 31) 2 ltac:(lia)). lia.
    + apply causes_odd_blocks.
  - intros v V. apply causes_ext with (e := fun x => x mod 2 ^ 32 = v + 2 ^ 31); [|apply (causes_mod_even (2 ^ 32)); lia].
    intros x X. destruct (nextInt_all_spec x X) as [-> _]. destruct (Z.ltb_spec (x mod 2 ^ 32) (2 ^ 31)); split; intros E; try discriminate; try lia; [f_equal; lia|].
    injection E. lia.
  - intros v V. apply causes_ext with (e := fun x => x mod 2 ^ 32 = v + 2 ^ 31); [|apply (causes_mod_even (2 ^ 32)); lia].
    intros x X. now rewrite C59_nextInt_wrapping_uniform.
Qed.
Print Assumptions C92_nextInt_all.
(** nextDouble(): distribution function c -> c, within 1024 of 2^64 outputs *)
Theorem C92_nextDouble :
  forall c, dvalid c = true -> dfinite c = true -> (0 <= real c <= 1)%R ->
    exists n, causes (fun x => exists u, nextDouble x = Ok u /\ (real u < real c)%R) n /\
      (real c * IZR (2 ^ 64) - 1024 <= IZR n < real c * IZR (2 ^ 64) + 1)%R.
Proof.
  intros c V F C. rewrite <- two64_IZR. destruct (unit_below_threshold c V F C) as (n & H & B). exists n. split; [|assumption].
  revert H. apply causes_ext. intros x X. destruct (nextDouble_spec x X) as (u & E & _ & _ & Eu & _). destruct (unit_spec x X) as (_ & _ & Ev & _). rewrite E.
  split; [intros L; exists u; split; [reflexivity|]|intros (u' & [= <-] & L)]; congruence || (rewrite Ev, <- Eu in * ; assumption) || idtac.
Qed.
Print Assumptions C92_nextDouble.
(** BernoulliDistribution(p) on one output *)
Theorem C92_bernoulli :
  forall pow p, dvalid p = true -> dfinite p = true -> (0 <= real p <= 1)%R ->
    exists n, causes (fun x => exists u, nextDouble x = Ok u /\ bernoulli_next (binary64 pow) p u = true) n /\
      (real p * IZR (2 ^ 64) - 1024 <= IZR n < real p * IZR (2 ^ 64) + 1)%R.
Proof.
  intros pow p V F P. destruct (C92_nextDouble p V F P) as (n & H & B). exists n. split; [|assumption]. revert H. apply causes_ext. intros x X.
  destruct (nextDouble_spec x X) as (u & E & Vu & Fu & _). rewrite E. unfold bernoulli_next. cbn [ltb binary64].
  split; intros (u' & [= <-] & L); exists u; (split; [reflexivity|]); rewrite dltb_spec in * by assumption.
  - now apply Rlt_bool_true.
  - now destruct (Rlt_bool_spec (real u) (real p)).
Qed.
Print Assumptions C92_bernoulli.
Example C92_example :
  causes (fun x => nextInt_range x 0 3 = Ok 0) 6148914691236517206 /\
  causes (fun x => nextInt_range x 0 3 = Ok 2) 6148914691236517205 /\
  causes (fun x => nextInt_range x 1 7 = Ok 6) 3074457345618258602 /\
  causes (fun x => nextInt_max x 1024 = Ok 5) 18014398509481984.
Proof.
  repeat split; [apply (C92_nextInt 0 3 0)|apply (C92_nextInt 0 3 2)|apply (C92_nextInt 1 7 6)|apply (C92_nextInt_max 1024 5)]; unfold int32_max; reflexivity || lia.
Qed.
