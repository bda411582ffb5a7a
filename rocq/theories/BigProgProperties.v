(** C105: programs with BigNum variables. *)
From Verif Require Import Base DecModel BigModel BigSpec BigOpProofs BigProgModel BigProgSpec BigProgProofs.
Local Open Scope Z_scope.

(** Every program of declarations, assignments, [+=], [-=], [*= n], [++], [--] and printing over
    natural numbers below 10^(cap-1) computes and prints those numbers, as long as in sums and
    differences a variable that was copy-constructed or has lost digits is at least as long as the
    other operand. *)
Theorem C105_programs cap p : Z.of_nat cap <= 10000000 -> fine cap [] p ->
  exists vs out, execs cap [] p = Ok (vs, out) /\
    Forall2 (fun b x => denotes cap b (fst x)) vs (fst (zexecs [] p)) /\
    Forall2 shows out (snd (zexecs [] p)).
Proof.
  intros Hc F. destruct (execs_fine cap p ltac:(lia) [] [] (Forall2_nil _) F) as (vs & o & E & R & O).
  exists vs, o. split; [assumption|]. split; [|assumption].
  clear - R. induction R as [|b x vs zs H R IH]; constructor; [apply H|assumption].
Qed.
Print Assumptions C105_programs.

(** the loop [f *= i] prints n! *)
Theorem C105_factorial cap n : Z.of_nat cap <= 10000000 -> factorial n < 10 ^ (Z.of_nat cap - 1) ->
  in_int64 (Z.of_nat n) = true ->
  exists vs t, execs cap [] (fact_program n) = Ok (vs, [t]) /\ numeral t (factorial n).
Proof. intros H. apply fact_program_ok. lia. Qed.
Print Assumptions C105_factorial.

(** the loop [c = a + b; a = b; b = c] prints the n-th Fibonacci number (0 as the empty text) *)
Theorem C105_fibonacci cap n : Z.of_nat cap <= 10000000 -> fib (S n) < 10 ^ (Z.of_nat cap - 1) ->
  exists vs t, execs cap [] (fib_program n) = Ok (vs, [t]) /\ shows t (fib n).
Proof. intros H. apply fib_program_ok. lia. Qed.
Print Assumptions C105_fibonacci.

(** [BigNum y = x;] and then [y + b] with a longer [b] is undefined *)
Theorem C105_copy_refuted cap a b : 0 <= a < b -> nd a < nd b -> small cap b -> in_int64 b = true ->
  execs cap [] [SNew (PInt a); SNew (PVar 0); SNew (PAdd (PVar 1) (PInt b))] = UB.
Proof. apply copy_add_ub. Qed.
Print Assumptions C105_copy_refuted.

(** [x = 100; x = 1; cout << x + 500] prints 601 *)
Theorem C105_reassigned_refuted :
  ~ (forall cap p, (forall n, (n <= length p)%nat -> Forall (fun x => small cap (fst x)) (fst (zexecs [] (firstn n p)))) ->
       (1 < cap)%nat ->
       exists vs out, execs cap [] p = Ok (vs, out) /\ Forall2 shows out (snd (zexecs [] p))).
Proof.
  intros H.
  destruct (H 5%nat [SNew (PInt 100); SSet 0 (PInt 1); SNew (PAdd (PVar 0) (PInt 500)); SPrint 1]) as (vs & out & E & S).
  - intros n Hn. cbn [length] in Hn. do 5 (destruct n as [|n]; [repeat (constructor; [vm_compute; split; congruence|]); constructor|]). lia.
  - lia.
  - vm_compute in E. injection E as <- <-. vm_compute in S. inversion S as [|t z o zs [_ S1] _]. subst.
    destruct (S1 ltac:(discriminate)) as [(_ & S2)|(t' & E' & _)]; [vm_compute in S2; discriminate|discriminate].
Qed.
Print Assumptions C105_reassigned_refuted.

Definition shown (o : outcome (list big * list bytes)) : list bytes := match o with Ok (_, t) => t | _ => [] end.
Example C105_example :
  (let p := [SNew (PInt 999); SNew (PStr (str "12345678901")); SAdd 0 (PVar 1); SMul 0 3; SInc 0; SSet 1 (PVar 0);
             SSub 1 (PMul (PInt 2) (PStr (str "9999999999"))); SPrint 0; SPrint 1] in
   fine 15 [] p /\ shown (execs 15 [] p) = [str "37037039701"; str "17037039703"]) /\
  shown (execs 30 [] (fact_program 25)) = [str "15511210043330985984000000"] /\
  shown (execs 25 [] (fib_program 100)) = [str "354224848179261915075"] /\
  execs 9 [] [SNew (PInt 7); SNew (PVar 0); SNew (PAdd (PVar 1) (PInt 12))] = UB.
Proof.
  split; [|vm_compute; auto]. split; [|vm_compute; reflexivity].
  cbn [fine sfine efine zexec fst zval esolid]. unfold small, reaches.
  repeat match goal with |- _ /\ _ => split end; try (vm_compute; congruence); try (left; reflexivity); try (vm_compute; lia); vm_compute; auto.
Qed.
