(** Character comparisons made by kmpSearch. *)
From Verif Require Import Base KmpModel KmpCostModel KmpSpec KmpProofs KmpCostProofs.
Local Open Scope Z_scope.

(** the counted program computes what kmpSearch computes, in every case *)
Theorem C113_same_result :
  forall fuel text pattern start, omap (fun t => fst (fst t)) (kmpCount fuel text pattern start) = kmpSearch fuel text pattern start.
Proof. exact kmp_erase. Qed.
Print Assumptions C113_same_result.
(** at most three comparisons per character of the pattern and two per character of the text *)
Theorem C113_linear :
  forall text pattern start fuel,
    pattern <> [] -> Z.of_nat (length text) <= int32_max -> Z.of_nat (length pattern) <= int32_max -> 0 <= start <= int32_max ->
    (2 * (length text + length pattern) + 2 <= fuel)%nat ->
    exists r table search, kmpCount fuel text pattern start = Ok (r, table, search) /\
      0 <= table <= Z.max 0 (3 * Z.of_nat (length pattern) - 5) /\
      0 <= search <= Z.max 0 (2 * (Z.of_nat (length text) - start) - 1) /\
      (r <> -1 -> search <= 2 * (r - start) + Z.of_nat (length pattern)).
Proof. intros text pattern start fuel A B C D F. destruct (kmp_cost text pattern start fuel A B C D F) as (r & t & s & H & _ & Q). now exists r, t, s. Qed.
Print Assumptions C113_linear.
(** the bound for the text is reached at every length: n letters a searched for ab *)
Theorem C113_tight :
  forall n fuel, (1 <= n)%nat -> Z.of_nat n <= int32_max -> (2 * n + 2 <= fuel)%nat ->
    kmpCount fuel (repeat (ch (str "a") 0) n) (str "ab") 0 = Ok (-1, 1, 2 * Z.of_nat n - 1).
Proof. exact worst. Qed.
Print Assumptions C113_tight.

Example C113_example :
  kmpCount 100 (str "abacababacabc") (str "abacabc") 1 = Ok (6, 12, 14) /\
  kmpCount 100 (str "aaaa") (str "ab") 0 = Ok (-1, 1, 7) /\
  kmpCount 100 (str "aaab") (str "ab") 0 = Ok (2, 1, 6).
Proof. repeat split; vm_compute; reflexivity. Qed.
