(** Property theorems C08-C09 (kmpSearch). *)
From Verif Require Import Base KmpModel KmpSpec KmpProofs.
Local Open Scope Z_scope.

(** C08: for every text, non-empty pattern and start that fit an int, the search
    terminates, stays in bounds ([Ok], not [UB]/[Fuel]) and returns the first
    occurrence.  The result of the specification is unique. *)
Theorem C08_kmpSearch_first_occurrence :
  forall (text pattern : bytes) (start : Z) (fuel : nat),
    pattern <> [] ->
    Z.of_nat (length text) <= int32_max -> Z.of_nat (length pattern) <= int32_max ->
    0 <= start <= int32_max ->
    (2 * (length text + length pattern) + 2 <= fuel)%nat ->
    exists r, kmpSearch fuel text pattern start = Ok r
              /\ first_occurrence text pattern (Z.to_nat start) r.
Proof. exact kmp_correct. Qed.
Print Assumptions C08_kmpSearch_first_occurrence.
Theorem C08_first_occurrence_unique :
  forall text pattern start r r',
    first_occurrence text pattern start r -> first_occurrence text pattern start r' -> r = r'.
Proof. exact first_occurrence_unique. Qed.
Print Assumptions C08_first_occurrence_unique.
Example C08_example :
  kmpSearch 100 (str "abacababacabc") (str "abacabc") 1 = Ok 6
  /\ kmpSearch 100 (str "aaaa") (str "aa") 2 = Ok 2
  /\ kmpSearch 100 (str "aaaa") (str "aa") 9 = Ok (-1).
Proof. repeat split; vm_compute; reflexivity. Qed.

(** C09: outside that domain: an empty pattern always writes outside the table; a
    start that converts to a negative int always reads outside the text. *)
Theorem C09_kmpSearch_empty_pattern_ub :
  forall (text : bytes) (start : Z) (fuel : nat), kmpSearch fuel text [] start = UB.
Proof. exact kmp_empty_pattern. Qed.
Print Assumptions C09_kmpSearch_empty_pattern_ub.
Theorem C09_kmpSearch_negative_start_ub :
  forall (text pattern : bytes) (start : Z) (fuel : nat),
    pattern <> [] ->
    Z.of_nat (length text) <= int32_max -> Z.of_nat (length pattern) <= int32_max ->
    wrap32 start < 0 ->
    (2 * (length text + length pattern) + 2 <= fuel)%nat ->
    kmpSearch fuel text pattern start = UB.
Proof. exact kmp_negative_start. Qed.
Print Assumptions C09_kmpSearch_negative_start_ub.
(** e.g. [start = std::string::npos] *)
Example C09_example :
  wrap32 18446744073709551615 < 0
  /\ kmpSearch 100 (str "abc") (str "b") 18446744073709551615 = UB.
Proof. split; vm_compute; reflexivity. Qed.
