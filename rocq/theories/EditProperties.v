(** Property theorems C10-C11 (editDistance). *)
From Verif Require Import Base EditModel EditSpec EditProofs.
Local Open Scope Z_scope.

(** C10: [editDistance] returns the least number of single-character edits (for
    strings shorter than INT_MAX, so that the sizes plus one fit an int). *)
Theorem C10_editDistance_least_edits :
  forall s1 s2 : bytes,
    Z.of_nat (length s1) < int32_max -> Z.of_nat (length s2) < int32_max ->
    exists n, editDistance s1 s2 = Ok (Z.of_nat n) /\ least_edits s1 s2 n.
Proof. exact editDistance_least. Qed.
Print Assumptions C10_editDistance_least_edits.
Example C10_example :
  editDistance (str "kitten") (str "sitting") = Ok 3
  /\ editDistance (str "") (str "abc") = Ok 3
  /\ edits 1 (str "this") (str "thus").
Proof.
  repeat split; try (vm_compute; reflexivity).
  eapply es_step; [apply (e_replace (str "th") (str "s"))|apply es_nil].
Qed.

(** C11: metric laws and bounds. *)
Theorem C11_editDistance_metric :
  forall a b c : bytes,
    Z.of_nat (length a) < int32_max -> Z.of_nat (length b) < int32_max ->
    Z.of_nat (length c) < int32_max ->
    exists ab ba bc ac,
      editDistance a b = Ok ab /\ editDistance b a = Ok ba /\
      editDistance b c = Ok bc /\ editDistance a c = Ok ac /\
      (ab = 0 <-> a = b) /\ ab = ba /\ ac <= ab + bc /\
      Z.abs (Z.of_nat (length a) - Z.of_nat (length b)) <= ab
        <= Z.max (Z.of_nat (length a)) (Z.of_nat (length b)).
Proof. exact editDistance_metric. Qed.
Print Assumptions C11_editDistance_metric.
Example C11_example :
  editDistance (str "ab") (str "ba") = Ok 2 /\ editDistance (str "ba") (str "b") = Ok 1
  /\ editDistance (str "ab") (str "b") = Ok 1.
Proof. repeat split; vm_compute; reflexivity. Qed.
