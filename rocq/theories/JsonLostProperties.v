(** Property theorem C103: exactly which texts make loadJSON undefined, and which it reports as errors. *)
From Verif Require Import Base DecModel JsonModel JsonSpec JsonProofs JsonProperties JsonTextSpec JsonLooseSpec JsonLooseProofs JsonLooseProperties JsonLostSpec JsonLostProofs.
Local Open Scope nat_scope.

(** undefined behaviour: a string that is never closed, a number that ends the text inside an array or object, an exponent outside the int range *)
Theorem C103_exact F (D : doubles F) s : loadJSON D s = UB <-> lost D s.
Proof. apply lost_iff. Qed.
Print Assumptions C103_exact.
(** an error is reported for all other texts without a value *)
Theorem C103_error F (D : doubles F) s : loadJSON D s = Err <-> (forall v o, ~ loose D s v o) /\ ~ lost D s.
Proof.
  rewrite <- C103_exact. split.
  - intros E. split; [apply C102_refused; now left|congruence].
  - intros [N U]. apply C102_refused in N. destruct N as [N|N]; [exact N|contradiction].
Qed.
Print Assumptions C103_error.
(** for numbers at top level the end of the text is harmless, inside arrays it is not *)
Theorem C103_reported_refuted :
  loadJSON toy (str "12") = Ok (JInt 12) /\ loadJSON toy (str "[12") = UB /\ loadJSON toy (str "[12 ") = Err /\
  loadJSON toy (DQ :: str "abc") = UB /\ loadJSON toy (str "[1e99999999999]") = UB /\ loadJSON toy (str "{1 :2") = UB.
Proof. repeat split; vm_compute; reflexivity. Qed.
Print Assumptions C103_reported_refuted.
(** derivations of the relation, built without running the loader *)
Example C103_example :
  lost toy (str "[true, {null:7") /\ loadJSON toy (str "[true, {null:7") = UB /\
  lost toy (str "[true," ++ DQ :: str "x\n\") /\ loadJSON toy (str "[true," ++ DQ :: str "x\n\") = UB.
Proof.
  assert (SP : space " "%char) by (now left). assert (R7 : run (str "7")) by (exists "7"%char, []; cbn; auto).
  assert (L7 : leading (str "7") 7%Z) by (exists false, (str "7"), []; repeat split; try discriminate).
  assert (V7 : plain_value toy (str "7") (JInt 7)) by (apply (pv_int toy (str "7") 7%Z); [intros [E|[]]; discriminate|exact L7]).
  split; [|split; [vm_compute; reflexivity|split; [|vm_compute; reflexivity]]].
  - apply x_array. refine (xi_later toy (str "true, {null:7") (JBool true) [] (str " {null:7") (l_true toy _) (Forall_nil _) _). apply xi_here.
    apply (x_space toy " "%char); [exact SP|]. apply x_object. refine (xe_value_end toy (str "null:7") JNull [] (str "7") (JInt 7) (l_null toy _) (Forall_nil _) _). exact (l_number_end toy _ _ R7 V7).
  - apply x_array. refine (xi_later toy (str "true," ++ DQ :: str "x\n\") (JBool true) [] (DQ :: str "x\n\") (l_true toy _) (Forall_nil _) _). apply xi_here.
    refine (x_string toy (str "x\n") (str "x" ++ [LF]) [BSL] _ (or_intror eq_refl)). apply lc_plain; [discriminate|discriminate|]. refine (lc_escape "n"%char LF [] [] _ lc_nil). cbn. intuition.
Qed.
