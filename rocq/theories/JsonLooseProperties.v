(** Property theorem C102: exactly which texts loadJSON accepts, and as what. *)
From Verif Require Import Base DecModel JsonModel JsonSpec JsonProofs JsonRoundProofs JsonProperties JsonTextSpec JsonTextProofs JsonTextProperties JsonLooseSpec JsonLooseProofs.
Local Open Scope nat_scope.

(** a text loads as a value exactly if the grammar reads the value off its front *)
Theorem C102_exact F (D : doubles F) s v : loadJSON D s = Ok v <-> exists o, loose D s v o.
Proof. apply load_iff. Qed.
Print Assumptions C102_exact.
(** every other text is refused or undefined behaviour, it is never read as something *)
Theorem C102_refused F (D : doubles F) s : (forall v o, ~ loose D s v o) <-> loadJSON D s = Err \/ loadJSON D s = UB.
Proof.
  split.
  - intros N. destruct (C56_terminates F D s) as [[v E]|E]; [|exact E]. apply C102_exact in E. destruct E as [o L]. now destruct (N v o).
  - intros E v o L. assert (X : loadJSON D s = Ok v) by (apply C102_exact; now exists o). rewrite X in E. destruct E; discriminate.
Qed.
Print Assumptions C102_refused.
(** no text stands for two values *)
Theorem C102_one_value F (D : doubles F) s v v' o o' : loose D s v o -> loose D s v' o' -> v = v'.
Proof.
  intros A B. assert (E : loadJSON D s = Ok v) by (apply C102_exact; now exists o). assert (E' : loadJSON D s = Ok v') by (apply C102_exact; now exists o'). congruence.
Qed.
Print Assumptions C102_one_value.
(** behind an array, an object, a string, a boolean or null any text may follow; behind a number it may not *)
Theorem C102_appended F (D : doubles F) s v x : loadJSON D s = Ok v -> (forall z, v <> JInt z) -> (forall d, v <> JFlt d) -> loadJSON D (s ++ x) = Ok v.
Proof. intros E NI NF. apply C102_exact in E. destruct E as [o L]. apply C102_exact. exact (loose_appended D s v o x L NI NF). Qed.
Print Assumptions C102_appended.
Theorem C102_appended_refuted : exists s v x, loadJSON toy s = Ok v /\ loadJSON toy (s ++ x) = Err.
Proof. exists (str "12"), (JInt 12), (str "x"). split; vm_compute; reflexivity. Qed.
Print Assumptions C102_appended_refuted.
(** the accepted texts are not all JSON: a number as a key (two such keys are the same key), a missing exponent,
    a lone minus sign, two decimal points, an unknown escape *)
Theorem C102_json_refuted :
  (exists s, s = str "{1 :2,true:3}" /\ loadJSON toy s = Ok (JObj [([], JInt 3)]) /\ forall v, ~ text toy s v) /\
  loadJSON toy (str "[1e, 5]") = Ok (JArr [JInt 1; JInt 5]) /\
  loadJSON toy (str "[-]") = Ok (JArr [JInt 0]) /\
  loadJSON toy (str "[1-2-3]") = Ok (JArr [JInt 1]) /\
  loadJSON toy ([DQ] ++ str "\q" ++ [DQ]) = Ok (JStr (str "\")).
Proof.
  split; [|repeat split; vm_compute; reflexivity]. exists (str "{1 :2,true:3}"). split; [reflexivity|]. split; [vm_compute; reflexivity|].
  intros v T. inversion T as [| | |neg ds N W E|neg ds fs N W W' E| | | |w B E|b ms m M L E].
  - destruct neg, ds as [|c ds]; try discriminate; injection E as -> ->; discriminate.
  - destruct neg, ds as [|c ds]; try discriminate; injection E as -> E; discriminate.
  - destruct w as [|c w]; [discriminate|]. injection E as -> E. specialize (B "1"%char (or_introl eq_refl)). cbn in B. intuition discriminate.
  - assert (X : exists w t, b = w ++ "034"%char :: t /\ blank w) by (inversion M; subst; [exists w, (k ++ "034"%char :: w1 ++ ":"%char :: w2 ++ t ++ w3)|exists w, (k ++ "034"%char :: w1 ++ ":"%char :: w2 ++ t ++ w3 ++ ","%char :: b0)]; now split).
    destruct X as (w & t & -> & B). destruct w as [|c w]; [discriminate|]. injection E as -> E. specialize (B "1"%char (or_introl eq_refl)). cbn in B. intuition discriminate.
Qed.
Print Assumptions C102_json_refuted.
(** a derivation of the grammar, built without running the loader *)
Example C102_example :
  loose toy (str " [1e, {-7 : true},   null]rest") (JArr [JInt 1; JObj [([], JBool true)]; JNull]) (Some (str "rest")) /\
  loadJSON toy (str " [1e, {-7 : true},   null]rest") = Ok (JArr [JInt 1; JObj [([], JBool true)]; JNull]).
Proof.
  split; [|vm_compute; reflexivity].
  assert (SP : space " "%char) by (now left). assert (R1 : run (str "1")) by (exists "1"%char, []; cbn; auto). assert (R7 : run (str "-7")) by (exists "-"%char, (str "7"); cbn; auto).
  assert (L1 : leading (str "1") 1%Z) by (exists false, (str "1"), []; repeat split; try discriminate).
  assert (L7 : leading (str "-7") (-7)%Z) by (exists true, (str "7"), []; repeat split; try discriminate).
  assert (V1 : plain_value toy (str "1") (JInt 1)) by (apply (pv_int toy (str "1") 1%Z); [intros [E|[]]; discriminate|exact L1]).
  assert (V7 : plain_value toy (str "-7") (JInt (-7))) by (apply (pv_int toy (str "-7") (-7)%Z); [intros [E|[E|[]]]; discriminate|exact L7]).
  assert (ST : forall r, stops (" "%char :: r)) by (intros r; exists " "%char, r; split; [reflexivity|left; exact SP]).
  apply (l_space toy " "%char); [exact SP|]. apply (l_array toy).
  refine (i_more toy (str "1e, {-7 : true},   null]rest") (JInt 1) [] (str " {-7 : true},   null]rest") _ _ _ (Forall_nil _) _).
  { refine (l_exp toy (str "1") "e"%char ","%char [] [] ","%char (JInt 1) (str " {-7 : true},   null]rest") R1 _ eq_refl eq_refl _ (ST _)); [now left|]. apply ev_none; [discriminate|reflexivity|exact V1]. }
  refine (i_more toy (str " {-7 : true},   null]rest") (JObj [([], JBool true)]) [] (str "   null]rest") _ _ _ (Forall_nil _) _).
  { apply (l_space toy " "%char); [exact SP|]. refine (l_object toy (str "-7 : true},   null]rest") [([], JBool true)] _ _ _ (insert_all_last [([], JBool true)])).
    refine (n_last toy (str "-7 : true},   null]rest") (JInt (-7)) (str " ") (str " true},   null]rest") (JBool true) [] (str ",   null]rest") _ (Forall_cons _ SP (Forall_nil _)) _ (Forall_nil _)).
    - exact (l_number toy (str "-7") (JInt (-7)) (str " : true},   null]rest") R7 V7 (ST _)).
    - apply (l_space toy " "%char); [exact SP|]. exact (l_true toy (str "},   null]rest")). }
  refine (i_last toy (str "   null]rest") JNull [] (str "rest") _ (Forall_nil _)). do 3 (apply (l_space toy " "%char); [exact SP|]). exact (l_null toy (str "]rest")).
Qed.
