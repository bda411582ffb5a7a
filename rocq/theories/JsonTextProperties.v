(** Property theorem C93: loading JSON documents with free layout. *)
From Verif Require Import Base DecModel JsonModel JsonSpec JsonProofs JsonRoundProofs JsonProperties JsonTextSpec JsonTextProofs.
Local Open Scope nat_scope.

(** every document, whatever its layout and nesting, loads as its value *)
Theorem C93_document F (D : doubles F) t v w w' : text D t v -> blank w -> blank w' -> loadJSON D (w ++ t ++ w') = Ok v.
Proof.
  intros T W W'. apply load_text; [assumption|now apply blank_ws|]. intros N. destruct w' as [|c u]; [congruence|]. apply blank_ws in W'. unfold ws in W'. cbn [forallb] in W'.
  apply andb_true_iff in W'. destruct W' as [C _]. cbn [hd]. unfold delimiter. rewrite C. split; [reflexivity|]. intros ->. discriminate.
Qed.
Print Assumptions C93_document.
(** a document stands for one value *)
Theorem C93_one_value F (D : doubles F) t v v' : text D t v -> text D t v' -> v = v'.
Proof.
  intros A B. assert (N : blank []) by (intros c []). pose proof (C93_document F D t v [] [] A N N) as E. rewrite (C93_document F D t v' [] [] B N N) in E. congruence.
Qed.
Print Assumptions C93_one_value.
(** text behind the document is never looked at *)
Theorem C93_trailing_text F (D : doubles F) t v w c r : text D t v -> blank w -> In c (str " ,]}") -> loadJSON D (w ++ t ++ c :: r) = Ok v.
Proof.
  intros T W C. apply load_text; [assumption|now apply blank_ws|]. intros _. cbn [hd]. simpl in C. repeat (destruct C as [<-|C]; [split; [reflexivity|discriminate]|]). destruct C.
Qed.
Print Assumptions C93_trailing_text.
(** hence not everything that loads is a document *)
Theorem C93_only_documents_refuted : exists s v, loadJSON toy s = Ok v /\ loadJSON toy (str "[" ++ s ++ str "]") = Err.
Proof. exists (str "1 x"), (JInt 1). split; vm_compute; reflexivity. Qed.
Print Assumptions C93_only_documents_refuted.
(** the escape of code point 41 (hexadecimal) is not the letter A *)
Theorem C93_unicode_escape_refuted :
  exists t, t = [DQ] ++ str "\u0041" ++ [DQ] /\ text toy t (JStr (str "\u0041")) /\ loadJSON toy t = Ok (JStr (str "\u0041")) /\ loadJSON toy t <> Ok (JStr (str "A")) /\
    dump toy 0 [] (JStr (str "\u0041")) <> t.
Proof.
  exists ([DQ] ++ str "\u0041" ++ [DQ]). split; [reflexivity|]. split; [|split; [vm_compute; reflexivity|split; vm_compute; discriminate]].
  apply (t_string toy (str "\u0041") (str "\u0041")). apply (ch_unicode (str "0041") [] []); [reflexivity| |constructor].
  intros c C. simpl in C |- *. intuition.
Qed.
Print Assumptions C93_unicode_escape_refuted.
(** a document with line breaks, tabs, an escape, a repeated key and nesting *)
Definition doc : bytes := str "{ " ++ [DQ] ++ str "b" ++ [DQ] ++ str " :[1 ,-2.5,[ ]],"  ++ [LF; HT; DQ] ++ str "a" ++ [DQ] ++ str ":true," ++ [DQ] ++ str "b" ++ [DQ] ++ str ": " ++ [DQ] ++ str "x\n" ++ [DQ] ++ [LF] ++ str "}".
Example C93_example :
  text toy doc (JObj [(str "a", JBool true); (str "b", JStr (str "x" ++ [LF]))]) /\
  loadJSON toy (LF :: doc ++ str "  ") = Ok (JObj [(str "a", JBool true); (str "b", JStr (str "x" ++ [LF]))]).
Proof.
  assert (T : text toy doc (JObj [(str "a", JBool true); (str "b", JStr (str "x" ++ [LF]))])).
  { assert (B0 : blank []) by (intros c []).
    assert (B1 : blank (str " ")) by (intros c [<-|[]]; now left).
    assert (B2 : blank [LF; HT]) by (intros c [<-|[<-|[]]]; cbn; intuition).
    assert (B3 : blank [LF]) by (intros c [<-|[]]; cbn; intuition).
    assert (K : forall c, c <> DQ -> c <> BSL -> chars [c] [c]) by (intros; constructor; [assumption|assumption|constructor]).
    refine (t_object toy _ _ _ (m_more toy (str " ") (str "b") (str " ") [] (str "[1 ,-2.5,[ ]]") [] (str "b") _ _ _ B1 (K _ _ _) B1 B0 _ B0
      (m_more toy [LF; HT] (str "a") [] [] (str "true") [] (str "a") _ _ _ B2 (K _ _ _) B0 B0 (t_true toy) B0
      (m_one toy [] (str "b") [] (str " ") ([DQ] ++ str "x\n" ++ [DQ]) [LF] (str "b") _ B0 (K _ _ _) B0 B1 (t_string toy (str "x\n") (str "x" ++ [LF]) _) B3))) _); try discriminate.
    - refine (t_array toy _ _ (e_more toy [] (str "1") (str " ") _ _ _ B0 (t_int toy false (str "1") _ _) B1
        (e_more toy [] (str "-2.5") [] _ _ _ B0 (t_float toy true (str "2") (str "5") _ _ _) B0 (e_one toy [] (str "[ ]") [] _ B0 (t_array0 toy (str " ") B1) B0)))); discriminate || reflexivity.
    - constructor; [discriminate|discriminate|]. apply (ch_escape "n" LF [] []); [cbn; intuition|constructor].
    - apply (insert_all_last [(str "b", _); (str "a", JBool true); (str "b", JStr (str "x" ++ [LF]))]). }
  split; [exact T|]. vm_compute. reflexivity.
Qed.
