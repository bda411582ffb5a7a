(** C124: the stream operators of Vector at every element type built from int, char,
    std::string and Vector. *)
From Verif Require Import Base DecModel ContModel VecIOModel VecIOSpec VecAnyModel VecAnySpec VecAnyProofs.
Local Open Scope Z_scope.

(** the printed text: the elements, separated by ", ", in braces, at every level *)
Theorem C124_print t v : proper t v -> show t v = Ok (text t v).
Proof. apply show_text. Qed.
(** with no strings inside: what was printed is read back, whatever the uninitialised
    variables hold, whatever stands before and whatever follows, if nothing printed is
    white space or a closing brace in front *)
Theorem C124_round_trip gi gch gc t v n b u f : no_strings t -> proper (EVec t) v -> plain (EVec t) v -> (widest (EVec t) v <= f)%nat ->
  get gi gch gc f (EVec t) n (Stream b (text (EVec t) v ++ u) false false) = Ok (Stream (rev (text (EVec t) v) ++ b) u false false, v).
Proof.
  intros N P Q L. exact (get_text gi gch gc f (EVec t) v n b [] u N P Q I L (Forall_nil _)).
Qed.
(** ... and only then *)
Theorem C124_exact gi gch gc t v n b u : no_strings t -> proper (EVec t) v ->
  ((exists f s, get gi gch gc f (EVec t) n (Stream b (text (EVec t) v ++ u) false false) = Ok (s, v)) <-> plain (EVec t) v).
Proof.
  intros N P. split.
  - intros (f & s & E). apply get_plain in E; [|exact N]. destruct E as [[_ E]|[_ [[_ E]|E]]]; [exact E| |]; discriminate.
  - intros Q. exists (widest (EVec t) v). eexists. apply C124_round_trip; auto.
Qed.
(** vectors of chars, spelt out: reading back what was printed gives the same vector
    exactly when no char is white space and the first is not a closing brace *)
Theorem C124_chars gi gch gc (v : list ascii) n b u : Z.of_nat (length v) < 2 ^ 31 ->
  ((exists f s, get gi gch gc f (EVec EChar) n (Stream b (text (EVec EChar) v ++ u) false false) = Ok (s, v)) <->
   Forall (fun c => ~ blank c) v /\ forall w, v <> "}"%char :: w).
Proof.
  intros L. apply (C124_exact gi gch gc EChar v n b u); [exact I|]. split; [assumption|]. apply Forall_forall. intros; exact I.
Qed.
(** vectors of strings: a vector that is not empty is never read back, whatever it
    contains and whatever follows; the empty one is *)
Theorem C124_strings gi gch gc v n b u : Z.of_nat (length v) < 2 ^ 31 ->
  ((exists f s, get gi gch gc f (EVec EStr) n (Stream b (text (EVec EStr) v ++ u) false false) = Ok (s, v)) <-> v = []).
Proof.
  intros L. split.
  - intros (f & s & E). destruct v as [|x v]; [reflexivity|]. exfalso. revert E. apply strings_never. discriminate.
  - intros ->. exists O. eexists. cbn [get text map joined app]. change (str "{" ++ str "}") with (["{"; "}"]%char).
    change (["{"; "}"]%char ++ u) with ("{"%char :: "}"%char :: u). rewrite read_of_here by now apply VecIOProofs.not_space. reflexivity.
Qed.
(** for ordinary words the program stops with an error message *)
Theorem C124_words gi gch gc v n b f : v <> [] -> Forall plain_word v -> (0 < f)%nat ->
  get gi gch gc f (EVec EStr) n (Stream b (text (EVec EStr) v) false false) = Err.
Proof. intros NE P L. now apply strings_error. Qed.
(** at int elements this is the model of C67 *)
Theorem C124_ints gi gch gc f n s : get gi gch gc f (EVec EInt) n s = (' (v, s) <- read_vector gi gc f s ;; Ok (s, v)).
Proof. apply ints_read. Qed.
(** no text makes the operator undefined *)
Theorem C124_safe gi gch gc f t : forall n s, get gi gch gc f t n s <> UB.
Proof.
  induction t as [| | |t IH]; intros n s; try discriminate. cbn [get]. unfold read_of.
  destruct (get_char s gc) as [s1 c]. destruct (negb (Ascii.eqb c "{")); [discriminate|].
  destruct (get_char s1 c) as [s2 c2]. destruct (negb (Ascii.eqb c2 "}")); [|discriminate].
  generalize (unget s2) as s3, (@nil (val t)) as v, 0%nat as k. clear -IH. generalize f at 2 as m. intros m. revert c2.
  induction m as [|m IHm]; intros c s v k; cbn [loop_of]; [discriminate|].
  destruct (get gi gch gc f t k s) as [[s1 z]| | |] eqn:E; try discriminate; [|now apply IH in E]. cbn [bind].
  destruct (get_char s1 c) as [s2 c']. destruct (eof s2); [discriminate|].
  destruct (Ascii.eqb c' "}"); [discriminate|]. destruct (negb (Ascii.eqb c' ",")); [discriminate|]. apply IHm.
Qed.
(** reading back what was printed, at every element type: false *)
Theorem C124_always_refuted gi gch gc : exists t v, proper (EVec t) v /\
  forall f n s, get gi gch gc f (EVec t) n (Stream [] (text (EVec t) v) false false) <> Ok (s, v).
Proof.
  exists EStr, [str "a"; str "b"]. split; [split; [cbn; lia|repeat constructor]|]. intros f n s E.
  assert (H : [str "a"; str "b"] = []); [|discriminate].
  apply (C124_strings gi gch gc [str "a"; str "b"] n [] []); [cbn; lia|]. exists f, s. now rewrite app_nil_r.
Qed.
Example C124_example : let g := get (fun _ => 77) (fun _ => "?"%char) "x" 9 in
  proper (EVec (EVec EInt)) [[1; -20]; []; [3]] /\ plain (EVec (EVec EInt)) [[1; -20]; []; [3]] /\
  text (EVec (EVec EInt)) [[1; -20]; []; [3]] = str "{{1, -20}, {}, {3}}" /\
  g (EVec (EVec EInt)) 0%nat (Stream [] (str "{{1, -20}, {}, {3}};") false false)
    = Ok (Stream (rev (str "{{1, -20}, {}, {3}}")) (str ";") false false, [[1; -20]; []; [3]]) /\
  (* chars: "{}, a}" is taken for the empty vector and "{a,  }", printed for 'a' and ' ', is
     reported; other braces and commas do no harm *)
  show (EVec EChar) ["}"; "a"]%char = Ok (str "{}, a}") /\
  g (EVec EChar) 0%nat (Stream [] (str "{}, a}") false false) = Ok (Stream (rev (str "{}")) (str ", a}") false false, []) /\
  g (EVec EChar) 0%nat (Stream [] (str "{a, }, ,}") false false) = Ok (Stream (rev (str "{a, }, ,}")) [] false false, ["a"; "}"; ","]%char) /\
  g (EVec EChar) 0%nat (Stream [] (str "{a,  }") false false) = Err /\
  (* strings: the separators become part of the elements *)
  show (EVec EStr) [str "a"; str "b"] = Ok (str "{a, b}") /\
  g (EVec EStr) 0%nat (Stream [] (str "{a, b}") false false) = Err /\
  g (EVec EStr) 0%nat (Stream [] (str "{a , b }") false false) = Ok (Stream (rev (str "{a , b }")) [] false false, [str "a"; str "b"]).
Proof.
  intros g. split; [split; [cbn; lia|repeat constructor; cbn; lia]|]. split; [cbn; repeat constructor|].
  repeat (split; [reflexivity|]). reflexivity.
Qed.
Print Assumptions C124_print.
Print Assumptions C124_round_trip.
Print Assumptions C124_exact.
Print Assumptions C124_chars.
Print Assumptions C124_strings.
Print Assumptions C124_words.
Print Assumptions C124_ints.
Print Assumptions C124_safe.
Print Assumptions C124_always_refuted.
