(** C67: the stream operators of Vector<int>. *)
From Verif Require Import Base DecModel ContModel VecIOModel VecIOSpec VecIOProofs.
Local Open Scope Z_scope.

(** the printed text *)
Theorem C67_print v : Z.of_nat (length v) <= int32_max ->
  print_vector v = Ok (str "{" ++ joined (map to_string_Z v) ++ str "}").
Proof. apply print_spec. Qed.
(** printing and reading back, whatever the uninitialised variables hold and whatever
    follows in the stream *)
Theorem C67_round_trip gv gc v u : Z.of_nat (length v) <= int32_max -> Forall (fun z => in_int32 z = true) v ->
  exists t, print_vector v = Ok t /\
  forall b f, (length v <= f)%nat ->
    read_vector gv gc f (Stream b (t ++ u) false false) = Ok (v, Stream (rev t ++ b) u false false).
Proof.
  intros L F. eexists. split; [now apply print_spec|]. intros b f Lf. apply read_text; [|assumption]. now apply print_text.
Qed.
(** every text denoting a vector is read, and nothing else is *)
Theorem C67_exact gv gc r v u :
  (exists f b, read_vector gv gc f (Stream [] r false false) = Ok (v, Stream b u false false)) <->
  (exists t, r = t ++ u /\ vector_text t v).
Proof.
  split.
  - intros (f & b & H). assert (M : forall f f' n s ch v x, read_loop gv f n s ch v = Ok x -> (f <= f')%nat -> read_loop gv f' n s ch v = Ok x).
    { clear. induction f as [|f IH]; intros [|f'] n s ch v x H L; cbn [read_loop] in *; try discriminate; try lia.
      destruct (get_int s (gv n)) as [s1 z]. destruct (get_char s1 ch) as [s2 c]. destruct (eof s2); [discriminate|].
      destruct (Ascii.eqb c "}"); [assumption|]. destruct (negb (Ascii.eqb c ",")); [discriminate|]. apply (IH f'); [assumption|lia]. }
    assert (H' : read_vector gv gc (f + S (length r)) (Stream [] r false false) = Ok (v, Stream b u false false)).
    { unfold read_vector in *. destruct (get_char _ gc) as [s1 c1]. destruct (negb (Ascii.eqb c1 "{")); [discriminate|].
      destruct (get_char s1 c1) as [s2 c2]. destruct (negb (Ascii.eqb c2 "}")); [|assumption]. apply (M f); [assumption|lia]. }
    pose proof (read_cases gv gc [] r (f + S (length r)) ltac:(lia)) as C. rewrite H' in C.
    destruct C as (t & u' & -> & T & E). injection E as -> ->. eauto.
  - intros (t & -> & T). exists (length v), (rev t ++ []). now apply read_text.
Qed.
(** the operator never returns exactly on the stuck texts; on all other texts it reads a
    vector or reports an error *)
Theorem C67_diverges gv gc r :
  (forall f, read_vector gv gc f (Stream [] r false false) = Fuel) <-> stuck r.
Proof.
  split.
  - intros H. pose proof (read_cases gv gc [] r (S (length r)) ltac:(lia)) as C. now rewrite H in C.
  - intros S f. now apply read_stuck.
Qed.
Theorem C67_safe gv gc r f : read_vector gv gc f (Stream [] r false false) <> UB.
Proof.
  unfold read_vector. destruct (get_char _ gc) as [s1 c1]. destruct (negb (Ascii.eqb c1 "{")); [discriminate|].
  destruct (get_char s1 c1) as [s2 c2]. destruct (negb (Ascii.eqb c2 "}")); [|discriminate].
  generalize (unget s2) as s, (@nil Z) as v, 0%nat as n. clear. revert c2. induction f as [|f IH]; intros c s v n; cbn [read_loop]; [discriminate|].
  destruct (get_int s (gv n)) as [s1 z]. destruct (get_char s1 c) as [s2 c']. destruct (eof s2); [discriminate|].
  destruct (Ascii.eqb c' "}"); [discriminate|]. destruct (negb (Ascii.eqb c' ",")); [discriminate|]. apply IH.
Qed.
(** a malformed text need not be reported *)
Theorem C67_malformed_is_reported_refuted gv gc : exists r,
  (forall t u v, r = t ++ u -> ~ vector_text t v) /\ forall f, read_vector gv gc f (Stream [] r false false) <> Err.
Proof.
  exists (str "{1,abc}"). assert (S : stuck (str "{1,abc}")).
  { exists [], (str "1"), (str "abc}"). split; [reflexivity|]. split; [constructor|]. right. split.
    - exists [1]. change (elements ([] ++ str "1" ++ []) [1]). constructor; [constructor| |constructor]. split; [|lia].
      apply (signed_none (str "1")); [discriminate|]. repeat constructor.
    - exists [], [], "a"%char, (str "bc}"). split; [reflexivity|]. split; [constructor|]. split; [reflexivity|]. left.
      split; [reflexivity|]. split; [now apply not_space|]. split; discriminate. }
  split.
  - intros t u v E T. pose proof (read_stuck gv gc _ [] (length v) S) as F. rewrite E in F.
    rewrite (read_text gv gc t v u [] (length v) T) in F by lia. discriminate.
  - intros f. rewrite (read_stuck gv gc _ [] f S). discriminate.
Qed.
Example C67_example :
  print_vector [3; -12; 0] = Ok (str "{3, -12, 0}") /\
  read_vector (fun _ => 77) "x" 5 (Stream [] (str " { 3 ,-12,	+007 }; 4") false false)
    = Ok ([3; -12; 7], Stream (rev (str " { 3 ,-12,	+007 }")) (str "; 4") false false) /\
  read_vector (fun _ => 77) "x" 5 (Stream [] (str "{1,2") false false) = Err /\
  read_vector (fun _ => 77) "{" 5 (Stream [] (str "") false false) = Err /\
  read_vector (fun _ => 77) "x" 5 (Stream [] (str "{1;2}") false false) = Err /\
  read_vector (fun _ => 77) "x" 100 (Stream [] (str "{1,2,}") false false) = Fuel.
Proof. repeat split; reflexivity. Qed.
Print Assumptions C67_round_trip.
Print Assumptions C67_exact.
Print Assumptions C67_diverges.
Print Assumptions C67_print.
Print Assumptions C67_safe.
Print Assumptions C67_malformed_is_reported_refuted.
