From Verif Require Import Base Float NumModel RandModel DistModel DistSpec DistProofs.
Local Open Scope nat_scope.

Section Hist.
Context {G S P R U : Type} (seed : Z -> G) (use : U -> G -> outcome (G * R)) (make : P -> outcome S) (next : S -> G -> outcome (R * S * G)).
Notation vrunG := (vrun seed use make next).
Notation vstepG := (vstep seed use make next).
Notation aloneG := (alone next).

Lemma rep_same {A} (l : list A) i x y : nth_error l i = Some y -> nth_error (replace l i x) i = Some x.
Proof. exact (put_same l i x y). Qed.
Lemma rep_other {A} (l : list A) i k x : k <> i -> nth_error (replace l i x) k = nth_error l k.
Proof. exact (put_other l i k x). Qed.
Lemma rep_length {A} (l : list A) i x : length (replace l i x) = length l.
Proof. exact (put_length l i x). Qed.
Lemma alive_ok {A} (l : list (option A)) i x : alive l i = Ok x -> nth_error l i = Some (Some x).
Proof. unfold alive. destruct (nth_error l i) as [[y|]|]; try discriminate. now intros [= ->]. Qed.

Ltac bnd H := match type of H with bind ?m _ = Ok _ => let E := fresh "E" in destruct m eqn:E; try discriminate H; cbn [bind] in H end.

Lemma vrun_cons v e es v' rs : vrunG v (e :: es) = Ok (v', rs) -> exists v1 r rs', vstepG v e = Ok (v1, r) /\ vrunG v1 es = Ok (v', rs') /\ rs = r :: rs'.
Proof.
  cbn [vrun]. destruct (vstepG v e) as [[v1 r]| | |]; try discriminate. cbn [bind]. destruct (vrunG v1 es) as [[v2 rs1]| | |] eqn:E2; try discriminate. cbn. intros [= <- <-]. exists v1, r, rs1. auto.
Qed.

Lemma step_len v e v1 r : vstepG v e = Ok (v1, r) -> length (vdists v1) = length (vdists v) + length (origins [e]).
Proof.
  destruct e; cbn [vstep origins length]; intros H; repeat bnd H;
    try (match type of H with (match ?d with Own _ _ => _ | Shared _ _ => _ end) = _ => destruct d end); repeat bnd H; repeat match goal with p : prod _ _ |- _ => destruct p end; cbn [bind] in H; repeat bnd H;
    injection H as <- _; cbn [vdists]; rewrite ?rep_length, ?app_length; cbn [length]; lia.
Qed.
(** what a step does to a distribution it is not about *)
Lemma step_other v e v1 r i d : vstepG v e = Ok (v1, r) -> nth_error (vdists v) i = Some d -> keeps i e -> (forall k, e = ENext k -> k <> i) -> nth_error (vdists v1) i = Some d.
Proof.
  intros H N K NX. destruct e; cbn [vstep keeps] in *; repeat bnd H;
    try (match type of H with (match ?d with Own _ _ => _ | Shared _ _ => _ end) = _ => destruct d end); repeat bnd H; repeat match goal with p : prod _ _ |- _ => destruct p end; cbn [bind] in H; repeat bnd H;
    injection H as <- _; cbn [vdists]; auto; try (rewrite rep_other; auto; fail); try (apply app_old; exact N).
  all: rewrite rep_other; [exact N|]; intros ->; apply (NX _ eq_refl); reflexivity.
Qed.

(** a distribution that is gone gives no more results *)
Lemma dead_results es : forall v v' rs i, vrunG v es = Ok (v', rs) -> nth_error (vdists v) i = Some None -> results_of i es rs = [].
Proof.
  induction es as [|e es IH]; intros v v' rs i H N; [reflexivity|]. destruct (vrun_cons _ _ _ _ _ H) as (v1 & r & rs' & H1 & H2 & ->).
  assert (D : (keeps i e /\ forall k, e = ENext k -> k <> i) \/ vstepG v e = UB).
  { destruct e; try (left; split; [exact I|intros ? ?; discriminate]).
    - destruct (Nat.eq_dec i0 i) as [->|NE]; [right|left; split; [exact NE|intros ? ?; discriminate]]. cbn. unfold alive. now rewrite N.
    - destruct (Nat.eq_dec i0 i) as [->|NE]; [right|left; split; [exact I|intros k [= <-]; exact NE]]. cbn. unfold alive. now rewrite N.
    - destruct (Nat.eq_dec i0 i) as [->|NE]; [right|left; split; [exact NE|intros ? ?; discriminate]]. cbn. unfold alive. now rewrite N. }
  destruct D as [[K NX]|D]; [|congruence]. pose proof (step_other _ _ _ _ _ _ H1 N K NX) as N1. specialize (IH _ _ _ _ H2 N1).
  cbn [results_of]. destruct e; try exact IH. destruct r; [|exact IH]. destruct (Nat.eqb_spec i i0); [|exact IH]. subst. elim (NX _ eq_refl). reflexivity.
Qed.
(** a distribution with its own generator *)
Lemma own_results es : forall v v' rs i g s, vrunG v es = Ok (v', rs) -> nth_error (vdists v) i = Some (Some (Own g s)) -> Forall (not_rebound i) es ->
  exists s' g', aloneG (length (results_of i es rs)) s g = Ok (results_of i es rs, s', g') /\ (Forall (keeps i) es -> nth_error (vdists v') i = Some (Some (Own g' s'))).
Proof.
  induction es as [|e es IH]; intros v v' rs i g s H N K. { cbn in H. injection H as <- <-. cbn. eauto. }
  destruct (vrun_cons _ _ _ _ _ H) as (v1 & r & rs' & H1 & H2 & ->). inversion K as [|? ? K1 K2]; subst.
  assert (C : e = ENext i \/ e = EEndDist i \/ (keeps i e /\ forall k, e = ENext k -> k <> i)).
  { destruct e; try (right; right; split; [exact I|intros ? ?; discriminate]).
    - right; right. split; [exact K1|intros ? ?; discriminate].
    - destruct (Nat.eq_dec i0 i) as [->|NE]; [left; reflexivity|right; right; split; [exact I|intros k [= <-]; exact NE]].
    - destruct (Nat.eq_dec i0 i) as [->|NE]; [right; left; reflexivity|right; right; split; [exact NE|intros ? ?; discriminate]]. }
  destruct C as [->|[->|[C1 C2]]].
  - cbn [vstep] in H1. unfold alive in H1 at 1. rewrite N in H1. cbn [bind] in H1. destruct (next s g) as [[[r0 s1] g1]| | |] eqn:X; try discriminate. cbn in H1. injection H1 as <- <-.
    destruct (IH _ _ _ i g1 s1 H2) as (s' & g' & A & B); [cbn [vdists]; exact (rep_same _ _ _ _ N)|exact K2|]. exists s', g'. cbn [results_of]. rewrite Nat.eqb_refl. cbn [length alone]. rewrite X. cbn [bind]. rewrite A. cbn. split; [reflexivity|].
    intros F. apply B. now inversion F.
  - cbn [vstep] in H1. unfold alive in H1 at 1. rewrite N in H1. cbn in H1. injection H1 as <- <-. exists s, g. cbn [results_of].
    rewrite (dead_results es _ _ _ i H2); [|cbn [vdists]; exact (rep_same _ _ _ _ N)]. split; [reflexivity|]. intros F. inversion F as [|? ? F1 _]. elim F1. reflexivity.
  - destruct (IH _ _ _ i g s H2 (step_other _ _ _ _ _ _ H1 N C1 C2) K2) as (s' & g' & A & B). exists s', g'.
    assert (Q : results_of i (e :: es) (r :: rs') = results_of i es rs').
    { cbn [results_of]. destruct e; try reflexivity. destruct r; [|reflexivity]. destruct (Nat.eqb_spec i i0) as [->|NE]; [elim (C2 _ eq_refl); reflexivity|reflexivity]. }
    rewrite Q. split; [exact A|]. intros F. apply B. now inversion F.
Qed.
Lemma fresh_results es : forall v v' rs i t p, vrunG v es = Ok (v', rs) -> Forall (not_rebound i) es -> length (vdists v) <= i -> nth_error (origins es) (i - length (vdists v)) = Some (Fresh t p) ->
  exists s s' g', make p = Ok s /\ aloneG (length (results_of i es rs)) s (seed t) = Ok (results_of i es rs, s', g').
Proof.
  induction es as [|e es IH]; intros v v' rs i t p H K L N. { cbn in N. destruct (i - length (vdists v)); discriminate. }
  destruct (vrun_cons _ _ _ _ _ H) as (v1 & r & rs' & H1 & H2 & ->). inversion K as [|? ? K1 K2]; subst.
  pose proof (step_len _ _ _ _ H1) as SL.
  assert (Q : results_of i (e :: es) (r :: rs') = results_of i es rs').
  { cbn [results_of]. destruct e; try reflexivity. destruct r; [|reflexivity]. destruct (Nat.eqb_spec i i0) as [->|NE]; [|reflexivity].
    exfalso. cbn [vstep] in H1. unfold alive in H1 at 1. rewrite (proj2 (nth_error_None (vdists v) i0) L) in H1. discriminate. }
  rewrite Q.
  assert (G0 : origins [e] = [] -> exists s s' g', make p = Ok s /\ aloneG (length (results_of i es rs')) s (seed t) = Ok (results_of i es rs', s', g')).
  { intros Z. rewrite Z in SL. cbn [length] in SL. rewrite Nat.add_0_r in SL. apply (IH v1 v' rs' i t p H2 K2); rewrite SL; [exact L|]. destruct e; try exact N; discriminate. }
  assert (G1 : forall o, origins [e] = [o] -> origins (e :: es) = o :: origins es -> i <> length (vdists v) -> exists s s' g', make p = Ok s /\ aloneG (length (results_of i es rs')) s (seed t) = Ok (results_of i es rs', s', g')).
  { intros o Z Z' NE. rewrite Z in SL. cbn [length] in SL. apply (IH v1 v' rs' i t p H2 K2); rewrite SL; [lia|]. rewrite Z' in N.
    replace (i - length (vdists v)) with (Datatypes.S (i - (length (vdists v) + 1))) in N by lia. exact N. }
  destruct e; try (apply G0; reflexivity).
  - destruct (Nat.eq_dec i (length (vdists v))) as [->|NE]; [|exact (G1 _ eq_refl eq_refl NE)].
    rewrite Nat.sub_diag in N. cbn in N. injection N as -> ->. cbn [vstep] in H1. destruct (make p) as [s| | |]; try discriminate. cbn in H1. injection H1 as <- <-.
    destruct (own_results es _ _ _ (length (vdists v)) (seed t) s H2) as (s' & g' & A & _); [cbn [vdists]; apply app_at|exact K2|]. eauto.
  - destruct (Nat.eq_dec i (length (vdists v))) as [->|NE]; [|exact (G1 _ eq_refl eq_refl NE)].
    rewrite Nat.sub_diag in N. cbn in N. discriminate.
Qed.
Lemma alone_prefix n : forall m s g l1 s1 g1 l2 s2 g2, aloneG n s g = Ok (l1, s1, g1) -> aloneG (n + m) s g = Ok (l2, s2, g2) -> firstn n l2 = l1.
Proof.
  induction n as [|n IH]; intros m s g l1 s1 g1 l2 s2 g2 H1 H2. { cbn in H1. now injection H1 as <- _ _. }
  cbn [alone Nat.add] in *. destruct (next s g) as [[[r s'] g']| | |]; try discriminate. cbn [bind] in *.
  destruct (aloneG n s' g') as [[[x1 y1] z1]| | |] eqn:A1; try discriminate. destruct (aloneG (n + m) s' g') as [[[x2 y2] z2]| | |] eqn:A2; try discriminate. cbn in *.
  injection H1 as <- _ _. injection H2 as <- _ _. cbn. f_equal. exact (IH m s' g' _ _ _ _ _ _ A1 A2).
Qed.

(** replacing next() by a direct call *)
Definition instead (i j : nat) (u : U) (e : event) : @event P U :=
  match e with ENext k => if Nat.eqb k i then EUseRandom j u else e | _ => e end.
Lemma instead_run es : forall v i j u s, nth_error (vdists v) i = Some (Some (Shared j s)) -> Forall (keeps i) es ->
  (forall g, next s g = ('(g, r) <- use u g ;; Ok (r, s, g))) ->
  vrunG v (map (instead i j u) es) = vrunG v es.
Proof.
  induction es as [|e es IH]; intros v i j u s N K E; [reflexivity|]. inversion K as [|? ? K1 K2]; subst. cbn [map vrun].
  assert (ST : vstepG v (instead i j u e) = vstepG v e).
  { destruct e; try reflexivity. cbn [instead]. destruct (Nat.eqb_spec i0 i) as [->|NE]; [|reflexivity]. cbn [vstep]. unfold alive at 2. rewrite N. cbn [bind].
    destruct (alive (vgens v) j) as [g| | |]; try reflexivity. cbn [bind]. rewrite E. destruct (use u g) as [[g' r]| | |]; try reflexivity. cbn.
    assert (RP : forall A (l : list A) k x, nth_error l k = Some x -> replace l k x = l). { intros A l. induction l as [|y l IHl]; intros [|k] x Q; cbn in *; try congruence. f_equal. now apply IHl. }
    rewrite (RP _ _ _ _ N). reflexivity. }
  rewrite ST. destruct (vstepG v e) as [[v1 r]| | |] eqn:H1; try reflexivity. cbn [bind]. erewrite IH; [reflexivity| |exact K2|exact E].
  destruct (Nat.eq_dec (match e with ENext k => k | _ => Datatypes.S i end) i) as [Q|Q].
  - destruct e; try lia. subst. cbn [vstep] in H1. unfold alive in H1 at 1. rewrite N in H1. cbn [bind] in H1. destruct (alive (vgens v) j) as [g| | |]; try discriminate. cbn [bind] in H1. rewrite E in H1.
    destruct (use u g) as [[g' r']| | |]; try discriminate. cbn in H1. injection H1 as <- <-. cbn [vdists]. exact (rep_same _ _ _ _ N).
  - apply (step_other _ _ _ _ _ _ H1 N K1). intros k ->. exact Q.
Qed.
Lemma vrun_app es1 : forall v es2, vrunG v (es1 ++ es2) = ('(v1, r1) <- vrunG v es1 ;; '(v2, r2) <- vrunG v1 es2 ;; Ok (v2, r1 ++ r2)).
Proof.
  induction es1 as [|e es1 IH]; intros v es2. { cbn. destruct (vrunG v es2) as [[? ?]| | |]; reflexivity. }
  cbn [vrun app]. destruct (vstepG v e) as [[v1 r]| | |]; try reflexivity. cbn [bind]. rewrite IH. destruct (vrunG v1 es1) as [[v2 r2]| | |]; try reflexivity. cbn [bind].
  destruct (vrunG v2 es2) as [[v3 r3]| | |]; reflexivity.
Qed.
Lemma run_len es : forall v v' rs, vrunG v es = Ok (v', rs) -> length (vdists v') = length (vdists v) + length (origins es) /\ length rs = length es.
Proof.
  induction es as [|e es IH]; intros v v' rs H. { cbn in H. injection H as <- <-. cbn. lia. }
  destruct (vrun_cons _ _ _ _ _ H) as (v1 & r & rs' & H1 & H2 & ->). pose proof (step_len _ _ _ _ H1) as L. destruct (IH _ _ _ H2) as [A B]. rewrite A, L. cbn [length]. rewrite B. split; [|reflexivity].
  destruct e; cbn [origins length]; lia.
Qed.
(** [n] calls of next() in a row on a distribution bound to the user's generator *)
Lemma shared_nexts n : forall v i j s g, nth_error (vdists v) i = Some (Some (Shared j s)) -> nth_error (vgens v) j = Some (Some g) ->
  omap snd (vrunG v (repeat (ENext i) n)) = omap (fun x => map Some (fst (fst x))) (aloneG n s g).
Proof.
  induction n as [|n IH]; intros v i j s g N J; [reflexivity|]. cbn [repeat vrun alone vstep]. unfold alive at 1. rewrite N. cbn [bind]. unfold alive. rewrite J. cbn [bind].
  destruct (next s g) as [[[r s1] g1]| | |]; try reflexivity. cbn [bind].
  specialize (IH (State (replace (vgens v) j (Some g1)) (replace (vdists v) i (Some (Shared j s1)))) i j s1 g1 (rep_same _ _ _ _ N) (rep_same _ _ _ _ J)).
  destruct (vrunG _ (repeat (ENext i) n)) as [[v2 rs]| | |], (aloneG n s1 g1) as [[[l s2] g2]| | |]; cbn in IH |- *; try discriminate; try reflexivity. injection IH as ->. reflexivity.
Qed.
(** the sampler of a distribution descends from its constructor's parameters *)
Section Descent.
Context (Q : S -> S -> Prop) (Qrefl : forall s, Q s s) (Qnext : forall s s1 g r s2 g2, Q s s1 -> next s1 g = Ok (r, s2, g2) -> Q s s2).
Definition descends (v : @state G S) (os : list origin) : Prop :=
  length os = length (vdists v) /\
  forall i o d, nth_error os i = Some o -> nth_error (vdists v) i = Some (Some d) -> exists s, make (params_of o) = Ok s /\ Q s (sampler_of d).
Lemma descends_replace v os vg i d d' : descends v os -> nth_error (vdists v) i = Some (Some d) ->
  (forall s, Q s (sampler_of d) -> match d' with Some d' => Q s (sampler_of d') | None => True end) -> descends (State vg (replace (vdists v) i d')) os.
Proof.
  intros [L D] N H. split; cbn [vdists]; [rewrite rep_length; exact L|]. intros k o e O K. destruct (Nat.eq_dec k i) as [->|NE].
  - rewrite (rep_same _ _ _ _ N) in K. injection K as ->. destruct (D i o d O N) as (s & M & A). exists s. split; [exact M|]. exact (H s A).
  - rewrite rep_other in K by exact NE. exact (D k o e O K).
Qed.
Lemma descends_step v os e v1 r : descends v os -> vstepG v e = Ok (v1, r) -> descends v1 (os ++ origins [e]).
Proof.
  intros D H. destruct e as [t|j|j u|t p|j p|i j|i|i]; cbn [vstep origins] in *; rewrite ?app_nil_r.
  - injection H as <- _. exact D.
  - bnd H. injection H as <- _. exact D.
  - bnd H. bnd H. destruct a0. injection H as <- _. exact D.
  - destruct (make p) as [s| | |] eqn:M; try discriminate. injection H as <- _. destruct D as [L D]. split; cbn [vdists]; [rewrite !app_length; cbn; lia|].
    intros i o d O K. destruct (app_cases _ _ _ _ O) as [O'|[-> ->]].
    + destruct (app_cases _ _ _ _ K) as [K'|[-> _]]; [exact (D i o d O' K')|]. assert (length (vdists v) < length os) by (apply nth_error_Some; congruence). lia.
    + destruct (app_cases _ _ _ _ K) as [K'|[_ [= ->]]]; [assert (length os < length (vdists v)) by (apply nth_error_Some; congruence); lia|]. exists s. split; [exact M|apply Qrefl].
  - bnd H. destruct (make p) as [s| | |] eqn:M; try discriminate. injection H as <- _. destruct D as [L D]. split; cbn [vdists]; [rewrite !app_length; cbn; lia|].
    intros i o d O K. destruct (app_cases _ _ _ _ O) as [O'|[-> ->]].
    + destruct (app_cases _ _ _ _ K) as [K'|[-> _]]; [exact (D i o d O' K')|]. assert (length (vdists v) < length os) by (apply nth_error_Some; congruence). lia.
    + destruct (app_cases _ _ _ _ K) as [K'|[_ [= ->]]]; [assert (length os < length (vdists v)) by (apply nth_error_Some; congruence); lia|]. exists s. split; [exact M|apply Qrefl].
  - bnd H. bnd H. injection H as <- _. apply (descends_replace v os _ i a _ D (alive_ok _ _ _ E)). intros s A. cbn [sampler_of]. destruct a; exact A.
  - bnd H. destruct a as [g s|j s].
    + destruct (next s g) as [[[r0 s1] g1]| | |] eqn:X; try discriminate. injection H as <- _. apply (descends_replace v os _ i _ _ D (alive_ok _ _ _ E)). intros s0 A. exact (Qnext _ _ _ _ _ _ A X).
    + bnd H. destruct (next s a) as [[[r0 s1] g1]| | |] eqn:X; try discriminate. injection H as <- _. apply (descends_replace v os _ i _ _ D (alive_ok _ _ _ E)). intros s0 A. exact (Qnext _ _ _ _ _ _ A X).
  - bnd H. injection H as <- _. apply (descends_replace v os _ i a _ D (alive_ok _ _ _ E)). intros s A. exact I.
Qed.
Lemma origins_app es1 : forall es2, origins (es1 ++ es2) = @origins P U es1 ++ origins es2.
Proof. induction es1 as [|e es1 IH]; intros es2; [reflexivity|]. destruct e; cbn [origins app]; rewrite ?IH; reflexivity. Qed.
Lemma descends_run es : forall v os v' rs, descends v os -> vrunG v es = Ok (v', rs) -> descends v' (os ++ origins es).
Proof.
  induction es as [|e es IH]; intros v os v' rs D H. { cbn in H. injection H as <- _. cbn. now rewrite app_nil_r. }
  destruct (vrun_cons _ _ _ _ _ H) as (v1 & r & rs' & H1 & H2 & ->). pose proof (IH _ _ _ _ (descends_step _ _ _ _ _ D H1) H2) as Z.
  change (e :: es) with ([e] ++ es). rewrite origins_app, app_assoc. exact Z.
Qed.
End Descent.
End Hist.
