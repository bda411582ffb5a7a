(** Proofs about mapAll and filterContainer with functions that change the container. *)
From Coq Require Import Sorted Permutation.
From Verif Require Import Base ContModel ContSpec ContProofs WalkModel WalkSpec WalkProofs WalkProperties AlgWalkModel AlgWalkSpec.
Local Open Scope Z_scope.

Section Proofs.
Context {E K B : Type} (key : E -> K) (lt : K -> K -> bool) (WO : weak_order lt) (multi : bool).

Lemma map_loop_ok (f : list E -> list (tcall E K) * B) : forall n st it vs ret,
  match loop key lt multi (fun vs => (fst (f vs), true)) n st it vs with
  | Ok (st', vs') => exists ws, vs' = vs ++ ws /\ map_loop key lt multi f n st it vs ret = Ok (st', ret ++ heard f vs ws)
  | Err => map_loop key lt multi f n st it vs ret = Err
  | UB => map_loop key lt multi f n st it vs ret = UB
  | Fuel => map_loop key lt multi f n st it vs ret = Fuel
  end.
Proof.
  induction n as [|n IH]; intros st [id|] vs ret; try reflexivity; try (exists []; now rewrite !app_nil_r).
  cbn [loop map_loop fst snd]. destruct (deref id (nodes st)) as [e| | |]; cbn [bind]; try reflexivity.
  destruct (tcalls key lt multi st (fst (f (vs ++ [e])))) as [st1| | |]; cbn [bind]; try reflexivity.
  destruct (after id (nodes st1)) as [it| | |]; cbn [bind]; try reflexivity.
  specialize (IH st1 it (vs ++ [e]) (ret ++ [snd (f (vs ++ [e]))])). destruct (loop key lt multi (fun vs => (fst (f vs), true)) n st1 it (vs ++ [e])) as [[st' vs']| | |]; try exact IH.
  destruct IH as (ws & -> & ->). exists (e :: ws). cbn [heard]. rewrite <- !app_assoc. now split.
Qed.
Lemma deref_gone id (l : list (nat * E)) : ~ In id (map fst l) -> deref id l = UB.
Proof.
  induction l as [|x l IH]; intros N; [reflexivity|]. cbn [deref map] in *. destruct (Nat.eqb_spec (fst x) id) as [Q|Q]; [exfalso; apply N; now left|]. apply IH. intros J. apply N. now right.
Qed.
Lemma filter_walk_ok (f : list E -> list (tcall E K) * bool) : forall n st P Q vs ret, wf key lt multi st -> nodes st = P ++ Q ->
  match loop key lt multi (fun vs => (fst (f vs), true)) n st (head Q) vs with
  | Ok (st', vs') => exists ws, vs' = vs ++ ws /\ filter_walk key lt multi f n st (head Q) vs ret = Ok (st', ret ++ passed f vs ws)
  | Err => filter_walk key lt multi f n st (head Q) vs ret = Err
  | UB => filter_walk key lt multi f n st (head Q) vs ret = UB
  | Fuel => filter_walk key lt multi f n st (head Q) vs ret = Fuel
  end.
Proof.
  induction n as [|n IH]; intros st P [|q Q] vs ret W HN; cbn [head]; try (exists []; now rewrite !app_nil_r); try reflexivity.
  cbn [loop filter_walk fst snd]. pose proof W as (I & D & F). rewrite HN in D. assert (DE : deref (fst q) (nodes st) = Ok (snd q)) by (rewrite HN; now apply deref_at). rewrite DE. cbn [bind].
  pose proof (fun st' => tcalls_split key lt WO multi (fst (f (vs ++ [snd q]))) st P q Q st' W HN) as TS. pose proof (fun st' => tcalls_wf key lt WO multi (fst (f (vs ++ [snd q]))) st st' W) as TW.
  destruct (tcalls key lt multi st (fst (f (vs ++ [snd q])))) as [st1| | |]; cbn [bind]; try reflexivity. specialize (TS st1 eq_refl). destruct (TW st1 eq_refl) as (W1 & _).
  destruct (existsb (removes lt (key (snd q))) (fst (f (vs ++ [snd q])))).
  - rewrite (after_gone (fst q)) by exact TS. rewrite (deref_gone (fst q)) by exact TS. cbn [bind]. now destruct (snd (f (vs ++ [snd q]))).
  - destruct TS as (P' & Q' & HN' & _). pose proof W1 as (_ & D1 & _). rewrite HN' in D1. rewrite HN'. rewrite after_at, deref_at by exact D1. cbn [bind].
    assert (R : (if snd (f (vs ++ [snd q])) then Ok (ret ++ [snd q]) else Ok ret) = Ok (ret ++ (if snd (f (vs ++ [snd q])) then [snd q] else []))) by (destruct (snd (f (vs ++ [snd q]))); [reflexivity|now rewrite app_nil_r]). rewrite R. cbn [bind].
    specialize (IH st1 (P' ++ [q]) Q' (vs ++ [snd q]) (ret ++ (if snd (f (vs ++ [snd q])) then [snd q] else [])) W1). rewrite HN', <- app_assoc in IH. specialize (IH eq_refl).
    destruct (loop key lt multi (fun vs => (fst (f vs), true)) n st1 (head Q') (vs ++ [snd q])) as [[st' vs']| | |]; try exact IH.
    destruct IH as (ws & -> & ->). exists (snd q :: ws). cbn [passed]. rewrite <- !app_assoc. now split.
Qed.
Lemma course_ok {C} (f : list E -> list (tcall E K) * C) n st st' vs : made key lt multi st ->
  for_each key lt multi (fun vs => (fst (f vs), true)) n st = Ok (st', vs) -> course key lt multi f (contents st) vs.
Proof.
  intros M H. split; [exact (C131_order key lt multi _ n st st' vs WO M H)|]. split.
  - intros x X N. exact (C131_sees key lt multi _ n st st' vs x WO M H eq_refl X N).
  - intros x X. exact (C131_only key lt multi _ n st st' vs x WO M H X).
Qed.
(** the contents afterwards: all the calls, one after the other *)
Lemma changes_app l a b : changes key lt multi l (a ++ b) = (m <- changes key lt multi l a ;; changes key lt multi m b).
Proof. revert l. induction a as [|o a IH]; intros l; [reflexivity|]. cbn [app changes]. destruct (change key lt multi l o); try reflexivity. apply IH. Qed.
Lemma sweep_changes {C} (f : list E -> list (tcall E K) * C) : forall n l i vs l' vs', sweep key lt multi (fun vs => (fst (f vs), true)) n l i vs = Ok (l', vs') ->
  exists ws, vs' = vs ++ ws /\ changes key lt multi l (flat_map (fun k => fst (f (vs ++ firstn k ws))) (seq 1 (length ws))) = Ok l'.
Proof.
  induction n as [|n IH]; intros l i vs l' vs' H; cbn [sweep] in H; destruct (nth_error l i) as [e|]; try discriminate; try (injection H as <- <-; exists []; now rewrite app_nil_r).
  cbn [fst snd negb] in H. destruct (changes key lt multi l (fst (f (vs ++ [e])))) as [l1| | |] eqn:C1; try discriminate. cbn [bind] in H.
  destruct (existsb (removes lt (key e)) (fst (f (vs ++ [e])))); [discriminate|]. destruct (IH _ _ _ _ _ H) as (ws & -> & Q). exists (e :: ws). rewrite <- app_assoc. split; [reflexivity|].
  cbn [length seq flat_map firstn]. rewrite changes_app, C1. cbn [bind]. rewrite <- seq_shift, flat_map_concat_map, map_map, <- flat_map_concat_map. cbn [firstn].
  rewrite <- Q. f_equal. apply flat_map_ext. intros k. now rewrite <- app_assoc.
Qed.
Lemma for_each_changes {C} (f : list E -> list (tcall E K) * C) n st st' vs : made key lt multi st ->
  for_each key lt multi (fun vs => (fst (f vs), true)) n st = Ok (st', vs) -> changes key lt multi (contents st) (flat_map (fun k => fst (f (firstn k vs))) (seq 1 (length vs))) = Ok (contents st').
Proof.
  intros M H. apply (run_sweep key lt WO) in H; [|exact M]. cbn [app length] in H. destruct (sweep_changes f _ _ _ _ _ _ H) as (ws & -> & Q). exact Q.
Qed.
Lemma last_on {C} (d : C) (g : E -> C) vs x : on_last d g (vs ++ [x]) = g x.
Proof. unfold on_last. now rewrite rev_unit. Qed.
(** a function that erases its argument and goes on *)
Lemma drop_sweep (p : E -> bool) : forall Q P n vs, inv key lt multi (P ++ Q) -> (length Q <= n)%nat -> (exists x, In x Q /\ p x = false) ->
  sweep key lt multi (fun vs => (fst (on_last ([], true) (fun x => if p x then ([], true) else ([TDel (key x)], false)) vs), true)) n (P ++ Q) (length P) vs = UB.
Proof.
  induction Q as [|q Q IH]; intros P n vs I L (x & X & N); [destruct X|]. destruct n as [|n]; [cbn in L; lia|]. cbn [sweep]. rewrite nth_error_app2, Nat.sub_diag by lia. cbn [nth_error fst snd negb]. rewrite last_on.
  destruct (p q) eqn:Pq; cbn [fst changes bind existsb removes change].
  - rewrite (smaller_split key lt WO multi P q Q I). pose proof (smaller_le key lt (key q) P) as Sm. replace (smaller key lt (key q) P + (length P - smaller key lt (key q) P) + 1)%nat with (length (P ++ [q])) by (rewrite app_length; cbn [length]; lia).
    replace (P ++ q :: Q) with ((P ++ [q]) ++ Q) in * by now rewrite <- app_assoc. apply IH; [exact I|cbn in L; lia|]. exists x. split; [|exact N]. destruct X as [<-|X]; [congruence|exact X].
  - assert (S : same lt (key q) (key q) = true) by (unfold same; now rewrite (key_irr lt WO)).
    assert (HK : has_key key lt (key q) (P ++ q :: Q) = true) by (unfold has_key; apply existsb_exists; exists q; split; [apply in_or_app; right; now left|exact S]). rewrite HK. cbn [negb]. rewrite andb_false_r. cbn [bind]. now rewrite S.
Qed.
(** a function without calls *)
Lemma calm_loop {C} (g : E -> C) : forall Q P n st vs, NoDup (map fst (nodes st)) -> nodes st = P ++ Q -> (length Q <= n)%nat ->
  forall f, (forall vs x, f (vs ++ [x]) = ([], g x)) -> loop key lt multi (fun vs => (fst (f vs), true)) n st (head Q) vs = Ok (st, vs ++ map snd Q).
Proof.
  induction Q as [|q Q IH]; intros P n st vs D HN L f Hf; [destruct n; cbn; now rewrite app_nil_r|]. destruct n as [|n]; [cbn in L; lia|]. cbn [head loop fst snd]. rewrite HN in D. rewrite HN at 1. rewrite deref_at by exact D. cbn [bind]. rewrite Hf. cbn [fst tcalls bind]. rewrite HN at 1. rewrite after_at by exact D. cbn [bind].
  rewrite (IH (P ++ [q]) n st (vs ++ [snd q])); [cbn [map]; now rewrite <- app_assoc|now rewrite HN|now rewrite HN, <- app_assoc|cbn in L; lia|exact Hf].
Qed.
Lemma calm_heard {C} (g : E -> C) (f : list E -> list (tcall E K) * C) : (forall vs x, f (vs ++ [x]) = ([], g x)) -> forall ws vs, heard f vs ws = map g ws.
Proof. intros Hf. induction ws as [|w ws IH]; intros vs; [reflexivity|]. cbn [heard map]. now rewrite Hf, IH. Qed.
Lemma calm_passed (g : E -> bool) (f : list E -> list (tcall E K) * bool) : (forall vs x, f (vs ++ [x]) = ([], g x)) -> forall ws vs, passed f vs ws = filter g ws.
Proof. intros Hf. induction ws as [|w ws IH]; intros vs; [reflexivity|]. cbn [passed filter]. rewrite Hf, IH. cbn [snd]. now destruct (g w). Qed.
End Proofs.
