From Verif Require Import Base Float NumModel RandModel DistModel DistSpec DistProofs DistHistProofs.
Local Open Scope nat_scope.

Section Main.
Context {G : Type} (E : engine G) (log exp : double -> double) (pow : double -> double -> double) (nf : bool) (fuel : nat).
Notation mrun := (run E log exp pow nf fuel).
Notation next := (sample E log exp pow nf fuel).
Notation make := (init exp pow).
Notation use := (fun o g => rand_step E g o).
Notation srun := (vrun (random_new E) use make next).
Notation v0 := (State [] []).

Lemma main_sim os :
  match mrun empty os, srun v0 (map ev os) with
  | Ok (w, rs), Ok (v, rs') => rs = rs' /\ exists own, Rel w v own
  | Err, Err | UB, UB | Fuel, Fuel => True
  | _, _ => False
  end.
Proof. exact (run_sim E log exp pow nf fuel os empty v0 [] rel_empty). Qed.
Lemma main_ok os w rs : mrun empty os = Ok (w, rs) -> exists v own, srun v0 (map ev os) = Ok (v, rs) /\ Rel w v own.
Proof.
  intros H. pose proof (main_sim os) as S. rewrite H in S. destruct (srun v0 (map ev os)) as [[v rs']| | |]; try contradiction. destruct S as (<- & own & R). eauto.
Qed.
Lemma none_left (w : @world G) v own : Rel w v own -> Forall (fun o : option nat => o = None) (users w) -> Forall (fun o : option dist => o = None) (dists w) -> Forall (fun o : option G => o = None) (gens w).
Proof.
  intros R U D.
  assert (VG : forall j o, nth_error (vgens v) j = Some o -> o = None).
  { intros j o N. destruct (r_user w v own R j o N) as (a & _ & B). destruct o as [g|]; [|reflexivity]. destruct B as [B _]. rewrite Forall_forall in U. now specialize (U _ (nth_error_In _ _ B)). }
  assert (VD : forall i o, nth_error (vdists v) i = Some o -> o = None).
  { intros i o N. pose proof (r_dist w v own R i o N) as B. rewrite Forall_forall in D. destruct o as [[g s|j s]|]; [| |reflexivity].
    - destruct B as (a & _ & B & _). now specialize (D _ (nth_error_In _ _ B)).
    - destruct B as (a & _ & B). now specialize (D _ (nth_error_In _ _ B)). }
  assert (L : live v = 0).
  { unfold live. assert (A : forall A (f : A -> bool) l, (forall i o, nth_error l i = Some o -> f o = false) -> length (filter f l) = 0).
    { intros A f l. induction l as [|x l IH]; intros H; [reflexivity|]. cbn [filter]. rewrite (H 0 x eq_refl). apply IH. intros i o N. exact (H (S i) o N). }
    rewrite !A; [reflexivity| |]; intros i o N; [now rewrite (VD i o N)|now rewrite (VG i o N)]. }
  pose proof (r_count w v own R) as C. rewrite L in C. clear -C. unfold count in C. induction (gens w) as [|[g|] l IH]; constructor; cbn in C; try discriminate; auto.
Qed.
Lemma sample_params (s s1 : sampler) g r s2 g2 : next s1 g = Ok (r, s2, g2) ->
  match s1 with SNormal m d _ => exists sp, s2 = SNormal m d sp | _ => s2 = s1 end.
Proof.
  destruct s1; cbn [sample]; intros H;
    repeat match type of H with bind ?m _ = Ok _ => destruct m; try discriminate H; cbn [bind] in H end;
    repeat match goal with p : prod _ _ |- _ => destruct p end; cbn [bind] in H;
    repeat match type of H with bind ?m _ = Ok _ => destruct m; try discriminate H; cbn [bind] in H end;
    repeat match goal with p : prod _ _ |- _ => destruct p end; cbn [bind] in H;
    injection H as _ <- _; eauto.
Qed.
Definition same_params (s s1 : sampler) : Prop :=
  match s with SNormal m d _ => exists sp, s1 = SNormal m d sp | _ => s1 = s end.
Lemma main_descends os w rs : mrun empty os = Ok (w, rs) -> forall i o d, nth_error (origins (map ev os)) i = Some o -> nth_error (dists w) i = Some (Some d) ->
  exists s, make (params_of o) = Ok s /\ same_params s (smp d).
Proof.
  intros H i o d O N. destruct (main_ok _ _ _ H) as (v & own & V & R).
  pose proof (descends_run (random_new E) use make next same_params) as D.
  destruct (D ltac:(intros []; cbn; eauto) ltac:(intros s s1 g r s2 g2 A X; pose proof (sample_params s s1 g r s2 g2 X) as Y; destruct s; cbn in A |- *; [subst s1; exact Y|subst s1; exact Y|subst s1; exact Y|destruct A as [sp ->]; exact Y|subst s1; exact Y|subst s1; exact Y|subst s1; exact Y|subst s1; exact Y|subst s1; exact Y])
    (map ev os) v0 [] v rs) as [L DD]; [split; [reflexivity|intros [|?] ? ? ?; discriminate]|exact V|]. cbn [app] in L, DD.
  assert (ND : nth_error (vdists v) i <> None). { apply nth_error_Some. rewrite <- L. apply nth_error_Some. congruence. }
  destruct (nth_error (vdists v) i) as [od|] eqn:Q; [|congruence]. pose proof (r_dist w v own R i od Q) as B.
  destruct od as [[g s|j s]|].
  - destruct B as (a & _ & B & _). rewrite N in B. injection B as ->. exact (DD i o _ O Q).
  - destruct B as (a & _ & B). rewrite N in B. injection B as ->. exact (DD i o _ O Q).
  - congruence.
Qed.

(** after setRandomGenerator *)
Lemma rebind_results os w rs i d t n : mrun empty os = Ok (w, rs) -> nth_error (dists w) i = Some (Some d) ->
  omap snd (mrun w (NewRandom t :: SetGenerator i (length (users w)) :: repeat (Next i) n)) =
  omap (fun x => None :: None :: map Some (fst (fst x))) (alone next n (smp d) (random_new E t)).
Proof.
  intros H N. destruct (main_ok _ _ _ H) as (v & own & V & R).
  pose proof (run_sim E log exp pow nf fuel (NewRandom t :: SetGenerator i (length (users w)) :: repeat (Next i) n) w v own R) as S. unfold mr, vr in S.
  assert (ND : exists vd, nth_error (vdists v) i = Some (Some vd) /\ sampler_of vd = smp d).
  { assert (LD : nth_error (vdists v) i <> None) by (apply nth_error_Some; rewrite <- (r_dists w v own R); apply nth_error_Some; congruence).
    destruct (nth_error (vdists v) i) as [od|] eqn:Q; [|congruence]. pose proof (r_dist w v own R i od Q) as B.
    destruct od as [[g s|j s]|]; [destruct B as (a & _ & B & _)|destruct B as (a & _ & B)|congruence]; rewrite N in B; injection B as ->; eauto. }
  destruct ND as (vd & Q & SD).
  assert (T : omap snd (srun v (map ev (NewRandom t :: SetGenerator i (length (users w)) :: repeat (Next i) n))) = omap (fun x => None :: None :: map Some (fst (fst x))) (alone next n (smp d) (random_new E t))).
  { cbn [map ev vrun vstep bind vgens vdists]. unfold alive. rewrite Q. cbn [bind].
    rewrite (r_users w v own R), app_at. cbn [bind].
    pose proof (shared_nexts (random_new E) use make next n (State (vgens v ++ [Some (random_new E t)]) (replace (vdists v) i (Some (Shared (length (vgens v)) (sampler_of vd))))) i (length (vgens v)) (sampler_of vd) (random_new E t)
      ltac:(cbn [vdists]; exact (rep_same _ _ _ _ Q)) ltac:(cbn [vgens]; apply app_at)) as X.
    assert (MR : map ev (repeat (Next i) n) = repeat (ENext i) n) by (clear; induction n as [|n IH]; cbn; [reflexivity|now rewrite IH]). rewrite MR.
    assert (SO : match vd with Own _ s => s | Shared _ s => s end = sampler_of vd) by reflexivity. rewrite SO, <- SD.
    destruct (srun _ (repeat (ENext i) n)) as [[? ?]| | |], (alone next n (sampler_of vd) (random_new E t)) as [[[? ?] ?]| | |]; cbn in X |- *; try discriminate X; try reflexivity. injection X as ->. reflexivity. }
  rewrite <- T. destruct (mrun w _) as [[? ?]| | |], (srun v _) as [[? ?]| | |]; try contradiction; try reflexivity. destruct S as [-> _]. reflexivity.
Qed.

Lemma sharing os1 os2 j p s u : make p = Ok s -> (forall g, next s g = ('(g, r) <- use u g ;; Ok (r, s, g))) ->
  let i := length (origins (map ev os1)) in
  Forall (keeps i) (map ev os2) ->
  omap snd (mrun empty (os1 ++ NewDistOn j p :: os2)) = omap snd (mrun empty (os1 ++ NewDistOn j p :: map (direct i j u) os2)).
Proof.
  intros M X i K.
  assert (T : srun v0 (map ev (os1 ++ NewDistOn j p :: os2)) = srun v0 (map ev (os1 ++ NewDistOn j p :: map (direct i j u) os2))).
  { rewrite !map_app. cbn [map ev]. rewrite !vrun_app. destruct (srun v0 (map ev os1)) as [[v r1]| | |] eqn:V; try reflexivity. cbn [bind vrun vstep].
    destruct (alive (vgens v) j); try reflexivity. cbn [bind]. rewrite M. cbn [bind].
    destruct (run_len (random_new E) use make next _ _ _ _ V) as [L _]. cbn [vdists length Nat.add] in L.
    assert (MD : map ev (map (direct i j u) os2) = map (instead i j u) (map ev os2)).
    { clear. induction os2 as [|o os IH]; [reflexivity|]. cbn [map]. rewrite IH. f_equal. destruct o; try reflexivity. cbn. now destruct (Nat.eqb i0 i). }
    rewrite MD, (instead_run (random_new E) use make next (map ev os2) _ i j u s); [reflexivity| |exact K|exact X].
    cbn [vdists]. unfold i. rewrite <- L. apply app_at. }
  pose proof (main_sim (os1 ++ NewDistOn j p :: os2)) as S1. pose proof (main_sim (os1 ++ NewDistOn j p :: map (direct i j u) os2)) as S2. rewrite <- T in S2.
  destruct (mrun empty (os1 ++ NewDistOn j p :: os2)) as [[? ?]| | |], (mrun empty (os1 ++ NewDistOn j p :: map (direct i j u) os2)) as [[? ?]| | |], (srun v0 _) as [[? ?]| | |]; try contradiction; try reflexivity.
  destruct S1 as [-> _], S2 as [-> _]. reflexivity.
Qed.

Lemma function_step st t c : function_call E st t c = ('(g, r) <- rand_step E (match st with Some g => g | None => random_new E t end) (method c) ;; Ok (Some g, r)).
Proof.
  destruct c; try reflexivity.
  - unfold function_call, method. cbn [rand_step]. unfold nextDouble_max. destruct (dltb max dzero) eqn:L; [reflexivity|]. reflexivity.
Qed.
Lemma functions_run cs : forall g, function_calls E (Some g) cs = ('(g, rs) <- rand_run E g (map (fun c => method (snd c)) cs) ;; Ok (Some g, rs)).
Proof.
  induction cs as [|[t c] cs IH]; intros g; [reflexivity|]. cbn [function_calls map rand_run snd]. rewrite function_step.
  destruct (rand_step E g (method c)) as [[g1 r]| | |]; try reflexivity. cbn [bind]. rewrite IH. destruct (rand_run E g1 _) as [[g2 rs]| | |]; reflexivity.
Qed.
End Main.
