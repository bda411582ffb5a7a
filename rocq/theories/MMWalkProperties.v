(** Theorems about loops over a MultiMap whose body changes it (C135). *)
From Coq Require Import Sorted.
From Verif Require Import Base ContModel ContSpec ContProofs ListRefModel WalkModel MMWalkModel MMWalkSpec MMWalkProofs.
Local Open Scope Z_scope.

(** ** for every body: the loop goes through the contents in order, each time to the next element
    that is still there; it is undefined exactly if the present element is used after its removal *)
Theorem C135_follows : forall {K V} (lt : K -> K -> bool) body f (m : list (K * V)), weak_order lt -> ordered lt m ->
  omap shown (mm_each lt body f m) = tour lt body f [] m [].
Proof. intros K V lt body f m WO S. now apply each_tour. Qed.
Print Assumptions C135_follows.

(** ** it ends after as many rounds as there are elements at most, and no call is an error *)
Theorem C135_ends : forall {K V} (lt : K -> K -> bool) body (m : list (K * V)), weak_order lt -> ordered lt m ->
  match mm_each lt body (length m) m with Ok _ | UB => True | _ => False end.
Proof.
  intros K V lt body m WO S. pose proof (each_tour lt WO body (length m) m S) as T. destruct (tour_ends lt body (length m) [] m [] (Nat.le_refl _)) as [N1 N2].
  destruct (mm_each lt body (length m) m) as [x| | |]; try exact I; cbn [omap bind] in T; congruence.
Qed.
Print Assumptions C135_ends.

(** ** a body that never removes the key of the element it stands at is safe, whatever else it erases *)
Theorem C135_safe : forall {K V} (lt : K -> K -> bool) body (m : list (K * V)), weak_order lt -> ordered lt m ->
  (forall vs e, existsb (kills lt (fst e)) (fst (body (vs ++ [e]))) = false) ->
  exists l vs, mm_each lt body (length m) m = Ok (l, vs).
Proof.
  intros K V lt body m WO S H. pose proof (each_tour lt WO body (length m) m S) as T. pose proof (tour_safe lt body H (length m) [] m []) as N. pose proof (C135_ends lt body m WO S) as E.
  destruct (mm_each lt body (length m) m) as [[l vs]| | |]; try contradiction; [eauto|]. cbn [omap bind] in T. congruence.
Qed.
Print Assumptions C135_safe.

(** ** every element is seen at most once, in order and with its original value *)
Theorem C135_order : forall {K V} (lt : K -> K -> bool) body f (m : list (K * V)) l vs, weak_order lt -> ordered lt m ->
  mm_each lt body f m = Ok (l, vs) -> some_of vs m.
Proof.
  intros K V lt body f m l vs WO S E. apply (each_ok lt WO body f m l vs S) in E. apply tour_order in E as (new & -> & O). exact O.
Qed.
Print Assumptions C135_order.

(** ** if the body does not leave the loop, every element whose key is never erased is seen, exactly
    as often as it is there *)
Theorem C135_sees : forall {K V} (lt : K -> K -> bool) body f (m : list (K * V)) l vs, weak_order lt -> ordered lt m ->
  (forall vs, snd (body vs) = true) -> mm_each lt body f m = Ok (l, vs) ->
  filter (spared lt (made_from body 0 vs)) vs = filter (spared lt (made_from body 0 vs)) m.
Proof.
  intros K V lt body f m l vs WO S G E. apply (each_ok lt WO body f m l vs S) in E. destruct (tour_sees lt body G _ _ _ _ _ _ E (made_from body 0 vs) (fun x i => i)) as (new & X & F). cbn [app] in X. now subst new.
Qed.
Print Assumptions C135_sees.

(** ** afterwards the keys are those that no call has erased, each as often as before *)
Theorem C135_left : forall {K V} (lt : K -> K -> bool) body f (m : list (K * V)) l vs, weak_order lt -> ordered lt m ->
  mm_each lt body f m = Ok (l, vs) ->
  map fst (map snd l) = map fst (filter (spared lt (made_from body 0 vs)) m).
Proof. intros K V lt body f m l vs WO S E. apply (each_ok lt WO body f m l vs S) in E. now apply tour_left in E. Qed.
Print Assumptions C135_left.

(** ** erasing the key of the present element and going on is undefined for every MultiMap with an element *)
Theorem C135_current_refuted : forall {K V} (lt : K -> K -> bool) (e : K * V) m f, weak_order lt -> ordered lt (e :: m) ->
  mm_each lt (fun vs => (map (fun x => MDel (fst x)) (rev vs), true)) (S f) (e :: m) = UB.
Proof.
  intros K V lt e m f WO S. pose proof (each_tour lt WO (fun vs => (map (fun x => MDel (fst x)) (rev vs), true)) (Datatypes.S f) (e :: m) S) as T.
  cbn [tour app rev map fst snd acts act bind] in T. assert (N : spared lt [MDel (fst e)] e = false).
  { unfold spared. cbn [existsb kills]. unfold same. now rewrite (lt_irr lt WO). }
  rewrite N in T. destruct (mm_each lt _ (Datatypes.S f) (e :: m)); cbn [omap bind] in T; congruence.
Qed.
Print Assumptions C135_current_refuted.

(** at the first element the body erases another key and writes its own value, at the third it leaves *)
Example C135_example :
  let m := mm_build Z.ltb [(3, 30); (1, 10); (2, 20); (1, 11); (3, 31)] in
  ordered Z.ltb m /\ m = [(1, 10); (1, 11); (2, 20); (3, 30); (3, 31)] /\
  omap shown (mm_each Z.ltb (fun vs => (match vs with [(k, v)] => [MDel 2; MDel 9; MWrite (v + 1)] | _ => [] end, Nat.ltb (length vs) 3)) 5 m)
    = Ok ([(1, 11); (1, 11); (3, 30); (3, 31)], [(1, 10); (1, 11); (3, 30)]) /\
  (* erasing the present key, then leaving, is fine *)
  omap shown (mm_each Z.ltb (fun vs => (match vs with [_; _] => [MDel 1] | _ => [] end, Nat.ltb (length vs) 2)) 5 m)
    = Ok ([(2, 20); (3, 30); (3, 31)], [(1, 10); (1, 11)]) /\
  mm_each Z.ltb (fun vs => ([MDel 1], true)) 5 m = UB /\ mm_each Z.ltb (fun vs => ([MWipe; MWrite 0], false)) 5 m = UB.
Proof.
  cbv zeta. split; [|split; [reflexivity|split; [reflexivity|split; [reflexivity|split; reflexivity]]]].
  unfold ordered. repeat constructor.
Qed.
