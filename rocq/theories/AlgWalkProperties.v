(** C132: mapAll and filterContainer over a Set or MultiSet with a function that changes it. *)
From Coq Require Import Sorted.
From Verif Require Import Base ContModel ContSpec ContProofs WalkModel WalkSpec WalkProofs WalkProperties AlgWalkModel AlgWalkSpec AlgWalkProofs.
Local Open Scope Z_scope.

(** mapAll returns the results of its calls, in order; the function is called with the elements
    that a loop sees *)
Theorem C132_map {E K B} (key : E -> K) (lt : K -> K -> bool) (multi : bool) (f : list E -> list (tcall E K) * B) fuel st st' ret :
  weak_order lt -> made key lt multi st -> map_all key lt multi f fuel st = Ok (st', ret) ->
  exists vs, course key lt multi f (contents st) vs /\ ret = heard f [] vs /\
    changes key lt multi (contents st) (wished f vs) = Ok (contents st').
Proof.
  intros WO M H. pose proof (map_loop_ok key lt multi f fuel st (head (nodes st)) [] []) as L. unfold map_all in H. fold (for_each key lt multi (fun vs => (fst (f vs), true)) fuel st) in L.
  destruct (for_each key lt multi (fun vs => (fst (f vs), true)) fuel st) as [[st1 vs]| | |] eqn:F; try congruence. destruct L as (ws & -> & L). rewrite H in L. injection L as <- ->. cbn [app] in *. exists ws.
  split; [exact (course_ok key lt WO multi f fuel st st' ws M F)|]. split; [reflexivity|]. exact (for_each_changes key lt WO multi f fuel st st' ws M F).
Qed.
(** filterContainer returns the elements for which its function returned true *)
Theorem C132_filter {E K} (key : E -> K) (lt : K -> K -> bool) (multi : bool) (f : list E -> list (tcall E K) * bool) fuel st st' ret :
  weak_order lt -> made key lt multi st -> filter_container key lt multi f fuel st = Ok (st', ret) ->
  exists vs, course key lt multi f (contents st) vs /\ ret = passed f [] vs /\
    changes key lt multi (contents st) (wished f vs) = Ok (contents st').
Proof.
  intros WO M H. pose proof (filter_walk_ok key lt WO multi f fuel st [] (nodes st) [] [] (made_wf key lt WO multi st M) eq_refl) as L. unfold filter_container in H. fold (for_each key lt multi (fun vs => (fst (f vs), true)) fuel st) in L.
  destruct (for_each key lt multi (fun vs => (fst (f vs), true)) fuel st) as [[st1 vs]| | |] eqn:F; try congruence. destruct L as (ws & -> & L). rewrite H in L. injection L as <- ->. cbn [app] in *. exists ws.
  split; [exact (course_ok key lt WO multi f fuel st st' ws M F)|]. split; [reflexivity|]. exact (for_each_changes key lt WO multi f fuel st st' ws M F).
Qed.

(** both end as the loop does that makes the same calls *)
Theorem C132_ends {E K B} (key : E -> K) (lt : K -> K -> bool) (multi : bool) (f : list E -> list (tcall E K) * B) (p : B -> bool) st :
  weak_order lt -> made key lt multi st ->
  (forall vs x e, In (TIns e) (fst (f (vs ++ [x]))) -> backward key lt multi x e) ->
  (forall vs x, existsb (removes lt (key x)) (fst (f (vs ++ [x]))) = false) ->
  match map_all key lt multi f (length (contents st)) st with Ok _ | Err => True | _ => False end /\
  match filter_container key lt multi (fun vs => (fst (f vs), p (snd (f vs)))) (length (contents st)) st with Ok _ | Err => True | _ => False end.
Proof.
  intros WO M Bk N. pose proof (C131_ends key lt multi (fun vs => (fst (f vs), true)) st WO M Bk) as H1. pose proof (C131_safe key lt multi (fun vs => (fst (f vs), true)) (length (contents st)) st WO M (fun vs x _ => N vs x)) as H2.
  pose proof (map_loop_ok key lt multi f (length (contents st)) st (head (nodes st)) [] []) as L1.
  pose proof (filter_walk_ok key lt WO multi (fun vs => (fst (f vs), p (snd (f vs)))) (length (contents st)) st [] (nodes st) [] [] (made_wf key lt WO multi st M) eq_refl) as L2. cbn [fst] in L2.
  unfold map_all, filter_container. unfold for_each in H1, H2. destruct (loop key lt multi (fun vs => (fst (f vs), true)) (length (contents st)) st (head (nodes st)) []) as [[st1 vs]| | |]; try congruence.
  - destruct L1 as (? & _ & ->). destruct L2 as (? & _ & ->). auto.
  - rewrite L1, L2. auto.
Qed.

(** with a function that leaves the container alone they are map and filter *)
Theorem C132_plain {E K B} (key : E -> K) (lt : K -> K -> bool) (multi : bool) (g : E -> B) (p : E -> bool) (f : list E -> list (tcall E K) * B) (h : list E -> list (tcall E K) * bool) st :
  weak_order lt -> made key lt multi st -> (forall vs x, f (vs ++ [x]) = ([], g x)) -> (forall vs x, h (vs ++ [x]) = ([], p x)) ->
  map_all key lt multi f (length (contents st)) st = Ok (st, map g (contents st)) /\
  filter_container key lt multi h (length (contents st)) st = Ok (st, filter p (contents st)).
Proof.
  intros WO M Hf Hh. pose proof (made_wf key lt WO multi st M) as W. pose proof W as (_ & D & _).
  assert (L : (length (nodes st) <= length (contents st))%nat) by (unfold contents; rewrite map_length; lia). split.
  - pose proof (map_loop_ok key lt multi f (length (contents st)) st (head (nodes st)) [] []) as L1. rewrite (calm_loop key lt multi g (nodes st) [] _ st [] D eq_refl L f Hf) in L1. destruct L1 as (ws & Q & L1). cbn [app] in Q, L1. subst ws. unfold map_all. rewrite L1. now rewrite (calm_heard g f Hf).
  - pose proof (filter_walk_ok key lt WO multi h (length (contents st)) st [] (nodes st) [] [] W eq_refl) as L2. rewrite (calm_loop key lt multi p (nodes st) [] _ st [] D eq_refl L h Hh) in L2. destruct L2 as (ws & Q & L2). cbn [app] in Q, L2. subst ws. unfold filter_container. rewrite L2. now rewrite (calm_passed p h Hh).
Qed.

(** refuted: erasing from within the function the elements that do not pass.  This is undefined
    whenever there is one *)
Theorem C132_erase_refuted {E K} (key : E -> K) (lt : K -> K -> bool) (multi : bool) (p : E -> bool) st x :
  weak_order lt -> made key lt multi st -> In x (contents st) -> p x = false ->
  filter_container key lt multi (on_last ([], true) (fun x => if p x then ([], true) else ([TDel (key x)], false))) (length (contents st)) st = UB.
Proof.
  intros WO M X N. set (f := on_last ([], true) (fun x => if p x then ([], true) else ([TDel (key x)], false))).
  pose proof (filter_walk_ok key lt WO multi f (length (contents st)) st [] (nodes st) [] [] (made_wf key lt WO multi st M) eq_refl) as L.
  pose proof (for_each_sweep key lt WO multi (fun vs => (fst (f vs), true)) (length (contents st)) st M) as S.
  pose proof (drop_sweep key lt WO multi p (contents st) [] (length (contents st)) [] (made_inv key lt WO multi st M) (le_n _) (ex_intro _ x (conj X N))) as U. cbn [app length] in U. fold f in U. rewrite U in S. unfold for_each in S.
  unfold filter_container. destruct (loop key lt multi (fun vs => (fst (f vs), true)) (length (contents st)) st (head (nodes st)) []); try discriminate. exact L.
Qed.

(** refuted: one result for each element there was *)
Theorem C132_length_refuted :
  ~ (forall (f : list Z -> list (tcall Z Z) * Z) fuel st st' ret, made (fun x => x) Z.ltb false st ->
     map_all (fun x => x) Z.ltb false f fuel st = Ok (st', ret) -> length ret = length (contents st)).
Proof.
  intros H. specialize (H (fun vs => match vs with [1] => ([TIns 2], 0) | _ => ([], 0) end) 4%nat zset _ _ (proj1 (proj2 C131_example)) eq_refl). discriminate H.
Qed.

(** concrete calls over {1, 3, 5} *)
Example C132_example :
  weak_order Z.ltb /\ made (fun x => x) Z.ltb false zset /\
  (* the squares, while 3 is erased and 4 inserted when 1 is seen *)
  omap (fun r => (contents (fst r), snd r)) (map_all (fun x => x) Z.ltb false (fun vs => match vs with [1] => ([TDel 3; TIns 4], 1) | _ => ([], fold_right (fun x _ => x * x) 0 (rev vs)) end) 3 zset) = Ok ([1; 4; 5], [1; 16; 25]) /\
  (* the elements other than 4, while 4 is inserted when 3 is seen and 1 is erased when 5 is *)
  omap (fun r => (contents (fst r), snd r)) (filter_container (fun x => x) Z.ltb false (fun vs => match rev vs with 3 :: _ => ([TIns 4], true) | 5 :: _ => ([TDel 1], true) | x :: _ => ([], negb (x =? 4)) | [] => ([], true) end) 4 zset) = Ok ([3; 4; 5], [1; 3; 5]) /\
  filter_container (fun x => x) Z.ltb false (on_last ([], true) (fun x => if x =? 5 then ([TDel x], false) else ([], true))) 3 zset = UB /\
  map_all (fun x => x) Z.ltb true (fun vs => (map TIns (skipn (length vs - 1) vs), 0)) 30 zset = Fuel /\
  (forall vs x e, In (TIns e) (fst (down (vs ++ [x]))) -> backward (fun x => x) Z.ltb false x e) /\
  (forall vs x, existsb (removes Z.ltb x) (fst (down (vs ++ [x]))) = false).
Proof.
  split; [exact Zlt_weak|]. split; [exact (proj1 (proj2 C131_example))|]. repeat (split; [vm_compute; reflexivity|]). split; [apply C131_example|].
  intros vs x. unfold down. now rewrite last_of.
Qed.

Print Assumptions C132_map.
Print Assumptions C132_filter.
Print Assumptions C132_ends.
Print Assumptions C132_plain.
Print Assumptions C132_erase_refuted.
Print Assumptions C132_length_refuted.
