(** C131: loops over a Set, MultiSet or Map whose body inserts into and erases from it. *)
From Coq Require Import Sorted.
From Verif Require Import Base ContModel ContSpec ContProofs WalkModel WalkSpec WalkProofs.
Local Open Scope Z_scope.

Lemma issued_at {E K} (body : list E -> list (tcall E K) * bool) vs k o :
  (0 < k <= length vs)%nat -> In o (fst (body (firstn k vs))) -> In o (issued body vs).
Proof. intros L H. unfold issued. apply in_flat_map. exists k. split; [apply in_seq; lia|exact H]. Qed.
Lemma run_sweep {E K} (key : E -> K) lt (WO : weak_order lt) multi body f st st' vs :
  made key lt multi st -> for_each key lt multi body f st = Ok (st', vs) ->
  sweep key lt multi body f ([] ++ contents st) (length (@nil E)) [] = Ok (contents st', vs).
Proof. intros M H. cbn [app length]. rewrite <- (for_each_sweep key lt WO multi body f st M), H. reflexivity. Qed.

(** the loop stands at a position of the contents as they are *)
Theorem C131_follows {E K} (key : E -> K) (lt : K -> K -> bool) (multi : bool) body fuel st :
  weak_order lt -> made key lt multi st ->
  omap (fun r => (contents (fst r), snd r)) (for_each key lt multi body fuel st) = sweep key lt multi body fuel (contents st) 0 [].
Proof. intros WO M. exact (for_each_sweep key lt WO multi body fuel st M). Qed.

(** in a Set or a Map: the next element is the least one above the present one *)
Theorem C131_next {E K} (key : E -> K) (lt : K -> K -> bool) l e :
  weak_order lt -> StronglySorted (fun a b => lt (key a) (key b) = true) l -> In e l ->
  nth_error l (smaller key lt (key e) l + 1) = find (fun x => lt (key e) (key x)) l.
Proof.
  intros WO S I. apply in_split in I as (A & B & ->). exact (next_least key lt WO false (fun _ => ([], true)) A e B eq_refl S).
Qed.

(** the elements come in order, in a Set or Map strictly *)
Theorem C131_order {E K} (key : E -> K) (lt : K -> K -> bool) (multi : bool) body fuel st st' vs :
  weak_order lt -> made key lt multi st -> for_each key lt multi body fuel st = Ok (st', vs) ->
  StronglySorted (fun a b => if multi then lt (key b) (key a) = false else lt (key a) (key b) = true) vs.
Proof.
  intros WO M H. apply (run_sweep key lt WO) in H; [|exact M].
  destruct (sweep_order key lt WO multi body fuel [] (contents st) [] _ _ (made_inv key lt WO multi st M) H) as (ws & -> & S & _). exact S.
Qed.

(** every element that is there from the start and is not removed is seen, unless the body leaves *)
Theorem C131_sees {E K} (key : E -> K) (lt : K -> K -> bool) (multi : bool) body fuel st st' vs x :
  weak_order lt -> made key lt multi st -> for_each key lt multi body fuel st = Ok (st', vs) ->
  snd (body vs) = true -> In x (contents st) ->
  (forall o, In o (issued body vs) -> removes lt (key x) o = false) -> In x vs.
Proof.
  intros WO M H G X N. apply (run_sweep key lt WO) in H; [|exact M].
  apply (sweep_sees key lt WO multi body fuel [] (contents st) [] _ _ x (made_inv key lt WO multi st M) H X); [|exact G].
  intros k Lk. destruct (existsb (removes lt (key x)) (fst (body (firstn k vs)))) eqn:Q; [|reflexivity]. apply existsb_exists in Q as (o & O & R). rewrite (N o) in R; [discriminate|]. exact (issued_at body vs k o Lk O).
Qed.

(** nothing else is seen than these and what the body has inserted *)
Theorem C131_only {E K} (key : E -> K) (lt : K -> K -> bool) (multi : bool) body fuel st st' vs x :
  weak_order lt -> made key lt multi st -> for_each key lt multi body fuel st = Ok (st', vs) ->
  In x vs -> In x (contents st) \/ In (TIns x) (issued body vs).
Proof.
  intros WO M H X. apply (run_sweep key lt WO) in H; [|exact M].
  destruct (sweep_only key lt WO multi body fuel [] (contents st) [] _ _ x (made_inv key lt WO multi st M) H X) as [[]|[Y|(k & Lk & Y)]]; [now left|]. right. exact (issued_at body vs k _ Lk Y).
Qed.

(** a body that inserts nothing ahead of the loop: the loop ends, within as many rounds as there
    were elements *)
Theorem C131_ends {E K} (key : E -> K) (lt : K -> K -> bool) (multi : bool) body st :
  weak_order lt -> made key lt multi st ->
  (forall vs x e, In (TIns e) (fst (body (vs ++ [x]))) -> backward key lt multi x e) ->
  for_each key lt multi body (length (contents st)) st <> Fuel.
Proof.
  intros WO M B H. pose proof (for_each_sweep key lt WO multi body (length (contents st)) st M) as S. rewrite H in S. symmetry in S.
  exact (sweep_ends key lt WO multi body B (length (contents st)) [] (contents st) [] (made_inv key lt WO multi st M) (le_n _) S).
Qed.

(** a body that does not go on after it has removed the present element: no undefined behaviour *)
Theorem C131_safe {E K} (key : E -> K) (lt : K -> K -> bool) (multi : bool) body fuel st :
  weak_order lt -> made key lt multi st ->
  (forall vs x, snd (body (vs ++ [x])) = true -> existsb (removes lt (key x)) (fst (body (vs ++ [x]))) = false) ->
  for_each key lt multi body fuel st <> UB.
Proof.
  intros WO M N H. pose proof (for_each_sweep key lt WO multi body fuel st M) as S. rewrite H in S. symmetry in S.
  exact (sweep_safe key lt WO multi body N fuel [] (contents st) [] (made_inv key lt WO multi st M) S).
Qed.

(** removing the present element and going on is undefined, on any container that is not empty *)
Theorem C131_current_refuted {E K} (key : E -> K) (lt : K -> K -> bool) (multi : bool) fuel st :
  weak_order lt -> made key lt multi st -> contents st <> [] ->
  for_each key lt multi (fun vs => (map (fun x => TDel (key x)) (skipn (length vs - 1) vs), true)) (S fuel) st = UB.
Proof.
  intros WO M N. pose proof (for_each_sweep key lt WO multi (fun vs => (map (fun x => TDel (key x)) (skipn (length vs - 1) vs), true)) (S fuel) st M) as S.
  destruct (contents st) as [|e l]; [congruence|]. cbn [sweep nth_error app length Nat.sub skipn map fst snd changes] in S.
  assert (Q : same lt (key e) (key e) = true) by (unfold same; now rewrite (key_irr lt WO)). cbn [change] in S.
  assert (HK : has_key key lt (key e) (e :: l) = true) by (unfold has_key; cbn [existsb]; now rewrite Q). rewrite HK in S.
  assert (Z : multi && negb true = false) by (destruct multi; reflexivity). rewrite Z in S. cbn [bind negb existsb removes] in S. rewrite Q in S. cbn [orb] in S.
  revert S. generalize (for_each key lt multi (fun vs => (map (fun x => TDel (key x)) (skipn (length vs - 1) vs), true)) (Datatypes.S fuel) st). intros [?| | |] S; cbn in S; try discriminate. reflexivity.
Qed.

(** inserting the present element again: a Set or Map is left as it is, each element is seen once *)
Lemma last_of {E} (vs : list E) n : skipn (length (vs ++ [n]) - 1) (vs ++ [n]) = [n].
Proof. rewrite app_length. cbn [length]. replace (length vs + 1 - 1)%nat with (length vs) by lia. rewrite skipn_app, skipn_all, Nat.sub_diag. reflexivity. Qed.
Lemma again_sweep {E K} (key : E -> K) (lt : K -> K -> bool) (WO : weak_order lt) : forall B A f, inv key lt false (A ++ B) -> (length B <= f)%nat ->
  sweep key lt false (fun vs => (map TIns (skipn (length vs - 1) vs), true)) f (A ++ B) (length A) A = Ok (A ++ B, A ++ B).
Proof.
  induction B as [|n B IH]; intros A f I L; [rewrite app_nil_r; destruct f; cbn [sweep]; now replace (nth_error A (length A)) with (@None E) by (symmetry; apply nth_error_None; lia)|].
  destruct f as [|f]; [cbn in L; lia|]. cbn [sweep]. rewrite nth_error_app2, Nat.sub_diag by lia. cbn [nth_error fst snd negb]. rewrite last_of. cbn [map changes change negb andb].
  assert (Q : same lt (key n) (key n) = true) by (unfold same; now rewrite (key_irr lt WO)).
  assert (HK : has_key key lt (key n) (A ++ n :: B) = true) by (unfold has_key; apply existsb_exists; exists n; split; [apply in_or_app; right; now left|exact Q]). rewrite HK. cbn [bind existsb removes orb].
  rewrite (smaller_split key lt WO false A n B I). pose proof (smaller_le key lt (key n) A). replace (smaller key lt (key n) A + (length A - smaller key lt (key n) A) + 1)%nat with (length (A ++ [n])) by (rewrite app_length; cbn [length]; lia).
  replace (A ++ n :: B) with ((A ++ [n]) ++ B) in * by now rewrite <- app_assoc. apply IH; [exact I|cbn in L; lia].
Qed.
Theorem C131_again {E K} (key : E -> K) (lt : K -> K -> bool) st :
  weak_order lt -> made key lt false st ->
  omap (fun r => (contents (fst r), snd r)) (for_each key lt false (fun vs => (map TIns (skipn (length vs - 1) vs), true)) (length (contents st)) st) = Ok (contents st, contents st).
Proof.
  intros WO M. rewrite C131_follows by assumption. exact (again_sweep key lt WO (contents st) [] (length (contents st)) (made_inv key lt WO false st M) (le_n _)).
Qed.

(** but the same loop over a MultiSet that is not empty never ends *)
Lemma again_for_ever {E K} (key : E -> K) (lt : K -> K -> bool) (WO : weak_order lt) : forall f l i vs, (i < length l)%nat ->
  sweep key lt true (fun vs => (map TIns (skipn (length vs - 1) vs), true)) f l i vs = Fuel.
Proof.
  induction f as [|f IH]; intros l i vs L; cbn [sweep]; (destruct (nth_error l i) as [n|] eqn:N; [|apply nth_error_None in N; lia]); [reflexivity|].
  cbn [fst snd negb]. rewrite last_of. cbn [map changes change negb andb bind existsb removes orb]. apply IH. apply nth_error_In in N. apply in_split in N as (A & B & ->).
  set (l := A ++ n :: B) in *. set (F1 := filter (fun x => negb (lt (key n) (key x))) l). set (F2 := filter (fun x => lt (key n) (key x)) l).
  assert (LL : (length (F1 ++ n :: F2) = length l + 1)%nat).
  { rewrite app_length. cbn [length]. subst F1 F2. clear. induction l as [|x l IHl]; [reflexivity|]. cbn [filter]. destruct (lt (key n) (key x)); cbn [negb length]; lia. }
  assert (SS : smaller key lt (key n) (F1 ++ n :: F2) = smaller key lt (key n) l).
  { unfold smaller. rewrite filter_app, app_length. cbn [filter]. rewrite (key_irr lt WO). subst F1 F2. clear - WO. induction l as [|x l IHl]; [reflexivity|]. cbn [filter]. destruct (lt (key n) (key x)) eqn:Q; cbn [negb filter]; destruct (lt (key x) (key n)) eqn:R; cbn [length]; lia. }
  assert (SL : (smaller key lt (key n) l < length l)%nat).
  { unfold smaller. subst l. rewrite filter_app, !app_length. cbn [filter length]. rewrite (key_irr lt WO). pose proof (smaller_le key lt (key n) A) as H1. pose proof (smaller_le key lt (key n) B) as H2. unfold smaller in H1, H2. lia. }
  rewrite LL, SS. clear - L SL. lia.
Qed.
Theorem C131_ends_refuted {E K} (key : E -> K) (lt : K -> K -> bool) fuel st :
  weak_order lt -> made key lt true st -> contents st <> [] ->
  for_each key lt true (fun vs => (map TIns (skipn (length vs - 1) vs), true)) fuel st = Fuel.
Proof.
  intros WO M N. pose proof (for_each_sweep key lt WO true (fun vs => (map TIns (skipn (length vs - 1) vs), true)) fuel st M) as S.
  rewrite again_for_ever in S; [|exact WO|destruct (contents st); [congruence|cbn; lia]]. revert S. generalize (for_each key lt true (fun vs => (map TIns (skipn (length vs - 1) vs), true)) fuel st). intros [?| | |] S; cbn in S; try discriminate. reflexivity.
Qed.

(** concrete loops over {1, 3, 5}: erasing 3 and inserting 4 and 0 while standing at 1; erasing the
    present element and leaving, or going on; inserting behind the loop, [down] *)
Definition zset : tree Z := Tree [(0%nat, 1); (1%nat, 3); (2%nat, 5)] 3.
Lemma Zlt_weak : weak_order Z.ltb.
Proof. split; [apply Z.ltb_irrefl|]. split; intros a b c; rewrite !Z.ltb_lt; lia. Qed.
Definition demo (vs : list Z) : list (tcall Z Z) * bool := match vs with [1] => ([TDel 3; TIns 4; TIns 0], true) | _ => ([], true) end.
Definition down (vs : list Z) : list (tcall Z Z) * bool := (map (fun x => TIns (x - 1)) (skipn (length vs - 1) vs), true).
Example C131_example :
  weak_order Z.ltb /\ made (fun x => x) Z.ltb false zset /\ made (fun x => x) Z.ltb true zset /\
  for_each (fun x => x) Z.ltb false demo 3 zset = Ok (Tree [(4%nat, 0); (0%nat, 1); (3%nat, 4); (2%nat, 5)] 5, [1; 4; 5]) /\
  for_each (fun x => x) Z.ltb false (fun vs => match vs with [1; 3] => ([TDel 3], false) | _ => ([], true) end) 3 zset = Ok (Tree [(0%nat, 1); (2%nat, 5)] 3, [1; 3]) /\
  for_each (fun x => x) Z.ltb false (fun vs => match vs with [1; 3] => ([TDel 3], true) | _ => ([], true) end) 3 zset = UB /\
  for_each (fun x => x) Z.ltb false (fun vs => match vs with [1; 3] => ([TDel 3; TIns 3], true) | _ => ([], true) end) 3 zset = UB /\
  for_each (fun x => x) Z.ltb true (fun vs => match vs with [1; 3] => ([TDel 4], true) | _ => ([], true) end) 3 zset = Err /\
  for_each (fun x => x) Z.ltb true (fun vs => match vs with [1; 3] => ([TIns 3; TIns 3], true) | _ => ([], true) end) 5 zset = Ok (Tree [(0%nat, 1); (1%nat, 3); (3%nat, 3); (4%nat, 3); (2%nat, 5)] 5, [1; 3; 3; 3; 5]) /\
  for_each (fun x => x) Z.ltb false down 3 zset = Ok (Tree [(3%nat, 0); (0%nat, 1); (4%nat, 2); (1%nat, 3); (5%nat, 4); (2%nat, 5)] 6, [1; 3; 5]) /\
  (forall vs x e, In (TIns e) (fst (down (vs ++ [x]))) -> backward (fun x => x) Z.ltb false x e).
Proof.
  split; [exact Zlt_weak|]. split; [exists [TIns 1; TIns 3; TIns 5]; reflexivity|]. split; [exists [TIns 1; TIns 3; TIns 5]; reflexivity|]. repeat (split; [reflexivity|]).
  intros vs x e H. unfold down in H. rewrite last_of in H. destruct H as [H|[]]. injection H as <-. unfold backward. apply Z.ltb_ge. lia.
Qed.

Print Assumptions C131_follows.
Print Assumptions C131_next.
Print Assumptions C131_order.
Print Assumptions C131_sees.
Print Assumptions C131_only.
Print Assumptions C131_ends.
Print Assumptions C131_safe.
Print Assumptions C131_current_refuted.
Print Assumptions C131_again.
Print Assumptions C131_ends_refuted.
