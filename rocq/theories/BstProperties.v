(** C38-C41: the splay-tree BST. *)
From Verif Require Import Base BstModel BstSpec BstProofs BstMainProofs.
Local Open Scope nat_scope.

(** C38.  After every history of inserts and erasures of the smallest node,
    find(k) returns a present node with key k iff there is one, and null otherwise. *)
Theorem C38_find os n l k :
  history (keys (created os)) 0 [] os = Some (n, l) ->
  exists s p, run empty os = Ok s /\ find s k = Ok p /\
    match p with
    | Some x => In x l /\ keys (created os) x = k
    | None => forall x, In x l -> keys (created os) x <> k
    end.
Proof.
  intros H. destruct (run_inv os n l H) as (s & E & t & S & I & SO & L).
  destruct (st_nil _ _ _ _ _ S) as (R & N & RT). pose proof (rp_down _ _ _ _ _ R) as D.
  rewrite <- I in SO.
  destruct (find_ok _ (vals (created os)) (fst s) k t (Datatypes.S (length (fst s))) D SO) as (p & F & P).
  { pose proof (down_size _ (vals (created os)) _ _ D N). lia. }
  exists s, p. split; [assumption|]. unfold find. rewrite RT. split; [assumption|]. now rewrite <- I.
Qed.
(** which nodes are present *)
Theorem C38_present os n l :
  history (keys (created os)) 0 [] os = Some (n, l) ->
  n = length (created os) /\ forall x, In x l <-> x < n /\ ~ In (Del x) os.
Proof.
  intros H. pose proof (history_count _ _ _ _ _ _ H) as C.
  destruct (history_members (keys (created os)) (vals (created os)) os 0 [] n l) as (_ & _ & M);
    [constructor|intros x []|assumption|].
  split; [assumption|]. intros x. rewrite M. simpl. intuition lia.
Qed.
Example C38_example :
  let os := [Ins 5 50; Ins 3 30; Ins 8 80; Ins 3 31; Del 1; Ins 4 40]%Z in
  history (keys (created os)) 0 [] os = Some (5, [3; 4; 0; 2]) /\
  (s <- run empty os ;; find s 3) = Ok (Some 3) /\ (s <- run empty os ;; find s 7) = Ok None.
Proof. vm_compute. auto. Qed.

(** C39.  The pointers form a binary tree with consistent parent pointers whose
    in-order sequence is the list of present nodes, stably ordered by key. *)
Theorem C39_structure os n l :
  history (keys (created os)) 0 [] os = Some (n, l) ->
  exists h t, run empty os = Ok (h, troot t) /\ length h = n /\
    inorder t = l /\ NoDup l /\ sorted (keys (created os)) l /\
    linked_down (keys (created os)) h t /\ linked_up h None t.
Proof.
  intros H. destruct (run_inv os n l H) as ([h rt] & E & t & S & I & SO & L).
  destruct (st_nil _ _ _ _ _ S) as (R & N & RT). cbn [fst snd] in *. subst rt.
  exists h, t. split; [assumption|]. split; [assumption|]. split; [assumption|].
  split; [now rewrite <- I|]. split; [assumption|].
  split; [exact (rp_down _ _ _ _ _ R)|exact (rp_up _ _ _ _ _ R)].
Qed.
(** the node inserted last is at the root *)
Theorem C39_last_at_root os k v n l :
  history (keys (created (os ++ [Ins k v]))) 0 [] os = Some (n, l) ->
  exists h, run empty (os ++ [Ins k v]) = Ok (h, Some n).
Proof.
  intros H. set (key := keys (created (os ++ [Ins k v]))) in *. set (val := vals (created (os ++ [Ins k v]))).
  assert (C : created (os ++ [Ins k v]) = created os ++ [(k, v)]) by apply created_app.
  destruct (run_ok key val os 0 [] empty n l) as (s & E & IV); [apply empty_inv| |assumption|].
  { intros i kv G. unfold key, val. rewrite C. now apply keys_created. }
  pose proof (history_count _ _ _ _ _ _ H) as CN. simpl in CN.
  destruct (insert_new_ok key val n l s k v IV) as ([h rt] & E2 & _ & R).
  - unfold key, keys. rewrite C, CN, app_nth2, Nat.sub_diag by lia. reflexivity.
  - unfold val, vals. rewrite C, CN, app_nth2, Nat.sub_diag by lia. reflexivity.
  - exists h. rewrite run_app, E. cbn [bind run step]. rewrite E2. cbn [bind].
    simpl in R. now subst rt.
Qed.
Example C39_example :
  let os := [Ins 5 50; Ins 3 30; Ins 8 80; Ins 3 31]%Z in
  history (keys (created (os ++ [Ins 4 40]%Z))) 0 [] os = Some (4, [1; 3; 0; 2]) /\
  omap snd (run empty (os ++ [Ins 4 40]%Z)) = Ok (Some 4).
Proof. vm_compute. auto. Qed.

(** C40.  Erasing by position of the node in the ordered sequence. *)
Theorem C40_erase_first os n x l :
  history (keys (created os)) 0 [] os = Some (n, x :: l) ->
  exists s h t, run empty os = Ok s /\ erase s (Some x) = Ok (h, troot t) /\ inorder t = l /\
    linked_down (keys (created os)) h t /\ linked_up h None t.
Proof.
  intros H. destruct (run_inv os n _ H) as ([h rt] & E & t & S & I & SO & L). cbn [fst snd] in *.
  destruct (erase_ok _ _ h rt t [] x l S I) as (h' & t' & E' & S' & I' & O).
  destruct (st_nil _ _ _ _ _ S') as (R & N & RT).
  exists (h, rt), h', t'. split; [assumption|]. split; [assumption|]. split; [assumption|].
  split; [exact (rp_down _ _ _ _ _ R)|exact (rp_up _ _ _ _ _ R)].
Qed.
(** the last node of a tree with at least two nodes: null is dereferenced *)
Theorem C40_erase_last os n a A x :
  history (keys (created os)) 0 [] os = Some (n, (a :: A) ++ [x]) ->
  exists s, run empty os = Ok s /\ erase s (Some x) = UB.
Proof.
  intros H. destruct (run_inv os n _ H) as ([h rt] & E & t & S & I & SO & L). cbn [fst snd] in *.
  exists (h, rt). split; [assumption|]. exact (erase_ok _ _ h rt t (a :: A) x [] S I).
Qed.
(** a node in the middle: children and in-order sequence are right, find is
    right, but both subtrees of the new root keep the erased node as parent *)
Theorem C40_erase_middle os n a A x b Bq :
  history (keys (created os)) 0 [] os = Some (n, (a :: A) ++ x :: b :: Bq) ->
  exists s h l p r, run empty os = Ok s /\ erase s (Some x) = Ok (h, Some p) /\
    inorder (Nd l p r) = (a :: A) ++ b :: Bq /\ linked_down (keys (created os)) h (Nd l p r) /\
    linked_up h (Some x) l /\ linked_up h (Some x) r /\ r <> Lf /\
    forall k, exists q, find (h, Some p) k = Ok q /\
      match q with
      | Some y => In y ((a :: A) ++ b :: Bq) /\ keys (created os) y = k
      | None => forall y, In y ((a :: A) ++ b :: Bq) -> keys (created os) y <> k
      end.
Proof.
  intros H. destruct (run_inv os n _ H) as ([h rt] & E & t & S & I & SO & L). cbn [fst snd] in *.
  destruct (erase_ok _ _ h rt t (a :: A) x (b :: Bq) S I) as (h' & l & p & r & E' & I' & D & O & U1 & U2 & NL).
  destruct (st_nil _ _ _ _ _ S) as (R & N & RT).
  exists (h, rt), h', l, p, r. split; [assumption|]. split; [assumption|]. split; [assumption|].
  split; [assumption|]. split; [assumption|]. split; [assumption|]. split; [assumption|].
  intros k.
  assert (ND : NoDup (inorder (Nd l p r))) by (rewrite I'; rewrite I in N; eapply NoDup_remove_1; exact N).
  assert (SO' : sorted (keys (created os)) (inorder (Nd l p r))).
  { rewrite I'. clear - SO. set (key := keys (created os)) in *. generalize dependent (a :: A).
    induction l as [|c l IH]; intros SO; [apply SO|]. simpl in *. destruct SO as [S1 S2].
    split; [|apply IH; assumption]. intros y Y. apply S1. apply in_app_or in Y. apply in_or_app. simpl in *. tauto. }
  destruct (find_ok _ (vals (created os)) h' k (Nd l p r) (Datatypes.S (length h')) D SO') as (q & F & P).
  { pose proof (down_size _ (vals (created os)) _ _ D ND). lia. }
  exists q. split; [exact F|]. now rewrite <- I'.
Qed.
(** "a tree stays usable after erase" is false: after erasing a middle node and
    inserting key 4, find(4) is null and find(2) returns the erased node *)
Theorem C40_erase_then_insert_refuted :
  exists os k, history (keys (created os)) 0 [] os = Some (3, [0; 1; 2]) /\
    exists s, run empty (os ++ [Del 1; Ins k 0%Z]) = Ok s /\ find s k = Ok None /\
      keys (created os) 1 = 2%Z /\ find s 2 = Ok (Some 1).
Proof.
  exists [Ins 1 0; Ins 2 0; Ins 3 0]%Z, 4%Z. split; [reflexivity|].
  eexists. split; [vm_compute; reflexivity|]. vm_compute. auto.
Qed.
Example C40_example :
  let os := [Ins 1 0; Ins 2 0; Ins 3 0; Ins 5 0; Ins 4 0]%Z in
  history (keys (created os)) 0 [] os = Some (5, [0; 1; 2; 4; 3]) /\
  (s <- run empty os ;; erase s (Some 3)) = UB /\
  (s <- run empty os ;; s <- erase s (Some 2) ;; find s 4) = Ok (Some 4) /\
  (s <- run empty os ;; s <- erase s (Some 2) ;; find s 3) = Ok None.
Proof. vm_compute. auto. Qed.

(** C41.  pre/suf give the neighbour in the ordered sequence when the node has
    the corresponding child, and null when it has not. *)
Theorem C41_pre_suf os n A x Bq :
  history (keys (created os)) 0 [] os = Some (n, A ++ x :: Bq) ->
  exists h rt nd, run empty os = Ok (h, rt) /\ nth_error h x = Some nd /\
    pre h (Some x) = Ok (match ch0 nd with None => None | Some _ => last_of A end) /\
    suf h (Some x) = Ok (match ch1 nd with None => None | Some _ => first_of Bq end) /\
    (ch0 nd <> None -> A <> []) /\ (ch1 nd <> None -> Bq <> []).
Proof.
  intros H. destruct (run_inv os n _ H) as ([h rt] & E & t & S & I & SO & L). cbn [fst snd] in *.
  destruct (st_nil _ _ _ _ _ S) as (R & N & RT). pose proof (rp_down _ _ _ _ _ R) as D.
  assert (IX : In x (inorder t)) by (rewrite I; apply in_or_app; simpl; auto).
  destruct (focus (keys (created os)) (vals (created os)) t x IX) as (c & l & r & ET). subst t.
  pose proof (down_size _ (vals (created os)) _ _ D N) as SZ. apply (down_plug _ (vals (created os))) in D.
  destruct (inorder_form c) as (P & Q & F). rewrite F in I, N, SZ. cbn [inorder] in I, N, SZ.
  assert (EQ : P ++ (inorder l ++ x :: inorder r) ++ Q = (P ++ inorder l) ++ x :: (inorder r ++ Q))
    by (rewrite <- !app_assoc; reflexivity).
  rewrite EQ in I, N. destruct (split_at _ _ _ _ _ N I) as [EA EB].
  rewrite !app_length in SZ. simpl in SZ.
  pose proof D as ((nd & ND & C0 & C1 & _) & _ & _).
  exists h, rt, nd. split; [assumption|]. split; [assumption|].
  rewrite (pre_ok _ (vals (created os)) h l x r D), (suf_ok _ (vals (created os)) h l x r D) by lia.
  rewrite C0, C1. destruct l as [|ll ly lr], r as [|rl ry rr]; cbn [troot].
  - repeat split; congruence.
  - repeat split; try congruence.
    + rewrite <- EB. destruct (inorder (Nd rl ry rr)) eqn:EE; [|reflexivity]. simpl in EE. destruct (inorder rl); discriminate.
    + intros _ HB. rewrite <- EB in HB. simpl in HB. destruct (inorder rl); discriminate.
  - repeat split; try congruence.
    + rewrite <- EA. cbn [inorder]. rewrite app_assoc. now rewrite !last_of_app2.
    + intros _ HA. rewrite <- EA in HA. destruct P; [simpl in HA; destruct (inorder ll)|]; discriminate.
  - repeat split.
    + rewrite <- EA. cbn [inorder]. rewrite app_assoc. now rewrite !last_of_app2.
    + rewrite <- EB. destruct (inorder (Nd rl ry rr)) eqn:EE; [|reflexivity]. simpl in EE. destruct (inorder rl); discriminate.
    + intros _ HA. rewrite <- EA in HA. destruct P; [simpl in HA; destruct (inorder ll)|]; discriminate.
    + intros _ HB. rewrite <- EB in HB. simpl in HB. destruct (inorder rl); discriminate.
Qed.
(** at the root, in particular for the node just inserted, they are exact *)
Theorem C41_pre_suf_root os n A x Bq h :
  history (keys (created os)) 0 [] os = Some (n, A ++ x :: Bq) -> run empty os = Ok (h, Some x) ->
  pre h (Some x) = Ok (last_of A) /\ suf h (Some x) = Ok (first_of Bq).
Proof.
  intros H E0. destruct (run_inv os n _ H) as ([h' rt] & E & t & S & I & SO & L). cbn [fst snd] in *.
  assert (h' = h) by congruence. assert (rt = Some x) by congruence. subst h' rt.
  destruct (st_nil _ _ _ _ _ S) as (R & N & RT). pose proof (rp_down _ _ _ _ _ R) as D.
  pose proof (down_size _ (vals (created os)) _ _ D N) as SZ.
  destruct t as [|l y r]; [discriminate|]. injection RT as <-. cbn [inorder] in I, N, SZ.
  destruct (split_at _ _ _ _ _ N I) as [<- <-]. rewrite app_length in SZ. simpl in SZ.
  rewrite (pre_ok _ (vals (created os)) h l x r D), (suf_ok _ (vals (created os)) h l x r D) by lia. auto.
Qed.
(** "pre(x) is the predecessor whenever there is one" is false *)
Theorem C41_pre_refuted : exists os n A x, history (keys (created os)) 0 [] os = Some (n, A ++ [x]) /\ A <> [] /\
  exists h rt, run empty os = Ok (h, rt) /\ pre h (Some x) = Ok None.
Proof.
  exists [Ins 2 0; Ins 1 0]%Z, 2, [1], 0. split; [reflexivity|]. split; [discriminate|].
  do 2 eexists. split; vm_compute; reflexivity.
Qed.
Example C41_example :
  let os := [Ins 1 0; Ins 2 0; Ins 5 0; Ins 4 0]%Z in
  history (keys (created os)) 0 [] os = Some (4, [0; 1] ++ 3 :: [2]) /\
  omap snd (run empty os) = Ok (Some 3) /\
  (s <- run empty os ;; pre (fst s) (Some 3)) = Ok (Some 1) /\
  (s <- run empty os ;; suf (fst s) (Some 3)) = Ok (Some 2).
Proof. vm_compute. auto. Qed.
Print Assumptions C38_find.
Print Assumptions C40_erase_middle.
Print Assumptions C38_present.
Print Assumptions C39_structure.
Print Assumptions C39_last_at_root.
Print Assumptions C40_erase_first.
Print Assumptions C40_erase_last.
Print Assumptions C40_erase_then_insert_refuted.
Print Assumptions C41_pre_suf.
Print Assumptions C41_pre_suf_root.
Print Assumptions C41_pre_refuted.
