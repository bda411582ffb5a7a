From Verif Require Import Base Float NumModel RandModel DistModel DistSpec.
Local Open Scope nat_scope.

(** lists *)
Lemma put_replace {A} (l : list A) i x : put l i x = replace l i x.
Proof. reflexivity. Qed.
Lemma put_length {A} (l : list A) i x : length (put l i x) = length l.
Proof. revert i. induction l as [|y l IH]; intros [|i]; cbn; try reflexivity. now rewrite IH. Qed.
Lemma put_same {A} (l : list A) i x y : nth_error l i = Some y -> nth_error (put l i x) i = Some x.
Proof. revert i. induction l as [|z l IH]; intros [|i]; cbn; try discriminate; [reflexivity|apply IH]. Qed.
Lemma put_other {A} (l : list A) i k x : k <> i -> nth_error (put l i x) k = nth_error l k.
Proof. revert i k. induction l as [|z l IH]; intros [|i] [|k] H; cbn; try reflexivity; try congruence. apply IH. congruence. Qed.
Lemma app_at {A} (l : list A) x : nth_error (l ++ [x]) (length l) = Some x.
Proof. rewrite nth_error_app2, Nat.sub_diag by lia. reflexivity. Qed.
Lemma app_old {A} (l : list A) x k y : nth_error l k = Some y -> nth_error (l ++ [x]) k = Some y.
Proof. intros H. rewrite nth_error_app1; [exact H|]. apply nth_error_Some. congruence. Qed.
Lemma app_cases {A} (l : list A) x k y : nth_error (l ++ [x]) k = Some y -> nth_error l k = Some y \/ k = length l /\ y = x.
Proof.
  intros H. destruct (Nat.lt_ge_cases k (length l)) as [L|L]; [left; now rewrite nth_error_app1 in H|right].
  rewrite nth_error_app2 in H by exact L. destruct (k - length l) as [|m] eqn:E; cbn in H; [injection H as <-; split; [lia|reflexivity]|destruct m; discriminate].
Qed.
Lemma get_ok {A} (l : list (option A)) i x : nth_error l i = Some (Some x) -> get l i = Ok x.
Proof. unfold get. now intros ->. Qed.
Lemma get_alive {A} (l : list (option A)) i : get l i = alive l i. Proof. reflexivity. Qed.
Lemma alive_cases {A} (l : list (option A)) i : (exists x, nth_error l i = Some (Some x) /\ alive l i = Ok x) \/ (nth_error l i = Some None \/ nth_error l i = None) /\ alive l i = UB.
Proof. unfold alive. destruct (nth_error l i) as [[x|]|] eqn:E; [left; eauto|right; auto|right; auto]. Qed.
(** counting *)
Definition count {A} (f : A -> bool) (l : list A) : nat := length (filter f l).
Lemma count_app {A} (f : A -> bool) l x : count f (l ++ [x]) = count f l + (if f x then 1 else 0).
Proof. unfold count. rewrite filter_app, app_length. cbn [filter]. now destruct (f x). Qed.
Lemma count_put {A} (f : A -> bool) l i x y : nth_error l i = Some y ->
  count f (put l i x) + (if f y then 1 else 0) = count f l + (if f x then 1 else 0).
Proof.
  revert i. induction l as [|z l IH]; intros [|i]; cbn [nth_error]; try discriminate.
  - intros E. injection E as ->. unfold count. cbn [put filter]. destruct (f x), (f y); cbn [length]; lia.
  - intros E. specialize (IH i E). unfold count in *. cbn [put filter]. destruct (f z); cbn [length]; lia.
Qed.

Section Sim.
Context {G : Type} (E : engine G) (log exp : double -> double) (pow : double -> double -> double) (nf : bool) (fuel : nat).
Notation vdistG := (@vdist G sampler).
Notation stateG := (@state G sampler).
Definition vs := @vstep G sampler params rres rop (random_new E) (fun o g => rand_step E g o) (init exp pow) (sample E log exp pow nf fuel).
Definition vr := @vrun G sampler params rres rop (random_new E) (fun o g => rand_step E g o) (init exp pow) (sample E log exp pow nf fuel).
Definition ms := @step G E log exp pow nf fuel.
Definition mr := @run G E log exp pow nf fuel.

(** who owns the generator at each address: user number j or distribution i *)
Inductive owner := User (j : nat) | Inside (i : nat).
Record Rel (w : @world G) (v : stateG) (own : list owner) : Prop := {
  r_own : length own = length (gens w);
  r_users : length (users w) = length (vgens v);
  r_dists : length (dists w) = length (vdists v);
  r_user : forall j o, nth_error (vgens v) j = Some o -> exists a, nth_error own a = Some (User j) /\
    match o with
    | Some g => nth_error (users w) j = Some (Some a) /\ nth_error (gens w) a = Some (Some g)
    | None => nth_error (users w) j = Some None /\ nth_error (gens w) a = Some None
    end;
  r_dist : forall i o, nth_error (vdists v) i = Some o ->
    match o with
    | None => nth_error (dists w) i = Some None
    | Some (Own g s) => exists a, nth_error own a = Some (Inside i) /\ nth_error (dists w) i = Some (Some (Dist a true s)) /\ nth_error (gens w) a = Some (Some g)
    | Some (Shared j s) => exists a, nth_error own a = Some (User j) /\ nth_error (dists w) i = Some (Some (Dist a false s))
    end;
  r_unique : forall a b j, nth_error own a = Some (User j) -> nth_error own b = Some (User j) -> a = b;
  r_bound : forall a, match nth_error own a with Some (User j) => j < length (users w) | Some (Inside i) => i < length (dists w) | None => True end;
  r_count : count is_some (gens w) = live v }.

Definition related (m : outcome (@world G * option rres)) (s : outcome (stateG * option rres)) : Prop :=
  match m, s with
  | Ok (w, r), Ok (v, r') => r = r' /\ exists own, Rel w v own
  | Err, Err | UB, UB | Fuel, Fuel => True
  | _, _ => False
  end.

Lemma user_none w v own j : Rel w v own -> nth_error (vgens v) j = Some None \/ nth_error (vgens v) j = None -> get (users w) j = UB.
Proof.
  intros H [N|N]; unfold get.
  - destruct (r_user w v own H j None N) as (a & _ & -> & _). reflexivity.
  - assert (L : nth_error (users w) j = None) by (apply nth_error_None; rewrite (r_users w v own H); now apply nth_error_None). now rewrite L.
Qed.
Lemma dist_none w v own i : Rel w v own -> nth_error (vdists v) i = Some None \/ nth_error (vdists v) i = None -> get (dists w) i = UB.
Proof.
  intros H [N|N]; unfold get.
  - pose proof (r_dist w v own H i None N) as ->. reflexivity.
  - assert (L : nth_error (dists w) i = None) by (apply nth_error_None; rewrite (r_dists w v own H); now apply nth_error_None). now rewrite L.
Qed.
Lemma user_live w v own j g : Rel w v own -> nth_error (vgens v) j = Some (Some g) ->
  exists a, nth_error own a = Some (User j) /\ nth_error (users w) j = Some (Some a) /\ nth_error (gens w) a = Some (Some g).
Proof. intros H N. exact (r_user w v own H j (Some g) N). Qed.
Lemma lt_of {A} (l : list A) i x : nth_error l i = Some x -> i < length l.
Proof. intros H. apply nth_error_Some. congruence. Qed.
Ltac unf := unfold vs, ms, step, vstep, related in *; rewrite <- ?get_alive in *.

(** a new generator of the user *)
Lemma rel_new_random w v own t : Rel w v own ->
  Rel (World (gens w ++ [Some (random_new E t)]) (users w ++ [Some (length (gens w))]) (dists w)) (State (vgens v ++ [Some (random_new E t)]) (vdists v)) (own ++ [User (length (users w))]).
Proof.
  intros H. pose proof (r_own _ _ _ H) as LO. pose proof (r_users _ _ _ H) as LU. split; cbn [gens users dists vgens vdists].
  - rewrite !app_length. cbn. lia.
  - rewrite !app_length. cbn. lia.
  - exact (r_dists _ _ _ H).
  - intros j o N. destruct (app_cases _ _ _ _ N) as [N'|[-> ->]].
    + destruct (r_user _ _ _ H j o N') as (a & A & B). exists a. split; [now apply app_old|]. destruct o; destruct B as [B1 B2]; split; now apply app_old.
    + exists (length (gens w)). rewrite <- LO at 1. rewrite <- LU. split; [apply app_at|]. split; apply app_at.
  - intros i o N. pose proof (r_dist _ _ _ H i o N) as D. destruct o as [[g s|j s]|]; [|  |exact D].
    + destruct D as (a & A & B & C). exists a. split; [now apply app_old|]. split; [exact B|now apply app_old].
    + destruct D as (a & A & B). exists a. split; [now apply app_old|exact B].
  - intros a b j A B. destruct (app_cases _ _ _ _ A) as [A'|[-> Aj]], (app_cases _ _ _ _ B) as [B'|[-> Bj]]; try reflexivity.
    + exact (r_unique _ _ _ H a b j A' B').
    + injection Bj as ->. pose proof (r_bound _ _ _ H a) as Q. rewrite A' in Q. lia.
    + injection Aj as ->. pose proof (r_bound _ _ _ H b) as Q. rewrite B' in Q. lia.
  - intros a. destruct (nth_error (own ++ _) a) as [o|] eqn:N; [|exact I]. rewrite app_length. cbn [length].
    destruct (app_cases _ _ _ _ N) as [N'|[-> ->]]; [|lia]. pose proof (r_bound _ _ _ H a) as Q. rewrite N' in Q. destruct o; lia.
  - rewrite count_app, (r_count _ _ _ H). unfold live. cbn [vgens vdists]. fold (count is_some (vgens v)). fold (count is_some (vgens v ++ [Some (random_new E t)])). rewrite count_app. cbn [is_some]. lia.
Qed.
(** changing the generator of user j *)
Lemma rel_user w v own j g o a : Rel w v own -> nth_error (vgens v) j = Some (Some g) -> nth_error own a = Some (User j) ->
  Rel (World (put (gens w) a o) (match o with Some _ => users w | None => put (users w) j None end) (dists w)) (State (replace (vgens v) j o) (vdists v)) own.
Proof.
  intros H N OA. destruct (user_live _ _ _ _ _ H N) as (a' & OA' & U & GA). pose proof (r_unique _ _ _ H _ _ _ OA OA') as <-. change (@replace) with (@put).
  assert (LU : length (match o with Some _ => users w | None => put (users w) j None end) = length (users w)) by (destruct o; [reflexivity|apply put_length]).
  split; cbn [gens users dists vgens vdists].
  - rewrite put_length. exact (r_own _ _ _ H).
  - rewrite LU, put_length. exact (r_users _ _ _ H).
  - exact (r_dists _ _ _ H).
  - intros k o' K. destruct (Nat.eq_dec k j) as [->|NE].
    + rewrite (put_same _ _ _ _ N) in K. injection K as <-. exists a. split; [exact OA|]. destruct o as [g'|]; (split; [|now apply (put_same _ _ _ _ GA)]); [exact U|now apply (put_same _ _ _ _ U)].
    + rewrite put_other in K by exact NE. destruct (r_user _ _ _ H k o' K) as (b & B & C). exists b. split; [exact B|].
      assert (b <> a) by congruence. rewrite put_other by assumption. destruct o; [exact C|]. rewrite put_other by exact NE. exact C.
  - intros i o' K. pose proof (r_dist _ _ _ H i o' K) as D. destruct o' as [[g' s|k s]|]; [|exact D|exact D]. destruct D as (b & B & C & F). exists b. split; [exact B|]. split; [exact C|].
    rewrite put_other; [exact F|]. congruence.
  - exact (r_unique _ _ _ H).
  - intros b. pose proof (r_bound _ _ _ H b) as Q. rewrite LU. exact Q.
  - pose proof (count_put is_some (gens w) a o _ GA) as C1. pose proof (count_put is_some (vgens v) j o _ N) as C2. rewrite (r_count _ _ _ H) in C1.
    unfold live in *. cbn [vgens vdists] in *. fold (count is_some (vgens v)) in *. fold (count is_some (put (vgens v) j o)). cbn [is_some] in C1, C2. lia.
Qed.
(** a new distribution with a generator of its own *)
Lemma rel_new_own w v own t s : Rel w v own ->
  Rel (World (gens w ++ [Some (random_new E t)]) (users w) (dists w ++ [Some (Dist (length (gens w)) true s)])) (State (vgens v) (vdists v ++ [Some (Own (random_new E t) s)])) (own ++ [Inside (length (dists w))]).
Proof.
  intros H. pose proof (r_own _ _ _ H) as LO. pose proof (r_dists _ _ _ H) as LD. split; cbn [gens users dists vgens vdists].
  - rewrite !app_length. cbn. lia.
  - exact (r_users _ _ _ H).
  - rewrite !app_length. cbn. lia.
  - intros j o N. destruct (r_user _ _ _ H j o N) as (a & A & B). exists a. split; [now apply app_old|]. destruct o; destruct B as [B1 B2]; split; auto; now apply app_old.
  - intros i o N. destruct (app_cases _ _ _ _ N) as [N'|[-> ->]].
    + pose proof (r_dist _ _ _ H i o N') as D. destruct o as [[g s'|j s']|].
      * destruct D as (a & A & B & C). exists a. split; [now apply app_old|]. split; now apply app_old.
      * destruct D as (a & A & B). exists a. split; now apply app_old.
      * now apply app_old.
    + exists (length (gens w)). rewrite <- LD. rewrite <- LO at 1. split; [apply app_at|]. split; apply app_at.
  - intros a b j A B. destruct (app_cases _ _ _ _ A) as [A'|[-> Aj]]; [|discriminate]. destruct (app_cases _ _ _ _ B) as [B'|[-> Bj]]; [|discriminate]. exact (r_unique _ _ _ H a b j A' B').
  - intros a. destruct (nth_error (own ++ _) a) as [o|] eqn:N; [|exact I]. rewrite app_length. cbn [length].
    destruct (app_cases _ _ _ _ N) as [N'|[-> ->]]; [|lia]. pose proof (r_bound _ _ _ H a) as Q. rewrite N' in Q. destruct o; lia.
  - rewrite count_app, (r_count _ _ _ H). unfold live. cbn [vgens vdists]. fold (count is_own (vdists v)). fold (count is_own (vdists v ++ [Some (Own (random_new E t) s)])). rewrite count_app. cbn [is_own is_some]. lia.
Qed.
Lemma rel_new_shared w v own j a s : Rel w v own -> nth_error own a = Some (User j) ->
  Rel (World (gens w) (users w) (dists w ++ [Some (Dist a false s)])) (State (vgens v) (vdists v ++ [Some (Shared j s)])) own.
Proof.
  intros H OA. split; cbn [gens users dists vgens vdists]; try exact (r_own _ _ _ H); try exact (r_users _ _ _ H); try exact (r_user _ _ _ H); try exact (r_unique _ _ _ H).
  - rewrite !app_length, (r_dists _ _ _ H). reflexivity.
  - intros i o N. destruct (app_cases _ _ _ _ N) as [N'|[-> ->]].
    + pose proof (r_dist _ _ _ H i o N') as D. destruct o as [[g s'|k s']|].
      * destruct D as (b & A & B & C). exists b. split; [exact A|]. split; [now apply app_old|exact C].
      * destruct D as (b & A & B). exists b. split; [exact A|now apply app_old].
      * now apply app_old.
    + exists a. split; [exact OA|]. rewrite <- (r_dists _ _ _ H). apply app_at.
  - intros b. pose proof (r_bound _ _ _ H b) as Q. rewrite app_length. cbn [length]. destruct (nth_error own b) as [[]|]; lia.
  - rewrite (r_count _ _ _ H). unfold live. cbn [vgens vdists]. fold (count is_own (vdists v)). fold (count is_own (vdists v ++ [Some (Shared j s)])). rewrite count_app. cbn [is_own]. lia.
Qed.
(** changing distribution i, keeping its generator (with a new state if it is inside) *)
Lemma rel_own_next w v own i a g g' s s' : Rel w v own -> nth_error (vdists v) i = Some (Some (Own g s)) -> nth_error own a = Some (Inside i) ->
  nth_error (dists w) i = Some (Some (Dist a true s)) -> nth_error (gens w) a = Some (Some g) ->
  Rel (World (put (gens w) a (Some g')) (users w) (put (dists w) i (Some (Dist a true s')))) (State (vgens v) (replace (vdists v) i (Some (Own g' s')))) own.
Proof.
  intros H N OA D GA. change (@replace) with (@put). split; cbn [gens users dists vgens vdists]; try exact (r_users _ _ _ H); try exact (r_unique _ _ _ H).
  - rewrite put_length. exact (r_own _ _ _ H).
  - rewrite !put_length. exact (r_dists _ _ _ H).
  - intros j o K. destruct (r_user _ _ _ H j o K) as (b & B & C). exists b. split; [exact B|]. rewrite put_other by congruence. exact C.
  - intros k o K. destruct (Nat.eq_dec k i) as [->|NE].
    + rewrite (put_same _ _ _ _ N) in K. injection K as <-. exists a. split; [exact OA|]. split; [now apply (put_same _ _ _ _ D)|now apply (put_same _ _ _ _ GA)].
    + rewrite put_other in K by exact NE. pose proof (r_dist _ _ _ H k o K) as Q. destruct o as [[h t|j t]|]; [| |now rewrite put_other].
      * destruct Q as (b & B & C & F). exists b. split; [exact B|]. rewrite !put_other by congruence. now split.
      * destruct Q as (b & B & C). exists b. split; [exact B|]. now rewrite put_other.
  - intros b. pose proof (r_bound _ _ _ H b) as Q. rewrite put_length. exact Q.
  - pose proof (count_put is_some (gens w) a (Some g') _ GA) as C1. pose proof (count_put is_own (vdists v) i (Some (Own g' s')) _ N) as C2. rewrite (r_count _ _ _ H) in C1.
    unfold live in *. cbn [vgens vdists] in *. fold (count is_own (vdists v)) in *. fold (count is_own (put (vdists v) i (Some (Own g' s')))). cbn [is_some is_own] in C1, C2. lia.
Qed.
(** replacing distribution i by one that refers to a user's generator, or by nothing *)
Definition refers (own : list owner) (d : option dist) (o : option vdistG) : Prop :=
  match d, o with
  | None, None => True
  | Some (Dist a false s), Some (Shared j s') => s = s' /\ nth_error own a = Some (User j)
  | _, _ => False
  end.
Lemma rel_refer w v own i d o : Rel w v own -> (forall g s, nth_error (vdists v) i <> Some (Some (Own g s))) -> i < length (vdists v) -> refers own d o ->
  Rel (World (gens w) (users w) (put (dists w) i d)) (State (vgens v) (replace (vdists v) i o)) own.
Proof.
  intros H NO L RF. change (@replace) with (@put). destruct (nth_error (vdists v) i) as [o'|] eqn:N; [|apply nth_error_None in N; lia].
  assert (exists d', nth_error (dists w) i = Some d') as [d' D'] by (destruct (nth_error (dists w) i) eqn:Q; [eauto|apply nth_error_None in Q; rewrite (r_dists _ _ _ H) in Q; lia]).
  split; cbn [gens users dists vgens vdists]; try exact (r_own _ _ _ H); try exact (r_users _ _ _ H); try exact (r_user _ _ _ H); try exact (r_unique _ _ _ H).
  - rewrite !put_length. exact (r_dists _ _ _ H).
  - intros k p K. destruct (Nat.eq_dec k i) as [->|NE].
    + rewrite (put_same _ _ _ _ N) in K. injection K as <-. rewrite (put_same _ _ _ _ D'). unfold refers in RF.
      destruct d as [[a [|] s]|], o as [[g t|j t]|]; try contradiction; [|reflexivity]. destruct RF as [-> RF]. exists a. now split.
    + rewrite put_other in K by exact NE. pose proof (r_dist _ _ _ H k p K) as Q. destruct p as [[h t|j t]|]; [| |now rewrite put_other].
      * destruct Q as (b & B & C & F). exists b. split; [exact B|]. now rewrite put_other.
      * destruct Q as (b & B & C). exists b. split; [exact B|]. now rewrite put_other.
  - intros b. pose proof (r_bound _ _ _ H b) as Q. rewrite put_length. exact Q.
  - rewrite (r_count _ _ _ H). pose proof (count_put is_own (vdists v) i o _ N) as C2.
    unfold live. cbn [vgens vdists]. fold (count is_own (vdists v)). fold (count is_own (put (vdists v) i o)).
    assert (is_own o' = false) by (destruct o' as [[g s|]|]; [elim (NO g s); reflexivity|reflexivity|reflexivity]).
    assert (is_own o = false) by (unfold refers in RF; destruct d as [[a [|] s]|], o as [[g t|j t]|]; try contradiction; reflexivity).
    rewrite H0, H1 in C2. lia.
Qed.
(** the same when the old distribution had a generator inside, which is deleted *)
Lemma rel_release w v own i a g s d o : Rel w v own -> nth_error (vdists v) i = Some (Some (Own g s)) -> nth_error own a = Some (Inside i) ->
  nth_error (dists w) i = Some (Some (Dist a true s)) -> nth_error (gens w) a = Some (Some g) -> refers own d o ->
  Rel (World (put (gens w) a None) (users w) (put (dists w) i d)) (State (vgens v) (replace (vdists v) i o)) own.
Proof.
  intros H N OA D GA RF. change (@replace) with (@put). split; cbn [gens users dists vgens vdists]; try exact (r_users _ _ _ H); try exact (r_unique _ _ _ H).
  - rewrite put_length. exact (r_own _ _ _ H).
  - rewrite !put_length. exact (r_dists _ _ _ H).
  - intros j p K. destruct (r_user _ _ _ H j p K) as (b & B & C). exists b. split; [exact B|]. rewrite put_other by congruence. exact C.
  - intros k p K. destruct (Nat.eq_dec k i) as [->|NE].
    + rewrite (put_same _ _ _ _ N) in K. injection K as <-. rewrite (put_same _ _ _ _ D). unfold refers in RF.
      destruct d as [[b [|] t]|], o as [[h t'|j t']|]; try contradiction; [|reflexivity]. destruct RF as [-> RF]. exists b. now split.
    + rewrite put_other in K by exact NE. pose proof (r_dist _ _ _ H k p K) as Q. destruct p as [[h t|j t]|]; [| |now rewrite put_other].
      * destruct Q as (b & B & C & F). exists b. split; [exact B|]. rewrite !put_other by congruence. now split.
      * destruct Q as (b & B & C). exists b. split; [exact B|]. now rewrite put_other.
  - intros b. pose proof (r_bound _ _ _ H b) as Q. rewrite put_length. exact Q.
  - pose proof (count_put is_some (gens w) a None _ GA) as C1. pose proof (count_put is_own (vdists v) i o _ N) as C2. rewrite (r_count _ _ _ H) in C1.
    unfold live in *. cbn [vgens vdists] in *. fold (count is_own (vdists v)) in *. fold (count is_own (put (vdists v) i o)).
    assert (is_own o = false) by (unfold refers in RF; destruct d as [[b [|] t]|], o as [[h t'|j t']|]; try contradiction; reflexivity).
    rewrite H0 in C2. cbn [is_some is_own] in C1, C2. lia.
Qed.

Lemma step_sim w v own o : Rel w v own -> related (ms w o) (vs v (ev o)).
Proof.
  intros H. destruct o as [t|j|j o|t p|j p|i j|i|i]; unfold ms, vs, step, vstep, ev.
  - cbn. split; [reflexivity|]. eexists. exact (rel_new_random w v own t H).
  - destruct (alive_cases (vgens v) j) as [(g & N & ->)|[N ->]]; [|rewrite (user_none _ _ _ _ H N); exact I].
    destruct (user_live _ _ _ _ _ H N) as (a & OA & U & GA). rewrite (get_ok _ _ _ U). cbn [bind]. unfold del_gen. rewrite (get_ok _ _ _ GA). cbn. split; [reflexivity|].
    exists own. exact (rel_user w v own j g None a H N OA).
  - destruct (alive_cases (vgens v) j) as [(g & N & ->)|[N ->]]; [|rewrite (user_none _ _ _ _ H N); exact I].
    destruct (user_live _ _ _ _ _ H N) as (a & OA & U & GA). rewrite (get_ok _ _ _ U). cbn [bind]. rewrite (get_ok _ _ _ GA). cbn [bind].
    destruct (rand_step E g o) as [[g' r]| | |]; try exact I. cbn. split; [reflexivity|]. exists own. exact (rel_user w v own j g (Some g') a H N OA).
  - cbn. destruct (init exp pow p) as [s| | |]; try exact I. cbn. split; [reflexivity|]. eexists. exact (rel_new_own w v own t s H).
  - destruct (alive_cases (vgens v) j) as [(g & N & ->)|[N ->]]; [|rewrite (user_none _ _ _ _ H N); exact I].
    destruct (user_live _ _ _ _ _ H N) as (a & OA & U & GA). rewrite (get_ok _ _ _ U). cbn [bind].
    destruct (init exp pow p) as [s| | |]; try exact I. cbn. split; [reflexivity|]. exists own. exact (rel_new_shared w v own j a s H OA).
  - destruct (alive_cases (vdists v) i) as [(d & N & ->)|[N ->]]; [|rewrite (dist_none _ _ _ _ H N); exact I].
    pose proof (r_dist _ _ _ H i _ N) as D. pose proof (lt_of _ _ _ N) as L.
    assert (exists b nw s, get (dists w) i = Ok (Dist b nw s)) as (b & nw & s & GD) by (destruct d; [destruct D as (b & _ & B & _)|destruct D as (b & _ & B)]; rewrite (get_ok _ _ _ B); eauto).
    destruct (alive_cases (vgens v) j) as [(g & NJ & ->)|[NJ ->]]; [|rewrite GD; cbn [bind]; rewrite (user_none _ _ _ _ H NJ); exact I].
    destruct (user_live _ _ _ _ _ H NJ) as (a & OA & U & GA). rewrite (get_ok _ _ _ U). destruct d as [h t|k t].
    + destruct D as (c & OC & DC & GC). rewrite (get_ok _ _ _ DC). cbn [bind newed rgen smp]. unfold del_gen. rewrite (get_ok _ _ _ GC). cbn. split; [reflexivity|]. exists own.
      apply (rel_release w v own i c h t _ _ H N OC DC GC). cbn. auto.
    + destruct D as (c & OC & DC). rewrite (get_ok _ _ _ DC). cbn. split; [reflexivity|]. exists own.
      apply (rel_refer w v own i _ _ H); [intros; congruence|exact L|cbn; auto].
  - destruct (alive_cases (vdists v) i) as [(d & N & ->)|[N ->]]; [|rewrite (dist_none _ _ _ _ H N); exact I].
    pose proof (r_dist _ _ _ H i _ N) as D. pose proof (lt_of _ _ _ N) as L. cbn [bind]. destruct d as [h t|k t].
    + destruct D as (c & OC & DC & GC). rewrite (get_ok _ _ _ DC). cbn [bind newed rgen smp]. rewrite (get_ok _ _ _ GC). cbn [bind].
      destruct (sample E log exp pow nf fuel t h) as [[[r s'] g']| | |]; try exact I. cbn. split; [reflexivity|]. exists own. exact (rel_own_next w v own i c h g' t s' H N OC DC GC).
    + destruct D as (c & OC & DC). rewrite (get_ok _ _ _ DC). cbn [bind newed rgen smp].
      assert (UK : k < length (vgens v)). { pose proof (r_bound _ _ _ H c) as Q. rewrite OC in Q. now rewrite <- (r_users _ _ _ H). }
      destruct (nth_error (vgens v) k) as [o|] eqn:NK; [|apply nth_error_None in NK; lia]. destruct (r_user _ _ _ H k o NK) as (c' & OC' & Q). pose proof (r_unique _ _ _ H _ _ _ OC OC') as <-.
      destruct o as [g|]; destruct Q as [U GA].
      * rewrite (get_ok _ _ _ GA). unfold alive. rewrite NK. cbn [bind]. destruct (sample E log exp pow nf fuel t g) as [[[r s'] g']| | |]; try exact I. cbn. split; [reflexivity|]. exists own.
        pose proof (rel_user w v own k g (Some g') c H NK OC) as H1.
        exact (rel_refer _ _ own i (Some (Dist c false s')) (Some (Shared k s')) H1 ltac:(cbn [vdists]; intros; congruence) L (conj eq_refl OC)).
      * unfold get, alive. now rewrite GA, NK.
  - destruct (alive_cases (vdists v) i) as [(d & N & ->)|[N ->]]; [|rewrite (dist_none _ _ _ _ H N); exact I].
    pose proof (r_dist _ _ _ H i _ N) as D. pose proof (lt_of _ _ _ N) as L. cbn [bind]. destruct d as [h t|k t].
    + destruct D as (c & OC & DC & GC). rewrite (get_ok _ _ _ DC). cbn [bind newed rgen smp]. unfold del_gen. rewrite (get_ok _ _ _ GC). cbn. split; [reflexivity|]. exists own.
      apply (rel_release w v own i c h t _ _ H N OC DC GC). exact I.
    + destruct D as (c & OC & DC). rewrite (get_ok _ _ _ DC). cbn. split; [reflexivity|]. exists own.
      apply (rel_refer w v own i _ _ H); [intros; congruence|exact L|exact I].
Qed.

Lemma rel_empty : Rel empty (State [] []) [].
Proof.
  split; cbn; try reflexivity; try (intros [|?] ? ?; discriminate). intros [|a]; exact I.
Qed.
Lemma run_sim os : forall w v own, Rel w v own ->
  match mr w os, vr v (map ev os) with
  | Ok (w, rs), Ok (v, rs') => rs = rs' /\ exists own, Rel w v own
  | Err, Err | UB, UB | Fuel, Fuel => True
  | _, _ => False
  end.
Proof.
  induction os as [|o os IH]; intros w v own H; [cbn; eauto|]. unfold mr, vr in *. cbn [run vrun map].
  pose proof (step_sim w v own o H) as S. unfold ms, vs, related in S.
  destruct (step E log exp pow nf fuel w o) as [[w1 r]| | |]; destruct (vstep _ _ _ _ v (ev o)) as [[v1 r']| | |]; try contradiction; try exact I.
  destruct S as (<- & own1 & H1). cbn [bind]. specialize (IH w1 v1 own1 H1).
  destruct (run E log exp pow nf fuel w1 os) as [[w2 rs]| | |]; destruct (vrun _ _ _ _ v1 (map ev os)) as [[v2 rs']| | |]; try contradiction; try exact I.
  destruct IH as (<- & own2 & H2). cbn. eauto.
Qed.
End Sim.
