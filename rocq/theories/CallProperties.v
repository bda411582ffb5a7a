(** Calls of the user's function by mapAll and filterContainer. *)
From Verif Require Import Base CallModel CallSpec CallProofs.

(** mapAll calls the function once per element, in order; it returns the values, the
    container keeps the elements as the calls left them; an exception leaves at once,
    with the elements behind it untouched *)
Theorem C112_map :
  forall (E F W A B : Type) (f : @func E F W A B) o cont w,
    (forall bs ys w', mapAll f o cont w = (Returned bs, ys, w') <-> exists o', calls f o w cont bs ys o' w') /\
    (forall e ys w', mapAll f o cont w = (Thrown e, ys, w') <-> throws f o w cont e ys w').
Proof.
  intros E F W A B f o cont w. unfold mapAll. destruct (map_loop_calls f cont o [] [] w) as [(bs & ys & o' & w' & H & R)|(e & ys & w' & H & R)]; rewrite R; cbn [app]; split.
  - intros bs2 ys2 w2. split; [intros X; injection X as <- <- <-; now exists o'|]. intros (o2 & K). destruct (calls_det _ _ _ _ _ _ _ _ H _ _ _ _ K) as (-> & -> & _ & ->). reflexivity.
  - intros e ys2 w2. split; [discriminate|]. intros K. destruct (not_both _ _ _ _ _ _ _ _ _ _ _ H K).
  - intros bs ys2 w2. split; [discriminate|]. intros (o2 & K). destruct (not_both _ _ _ _ _ _ _ _ _ _ _ K H).
  - intros e2 ys2 w2. split; [intros X; injection X as <- <- <-; exact H|]. intros K. destruct (throws_det _ _ _ _ _ _ _ _ _ _ H K) as (-> & -> & ->). reflexivity.
Qed.
Print Assumptions C112_map.
(** filterContainer the same; it returns the elements, as their calls left them, for which the call was true *)
Theorem C112_filter :
  forall (E F W A : Type) (f : @func E F W A bool) o cont w,
    (forall ret ys w', filterContainer f o cont w = (Returned ret, ys, w') <-> exists bs o', calls f o w cont bs ys o' w' /\ ret = chosen ys bs) /\
    (forall e ys w', filterContainer f o cont w = (Thrown e, ys, w') <-> throws f o w cont e ys w').
Proof.
  intros E F W A f o cont w. unfold filterContainer. rewrite (filter_loop_map f cont o [] [] w []).
  destruct (C112_map E F W A bool f o cont w) as [M1 M2]. unfold mapAll in *. destruct (mapAll_loop f o [] cont [] w) as [[[bs|e] ys] w'] eqn:R; cbn [app length skipn]; split.
  - intros ret ys2 w2. split.
    + intros X. injection X as <- <- <-. destruct (proj1 (M1 _ _ _) eq_refl) as (o' & K). now exists bs, o'.
    + intros (bs2 & o' & K & ->). destruct (proj1 (M1 _ _ _) eq_refl) as (o2 & K2). destruct (calls_det _ _ _ _ _ _ _ _ K _ _ _ _ K2) as (-> & -> & _ & ->). reflexivity.
  - intros e ys2 w2. split; [discriminate|]. intros K. apply M2 in K. discriminate.
  - intros ret ys2 w2. split; [discriminate|]. intros (bs & o' & K & _). assert (X : (Thrown e, ys, w') = (Returned bs, ys2, w2)) by (apply M1; now exists o'). discriminate.
  - intros e2 ys2 w2. rewrite <- M2. split; intros X; injection X as -> -> ->; reflexivity.
Qed.
Print Assumptions C112_filter.
(** a function without effects: the container is unchanged and the results are those of map and filter *)
Theorem C112_pure :
  forall (E F W A B : Type) (g : A -> B) (p : A -> bool) o cont w,
    mapAll (E := E) (F := F) (W := W) (fun o x w => (Returned (g x), o, x, w)) o cont w = (Returned (map g cont), cont, w) /\
    filterContainer (E := E) (F := F) (W := W) (fun o x w => (Returned (p x), o, x, w)) o cont w = (Returned (filter p cont), cont, w).
Proof.
  intros E F W A B g p o cont w. assert (C : forall (D : Type) (h : A -> D), calls (E := E) (fun (o : F) x (w : W) => (Returned (h x), o, x, w)) o w cont (map h cont) cont o w).
  { intros D h. clear. induction cont as [|x t IH]; cbn; econstructor; [reflexivity|exact IH]. }
  split; [apply C112_map; exists o; apply C|]. apply C112_filter. exists (map p cont), o. split; [apply C|].
  clear. induction cont as [|x t IH]; [reflexivity|]. cbn. destruct (p x); now rewrite IH.
Qed.
Print Assumptions C112_pure.

(** a function that doubles its element, counts its calls in its own object and prints
    to the world; the third element makes it throw *)
Example C112_example :
  let f := fun (o : nat) (x : nat) (w : list nat) => if Nat.eqb x 9 then (Thrown o, S o, 0, w ++ [x]) else (Returned (Nat.eqb (x mod 3) 0, o), S o, 2 * x, w ++ [x]) in
  let g := fun (o : nat) (x : nat) (w : list nat) => (Returned (E := nat) (Nat.ltb o 2), S o, 2 * x, w ++ [x]) in
  mapAll f 0 [4; 3; 9; 7] [1] = (Thrown 2, [8; 6; 0; 7], [1; 4; 3; 9]) /\
  mapAll f 5 [4; 3] [] = (Returned [(false, 5); (true, 6)], [8; 6], [4; 3]) /\
  filterContainer g 0 [4; 3; 9; 7] [] = (Returned [8; 6], [8; 6; 18; 14], [4; 3; 9; 7]).
Proof. vm_compute. repeat split. Qed.
