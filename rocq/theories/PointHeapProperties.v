From Coq Require Import Reals ZArith.
From Verif Require Import Base Float GeoModel PointHeapModel PointHeapSpec PointHeapProofs.

(** C101: the values of point expressions and the memory they leak. *)

(** Every expression over points has the coordinates that arithmetic on the coordinates
    gives, whatever the order of evaluation, and leaves one leaked point per operator. *)
Theorem C101_expression : forall (N : Type) (A : num N) (o : pexp N -> bool) (n : nat) (e : pexp N) (h : list (list N)), dims n e ->
  let '(p, h') := evaluate A o e h in
  length p = n /\ (forall i, (i < n)%nat -> nth i p (nzero A) = coord A e i) /\ leaked (operators e) h h'.
Proof. intros N A o n e h D. pose proof (evaluate_spec A o n e D h) as H. now destruct (evaluate A o e h). Qed.
Print Assumptions C101_expression.

(** The functions of Line and Circle return what they return without the memory
    model, and leak 3, 1, 3 and 1 points per call. *)
Theorem C101_functions : forall (N : Type) (A : num N) (h : list (list N)),
  (forall l1 l2, fst (getIntersection_h A l1 l2 h) = getIntersection A l1 l2 /\ leaked 3 h (snd (getIntersection_h A l1 l2 h))) /\
  (forall p l, fst (disToLine_h A p l h) = disToLine A p l /\ leaked 1 h (snd (disToLine_h A p l h))) /\
  (forall p l, fst (disToSegment_h A p l h) = disToSegment A p l /\ leaked 3 h (snd (disToSegment_h A p l h))) /\
  (forall cos sin o r x, fst (getPoint_h A cos sin o r x h) = getPoint A cos sin o r x /\ leaked 1 h (snd (getPoint_h A cos sin o r x h))).
Proof.
  intros N A h. split; [intros; apply intersection_heap|]. split; [intros; apply line_heap|]. split; [intros; apply segment_heap|intros; apply point_heap].
Qed.
Print Assumptions C101_functions.

(** Bounded memory is not enough for repeated calls: k calls leave k, or 3k, points. *)
Theorem C101_bounded_memory_refuted : forall (N : Type) (A : num N) (bound : nat), exists k, forall p l l2 h,
  (bound < length (calls k (disToLine_h A p l) h) /\ bound < length (calls k (disToSegment_h A p l) h) /\ bound < length (calls k (getIntersection_h A l l2) h))%nat.
Proof.
  intros N A b. exists (S b). intros p l l2 h.
  split; [|split].
  - apply (leaked_many b _ h _ (calls_leak (disToLine_h A p l) 1 (fun h => proj2 (line_heap A p l h)) (S b) h)). lia.
  - apply (leaked_many b _ h _ (calls_leak (disToSegment_h A p l) 3 (fun h => proj2 (segment_heap A p l h)) (S b) h)). lia.
  - apply (leaked_many b _ h _ (calls_leak (getIntersection_h A l l2) 3 (fun h => proj2 (intersection_heap A l l2 h)) (S b) h)). lia.
Qed.
Print Assumptions C101_bounded_memory_refuted.

(** (p + q) * 2 - q / 4 over binary64: four operators, four leaked points; one heap
    point exists before. *)
Example C101_example :
  let p := [dof 1; dof 2; dof 3] in let q := [dof 4; dof 8; dof (-4)] in
  let e := PSub (PScale (PAdd (PVar p) (PVar q)) (dof 2)) (PQuot (PVar q) (dof 4)) in
  dims 3 e /\ fst (evaluate ieee (fun _ => true) e [p]) = [dof 9; dof 18; dof (-1)] /\ length (snd (evaluate ieee (fun _ => false) e [p])) = 5%nat.
Proof. cbv zeta. split; [repeat split|]. split; vm_compute; reflexivity. Qed.
