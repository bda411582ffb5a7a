(** Property theorems C90 (Matrix::reduce with machine arithmetic). *)
From Coq Require Import Reals Lra Floats.SpecFloat.
From Verif Require Import Base Float FloatProofs MatModel MatSpec MatProofs MatAnyModel MatAnySpec MatAnyProofs.
Local Open Scope Z_scope.

(** C90: whatever the entry type and its arithmetic (no algebraic law is assumed, only that 0
    equals 0), reduce ends with a matrix in row echelon form *)
Theorem C90_echelon :
  forall (A : Type) (o : ops A), oeqb o (o0 o) (o0 o) = true ->
  forall m n c, shape m n c -> 0 < c ->
  exists b ps, reduce o m = Ok b /\ shape b n c /\ echelon_any o b ps.
Proof. intros A o H m n c. apply reduce_any. exact H. Qed.
Print Assumptions C90_echelon.
(** doubles, infinities and NaN included, and ints *)
Theorem C90_echelon_double :
  forall m n c, shape m n c -> 0 < c -> exists b ps, reduce Dops m = Ok b /\ shape b n c /\ echelon_any Dops b ps.
Proof. intros m n c. now apply reduce_any. Qed.
Print Assumptions C90_echelon_double.
(** but its rank need not be that of the matrix: a singular matrix of small integers gets two pivots *)
Theorem C90_singular_refuted :
  exists b, reduce Dops (dmat2 [[dof 49; dof 1]; [dof 49; dof 1]]) = Ok b /\ echelon_any Dops b [0; 1] /\
    has_solution (exact (dmat2 [[dof 49; dof 1]; [dof 49; dof 1]])) /\ only_zero (exact b).
Proof.
  exists (dmat2 [[done; ddiv (dof 1) (dof 49)]; [dzero; done]]). split; [vm_compute; reflexivity|]. split; [apply echelon_two|]. split.
  - exists (fun j => if j =? 0 then 1%R else (-49)%R). rewrite solves2, !real_int by lia. cbn. split; [split|]; lra.
  - intros x H. apply solves2 in H. unfold done in H. rewrite real_dzero, !real_int in H by lia. destruct H as [H1 H2].
    assert (E : x 1 = 0%R) by lra. rewrite E in *. split; lra.
Qed.
Print Assumptions C90_singular_refuted.
(** and a regular matrix of doubles gets one *)
Theorem C90_regular_refuted :
  exists b, reduce Dops (dmat2 [[dof 3; dof 1]; [dof 1; ddiv (dof 1) (dof 3)]]) = Ok b /\ echelon_any Dops b [0] /\
    only_zero (exact (dmat2 [[dof 3; dof 1]; [dof 1; ddiv (dof 1) (dof 3)]])) /\ has_solution (exact b).
Proof.
  exists (dmat2 [[done; ddiv (dof 1) (dof 3)]; [dzero; dzero]]). split; [vm_compute; reflexivity|]. split; [apply echelon_one|].
  set (t := ddiv (dof 1) (dof 3)). split.
  - intros x H. apply solves2 in H. rewrite !real_int in H by lia. destruct H as [H1 H2].
    assert (T : (3 * real t <> 1)%R).
    { assert (E : real t = (IZR 6004799503160661 * / IZR (2 ^ 54))%R) by (vm_compute; reflexivity).
      rewrite E. change (2 ^ 54) with 18014398509481984. lra. }
    assert (E : x 1 = 0%R).
    { assert (E : ((1 - 3 * real t) * x 1%Z = 0)%R) by lra. apply Rmult_integral in E. destruct E; [lra|assumption]. }
    rewrite E in *. split; lra.
  - exists (fun j => if j =? 0 then (- real t)%R else 1%R). rewrite solves2. unfold done. rewrite real_dzero, !real_int by lia. cbn. split; [split|]; lra.
Qed.
Print Assumptions C90_regular_refuted.
(** with int entries: [[2,1],[4,2]] is singular, reduce gives the identity *)
Theorem C90_int_refuted :
  reduce Iops (Mat 2 2 [[2; 1]; [4; 2]] true) = Ok (Mat 2 2 [[1; 0]; [0; 1]] true) /\
  (forall x, solves Iops (Mat 2 2 [[1; 0]; [0; 1]] true) x -> x 0 = 0 /\ x 1 = 0) /\
  solves Iops (Mat 2 2 [[2; 1]; [4; 2]] true) (fun j => if j =? 0 then 1 else -2).
Proof.
  split; [vm_compute; reflexivity|]. split.
  - intros x H. pose proof (H 0 ltac:(cbn; lia)) as H0. pose proof (H 1 ltac:(cbn; lia)) as H1.
    change (0 + 1 * x 0 + 0 * x 1 = 0) in H0. change (0 + 0 * x 0 + 1 * x 1 = 0) in H1. lia.
  - intros i Hi. cbn in Hi. assert (i = 0 \/ i = 1) as [-> | ->] by lia; reflexivity.
Qed.
Print Assumptions C90_int_refuted.
Example C90_example :
  shape (dmat2 [[dof 0; dof 2]; [dof 4; dof 8]; [dnan; dinf]]) 3 2 /\
  omap cells (reduce Dops (dmat2 [[dof 0; dof 2]; [dof 4; dof 8]; [dof 4; dof 9]])) =
    Ok [[done; dof 2]; [dzero; done]; [dzero; dzero]] /\
  omap cells (reduce Dops (dmat2 [[dnan; dof 2]; [dof 4; dof 8]])) = Ok [[done; dnan]; [dzero; done]].
Proof. split; [|split; vm_compute; reflexivity]. unfold shape, dmat2. cbn. repeat split; try lia. repeat constructor. Qed.
