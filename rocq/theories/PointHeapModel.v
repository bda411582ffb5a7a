(** Model of the allocations of Point's operators (Point.h:48-58, 77-85, 92-96) and of
    the functions that use them (Line.cpp:33-52, Circle.h:23-25).  The heap is the list
    of the points made by [new]; its length is the number of live heap points, since
    no code frees one.  Points on the stack (parameters, locals, returned copies) are
    values.  Allocation never fails. *)
From Verif Require Import Base GeoModel.

Section PointHeap.
Context {N : Type} (A : num N).
(** the points made by [new Point] at Point.h:49, 55, 78 and 93 *)
Definition pheap := list (list N).
(** [new Point], Point.h:49, with the constructor Point.h:16; the address is the index *)
Definition new_point (n : nat) (h : pheap) : nat * pheap := (length h, h ++ [point_zero A n]).
(** the loops [ret.elem[i] = f(i)], Point.h:50, 56, 79 and 94, from index [i] on *)
Fixpoint fill (n i a : nat) (f : nat -> N) (h : pheap) : pheap :=
  match n with O => h | S n => fill n (S i) a f (upd h a (upd (nth a h []) i (f i))) end.
(** allocate, fill, return a copy of [*ret], Point.h:48-52, 54-58, 77-81 and 92-96 *)
Definition fresh (n : nat) (f : nat -> N) (h : pheap) : list N * pheap :=
  let '(a, h) := new_point n h in
  let h := fill n 0 a f h in
  (nth a h [], h).
(** operator+, Point.h:48-52 *)
Definition hadd (p q : list N) := fresh (length p) (fun i => nadd A (nth i p (nzero A)) (nth i q (nzero A))).
(** operator-, Point.h:54-58 *)
Definition hsub (p q : list N) := fresh (length p) (fun i => nsub A (nth i p (nzero A)) (nth i q (nzero A))).
(** operator* by a number, Point.h:77-85 *)
Definition hscale (p : list N) (c : N) := fresh (length p) (fun i => nmul A (nth i p (nzero A)) c).
(** operator/ by a number, Point.h:92-96 *)
Definition hquot (p : list N) (c : N) := fresh (length p) (fun i => ndiv A (nth i p (nzero A)) c).
(** a Point<2> as its coordinate array and back, Point.h:165 *)
Definition coords (p : N * N) : list N := [fst p; snd p].
Definition pair_of (l : list N) : N * N := (nth 0 l (nzero A), nth 1 l (nzero A)). (* Point.h:165 *)
(** getIntersection, Line.cpp:33-37 *)
Definition getIntersection_h (l1 l2 : line) (h : pheap) : (N * N) * pheap :=
  let '(u, h) := hsub (coords (origin l1)) (coords (origin l2)) h in
  let t := ndiv A (cross A (dir l2) (pair_of u)) (cross A (dir l1) (dir l2)) in
  let '(w, h) := hscale (coords (dir l1)) t h in
  let '(r, h) := hadd (coords (origin l1)) w h in
  (pair_of r, h).
(** disToLine, Line.cpp:39-42 *)
Definition disToLine_h (p : N * N) (l : line) (h : pheap) : N * pheap :=
  let '(v2, h) := hsub (coords p) (coords (origin l)) h in
  (nabs A (ndiv A (cross A (dir l) (pair_of v2)) (plen A (dir l))), h).
(** disToSegment, Line.cpp:44-52; v2 and v3 are computed before the tests *)
Definition disToSegment_h (p : N * N) (l : line) (h : pheap) : N * pheap :=
  let v1 := dir l in
  let '(v2, h) := hsub (coords p) (coords (origin l)) h in
  let '(d, h) := hsub (coords p) (coords (origin l)) h in
  let '(v3, h) := hsub d (coords v1) h in
  (if (dcmp A (pdot A v1 (pair_of v2)) <? 0)%Z then plen A (pair_of v2)
   else if (0 <? dcmp A (pdot A v1 (pair_of v3)))%Z then plen A (pair_of v3)
   else nabs A (ndiv A (cross A v1 (pair_of v2)) (plen A v1)), h).
(** getPoint, Circle.h:23-25 *)
Definition getPoint_h (cos sin : N -> N) (o : N * N) (r rad : N) (h : pheap) : (N * N) * pheap :=
  let '(q, h) := hadd (coords o) (coords (nmul A r (cos rad), nmul A r (sin rad))) h in
  (pair_of q, h).
End PointHeap.
