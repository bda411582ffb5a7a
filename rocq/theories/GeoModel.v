(** Model of src/include/geometry/Point.h, Line.h, Circle.h and src/geometry/Line.cpp.
    The code is written once over a record of operations and used with binary64
    numbers and with exact real numbers. *)
From Coq Require Import Reals Floats.SpecFloat.
From Flocq Require Import Core.
From Verif Require Import Base Float.
Local Open Scope Z_scope.

(** the operations on [double] used by the geometry code; operations used by Point.h, Line.cpp and Circle.h *)
Record num (N : Type) := Num {
  nzero : N; nadd : N -> N -> N; nsub : N -> N -> N; nmul : N -> N -> N; ndiv : N -> N -> N;
  nabs : N -> N; nsqrt : N -> N; nlt : N -> N -> bool; nne : N -> N -> bool;
  neps : N (* 1e-6, Point.h:11, Line.cpp:5 *); npi : N (* 3.1415926, Circle.h:9 *); ntwo : N }.
Arguments Num {N}. Arguments nzero {N}. Arguments nadd {N}. Arguments nsub {N}. Arguments nmul {N}.
Arguments ndiv {N}. Arguments nabs {N}. Arguments nsqrt {N}. Arguments nlt {N}. Arguments nne {N}.
Arguments neps {N}. Arguments npi {N}. Arguments ntwo {N}.
(** binary64: literals are the nearest doubles; != is true if an argument is NaN; the double arithmetic of Point.h, Line.cpp and Circle.h *)
Definition ieee : num double :=
  Num dzero dadd dsub dmul ddiv dabs dsqrt dltb (fun a b => negb (deqb a b))
    (ddiv (dof 1) (dof 1000000)) (ddiv (dof 31415926) (dof 10000000)) (dof 2).
(** exact real arithmetic (x / 0 is unspecified and excluded by the theorems); idealisation of the double arithmetic of Point.h, Line.cpp and Circle.h *)
Definition exactR : num R :=
  Num 0%R Rplus Rminus Rmult Rdiv Rabs sqrt Rlt_bool (fun a b => negb (Req_bool a b))
    (1 / 1000000)%R (31415926 / 10000000)%R 2%R.

Section Geo.
Context {N : Type} (A : num N).
(** Point.h:165: the coordinates; all points of one expression have the same dimension *)
Definition point := list N.
(** Point.h:16 (for dimension [n]) *)
Definition point_zero (n : nat) : point := repeat (nzero A) n.
(** Point.h:43-45, unchecked index *)
Definition point_get (p : point) (i : Z) : outcome N := aget p i.
(** Point.h:48-58, 77-85, 92-96: the element loops (the leaked allocation is in PointHeapModel) *)
Fixpoint zip (f : N -> N -> N) (p q : point) : point :=
  match p, q with a :: p, b :: q => f a b :: zip f p q | _, _ => [] end.
(** operator+, Point.h:48-52 *)
Definition point_add (p q : point) : point := zip (nadd A) p q.
(** operator-, Point.h:54-58 *)
Definition point_sub (p q : point) : point := zip (nsub A) p q.
(** operator* by a number, Point.h:77-85 *)
Definition point_scale (p : point) (c : N) : point := map (fun a => nmul A a c) p.
(** operator/, Point.h:92-96 *)
Definition point_quot (p : point) (c : N) : point := map (fun a => ndiv A a c) p.
(** Point.h:71-75 and 141-145: dot product, accumulated from 0.0 *)
Fixpoint dot_from (acc : N) (p q : point) : N :=
  match p, q with a :: p, b :: q => dot_from (nadd A acc (nmul A a b)) p q | _, _ => acc end.
(** dot, Point.h:71-75, 141-145 *)
Definition dot (p q : point) : N := dot_from (nzero A) p q.
(** Point.h:87-90 and 98-101, operator*= and operator/= : the argument is a const
    reference; it may refer to an element of the point itself (p *= p[0]) *)
Inductive ref := Val (c : N) | Own (i : nat).
(** the number a reference argument c denotes, Point.h:87-101 *)
Definition deref (p : point) (r : ref) : N := match r with Val c => c | Own i => nth i p (nzero A) end.
(** the element loop of operator*= and operator/=, Point.h:87-101 *)
Fixpoint assign_loop (n i : nat) (f : N -> N -> N) (r : ref) (p : point) : point :=
  match n with
  | O => p
  | S n => assign_loop n (S i) f r (upd p i (f (nth i p (nzero A)) (deref p r)))
  end.
(** operator*=, Point.h:87-90 *)
Definition scale_assign (p : point) (r : ref) : point := assign_loop (length p) 0 (nmul A) r p.
(** operator/=, Point.h:98-101 *)
Definition quot_assign (p : point) (r : ref) : point := assign_loop (length p) 0 (ndiv A) r p.
(** Point.h:60-68, operator+= and -=; [None] is the point itself (p += p) *)
Fixpoint combine_loop (n i : nat) (f : N -> N -> N) (q : option point) (p : point) : point :=
  match n with
  | O => p
  | S n =>
      let other := match q with Some q => q | None => p end in
      combine_loop n (S i) f q (upd p i (f (nth i p (nzero A)) (nth i other (nzero A))))
  end.
(** operator+=, Point.h:60-63 *)
Definition add_assign (p : point) (q : option point) : point := combine_loop (length p) 0 (nadd A) q p.
(** operator-=, Point.h:65-68 *)
Definition sub_assign (p : point) (q : option point) : point := combine_loop (length p) 0 (nsub A) q p.
(** Point.h:103-109 *)
Fixpoint point_eq (p q : point) : bool :=
  match p, q with
  | a :: p, b :: q => if nlt A (neps A) (nabs A (nsub A a b)) then false else point_eq p q
  | _, _ => true
  end.
(** operator!=, Point.h:109 *)
Definition point_ne (p q : point) : bool := negb (point_eq p q).
(** Point.h:111-133 *)
Fixpoint compare_loop (f : N -> N -> bool) (same : bool) (p q : point) : bool :=
  match p, q with
  | a :: p, b :: q => if nne A a b then f a b else compare_loop f same p q
  | _, _ => same
  end.
(** operator<, Point.h:111-115 *)
Definition point_lt := compare_loop (fun a b => nlt A a b) false.
(** operator<=, Point.h:117-121 *)
Definition point_le := compare_loop (fun a b => nlt A a b) true.
(** operator>, Point.h:123-127 *)
Definition point_gt := compare_loop (fun a b => nlt A b a) false.
(** operator>=, Point.h:129-133 *)
Definition point_ge := compare_loop (fun a b => nlt A b a) true.
(** Point.h:153-162 *)
Definition len (p : point) : N := nsqrt A (dot p p).
(** normalize, Point.h:159-162 *)
Definition normalize (p : point) : point := point_quot p (len p).
(** Point.h:148-151, for dimension 2 *)
Definition cross (v w : N * N) : N := nsub A (nmul A (fst v) (snd w)) (nmul A (snd v) (fst w)).

(** two-dimensional points as pairs in Line.cpp; the operators are the element loops above *)
Definition pt := (N * N)%type.
(** operator+, Point.h:48-52 *)
Definition padd (p q : pt) : pt := (nadd A (fst p) (fst q), nadd A (snd p) (snd q)).
(** operator-, Point.h:54-58 *)
Definition psub (p q : pt) : pt := (nsub A (fst p) (fst q), nsub A (snd p) (snd q)).
(** operator* by a number, Point.h:77-81 *)
Definition pscale (p : pt) (c : N) : pt := (nmul A (fst p) c, nmul A (snd p) c).
(** dot product, Point.h:71-75 *)
Definition pdot (p q : pt) : N := dot [fst p; snd p] [fst q; snd q].
(** len, Point.h:153-157 *)
Definition plen (p : pt) : N := len [fst p; snd p].
(** Line.h:22-24 *)
Record line := Line { origin : pt; dir : pt }.
(** Line.cpp:33-37 *)
Definition getIntersection (l1 l2 : line) : pt :=
  let u := psub (origin l1) (origin l2) in
  let t := ndiv A (cross (dir l2) u) (cross (dir l1) (dir l2)) in
  padd (origin l1) (pscale (dir l1) t).
(** Line.cpp:39-42 *)
Definition disToLine (p : pt) (l : line) : N :=
  let v1 := dir l in
  let v2 := psub p (origin l) in
  nabs A (ndiv A (cross v1 v2) (plen v1)).
(** Line.cpp:9-12 *)
Definition dcmp (x : N) : Z := if nlt A (nabs A x) (neps A) then 0 else if nlt A (nzero A) x then 1 else -1.
(** Line.cpp:44-52 *)
Definition disToSegment (p : pt) (l : line) : N :=
  let v1 := dir l in
  let v2 := psub p (origin l) in
  let v3 := psub (psub p (origin l)) (dir l) in
  if dcmp (pdot v1 v2) <? 0 then plen v2
  else if 0 <? dcmp (pdot v1 v3) then plen v3
  else nabs A (ndiv A (cross v1 v2) (plen v1)).
(** Circle.h:19-25; [cos] and [sin] are libm's *)
Definition getArea (r : N) : N := nmul A (nmul A (npi A) r) r.
(** getPerimeter, Circle.h:21 *)
Definition getPerimeter (r : N) : N := nmul A (nmul A (ntwo A) (npi A)) r.
(** getPoint, Circle.h:23-25 *)
Definition getPoint (cos sin : N -> N) (o : pt) (r rad : N) : pt := padd o (nmul A r (cos rad), nmul A r (sin rad)).
End Geo.
Arguments Val {N}. Arguments Own {N}. Arguments Line {N}. Arguments origin {N}. Arguments dir {N}.
