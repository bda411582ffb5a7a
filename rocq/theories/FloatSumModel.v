(** [sum] of arrays and containers of float, double and long double, and [mean] of floats:
    src/include/math_utils/math_functions.h:57-161.  The three types are binary32, binary64 and
    the 80-bit format of x87 (Float.v has binary64 only); each [+=] is one addition in the type
    itself (no excess precision). *)
From Coq Require Import Floats.SpecFloat.
From Verif Require Import Base Float StatModel.
Local Open Scope Z_scope.

(** the floating-point types [Type] may be, math_functions.h:51, 94 *)
Inductive ftype := FFloat | FDouble | FLong.
(** digits of the significand of the types of math_functions.h:57, 102 *)
Definition prec (t : ftype) : Z := match t with FFloat => 24 | FDouble => 53 | FLong => 64 end.
(** every finite number of the type (math_functions.h:57, 102) is below 2 to this power *)
Definition emax (t : ftype) : Z := match t with FFloat => 128 | FDouble => 1024 | FLong => 16384 end.
(** [+=] of math_functions.h:61, 80, 107, 131 *)
Definition fadd (t : ftype) : spec_float -> spec_float -> spec_float := SFadd (prec t) (emax t).
(** the value of the int [z] in type [t]: [Type sum = 0] in math_functions.h:59, 78, 105, 128 *)
Definition fof (t : ftype) (z : Z) : spec_float := binary_normalize (prec t) (emax t) z 0 false.

(** math_functions.h:76-83, [sum(const Container&)]; the container is the list of what its loop visits *)
Definition fsum_all (t : ftype) (l : list spec_float) : spec_float := fold_left (fadd t) l (fof t 0).
(** math_functions.h:57-64, [sum(const Type*, int)] *)
Definition fsum (t : ftype) (arr : list spec_float) (size : Z) : outcome spec_float :=
  l <- elements arr size ;; Ok (fsum_all t l).
(** math_functions.h:124-134, [sum(const Container&, Function)] with a function without side
    effects that returns type [t] *)
Definition fsum_all_fn {A} (t : ftype) (fn : A -> spec_float) (l : list A) : spec_float :=
  fold_left (fun acc x => fadd t acc (fn x)) l (fof t 0).
(** math_functions.h:102-110, [sum(const ArrType*, int, Function)], likewise *)
Definition fsum_fn {A} (t : ftype) (fn : A -> spec_float) (arr : list A) (size : Z) : outcome spec_float :=
  l <- elements arr size ;; Ok (fsum_all_fn t fn l).
(** the conversion [(double)] of a float, math_functions.h:145, 160 *)
Definition widen (x : spec_float) : double :=
  match x with S754_finite s m e => dmake (cond_Zopp s (Zpos m)) e | _ => x end.
(** math_functions.h:143-146, [mean(const float*, int)]; the division converts [size] to double *)
Definition fmean (arr : list spec_float) (size : Z) : outcome double :=
  s <- fsum FFloat arr size ;; Ok (ddiv (widen s) (dof size)).
(** math_functions.h:158-161, [mean(const Container&)] of floats *)
Definition fmean_all (l : list spec_float) : double :=
  ddiv (widen (fsum_all FFloat l)) (dof (Z.of_nat (length l))).
