(** Statistics in binary64: src/include/math_utils/math_functions.h:57-160, 212-221,
    264-267, 318-327, 367-370 and src/math_utils/statistics.cpp.  [double] is binary64
    (Float.v); [int] arithmetic is range-checked.  An array is a list together with
    the argument [size]; the elements are read in order, so an array shorter than
    [size] is read out of bounds. *)
From Verif Require Import Base Float NumModel.
Local Open Scope Z_scope.

(** the elements read by [for (int i = 0; i < size; i++) ... arr[i]]
    (math_functions.h:60-62, statistics.cpp:9-12, 18-20) *)
Definition elements {A} (arr : list A) (size : Z) : outcome (list A) :=
  if Z.of_nat (length arr) <? size then UB else Ok (firstn (Z.to_nat size) arr).

(** math_functions.h:57-64, [sum(const double* , int)] *)
Definition sum_double (arr : list double) (size : Z) : outcome double :=
  l <- elements arr size ;; Ok (fold_left dadd l dzero).
(** math_functions.h:143-146, [mean] for int and for double arrays; the division converts
    [size] to double *)
Definition mean_of_int (arr : list Z) (size : Z) : outcome double :=
  l <- elements arr size ;; s <- sum_int l ;; Ok (ddiv (dof s) (dof size)).
(** math_functions.h:143-146, [mean] of a double array *)
Definition mean_of_double (arr : list double) (size : Z) : outcome double :=
  s <- sum_double arr size ;; Ok (ddiv s (dof size)).

(** statistics.cpp:9-12, 35-38, 44-47: the loop that adds the squared differences;
    an int element is converted by [arr[i] - means] *)
Definition add_squares (means : double) (l : list double) : double :=
  fold_left (fun acc x => let d := dsub x means in dadd acc (dmul d d)) l dzero.
(** statistics.cpp:18-20: [sum_square += arr[i] * arr[i]], the product is an int *)
Fixpoint add_int_squares (l : list Z) (acc : double) : outcome double :=
  match l with
  | [] => Ok acc
  | x :: l => p <- chk32 (x * x) ;; add_int_squares l (dadd acc (dof p))
  end.

(** statistics.cpp:6-14, [variance(const double* , int)] *)
Definition variance_of_double (arr : list double) (size : Z) : outcome double :=
  m <- mean_of_double arr size ;;
  l <- elements arr size ;;
  Ok (ddiv (add_squares m l) (dof size)).
(** statistics.cpp:16-23, [variance(const int* , int)] *)
Definition variance_of_int (arr : list Z) (size : Z) : outcome double :=
  l <- elements arr size ;;
  ss <- add_int_squares l dzero ;;
  m <- mean_of_int arr size ;;
  Ok (dsub (ddiv ss (dof size)) (dmul m m)).
(** statistics.cpp:25-30, [stddev] *)
Definition stddev_of_double (arr : list double) (size : Z) : outcome double :=
  v <- variance_of_double arr size ;; Ok (dsqrt v).
(** statistics.cpp:28-30, [stddev] of an int array *)
Definition stddev_of_int (arr : list Z) (size : Z) : outcome double :=
  v <- variance_of_int arr size ;; Ok (dsqrt v).
(** statistics.cpp:32-49, [sample_variance]; [size - 1] is an int *)
Definition sample_variance_of_double (arr : list double) (size : Z) : outcome double :=
  m <- mean_of_double arr size ;;
  l <- elements arr size ;;
  n <- chk32 (size - 1) ;;
  Ok (ddiv (add_squares m l) (dof n)).
(** statistics.cpp:41-49, [sample_variance] of an int array *)
Definition sample_variance_of_int (arr : list Z) (size : Z) : outcome double :=
  m <- mean_of_int arr size ;;
  l <- elements arr size ;;
  n <- chk32 (size - 1) ;;
  Ok (ddiv (add_squares m (map dof l)) (dof n)).

(** math_functions.h:212-221, [variance(Container)] for a container of int: unlike the
    array function it subtracts the mean first *)
Definition variance_of_int_container (l : list Z) : outcome double :=
  s <- sum_int l ;;
  let n := dof (Z.of_nat (length l)) in
  Ok (ddiv (add_squares (ddiv (dof s) n) (map dof l)) n).
