(** Model of src/algorithm/edit_distance.cpp. *)
From Verif Require Import Base.
Local Open Scope Z_scope.

(** edit_distance.cpp:9-14, [min3]. *)
Definition min3 (a b c : Z) : Z :=
  if a <? b then (if a <? c then a else c) else (if b <? c then b else c).

(** The matrix of edit_distance.cpp:24-25: an array of rows; [None] is an
    uninitialised cell of [new int[n + 1]]. *)
Definition matrix := list (list (option Z)).
(** [matrix[i][j]] read, edit_distance.cpp:34-36, 40 *)
Definition mget (M : matrix) (i j : Z) : outcome Z :=
  row <- aget M i ;; v <- aget row j ;;
  match v with Some z => Ok z | None => UB end.
(** [matrix[i][j] = v], edit_distance.cpp:28, 30, 35 *)
Definition mset (M : matrix) (i j v : Z) : outcome matrix :=
  row <- aget M i ;; row' <- aset row j (Some v) ;; aset M i row'.

(** edit_distance.cpp:17-41, [editDistance(str1, str2)].  Sizes are converted to
    int; int arithmetic is range-checked. *)
Definition editDistance (s1 s2 : bytes) : outcome Z :=
  let m := wrap32 (Z.of_nat (length s1)) in
  let n := wrap32 (Z.of_nat (length s2)) in
  if (m =? 0) || (n =? 0) then chk32 (m + n)
  else
    m1 <- chk32 (m + 1) ;;
    n1 <- chk32 (n + 1) ;;
    (* lines 24-29: allocate the rows, column 0 *)
    M <- @for_loop matrix (Z.to_nat m1) 0
           (fun i M => row <- aset (repeat None (Z.to_nat n1)) 0 (Some i) ;; aset M i row)
           (repeat [] (Z.to_nat m1)) ;;
    (* line 30: row 0 *)
    M <- @for_loop matrix (Z.to_nat n1) 0 (fun i M => mset M 0 i i) M ;;
    (* lines 32-38 *)
    M <- @for_loop matrix (Z.to_nat m) 1 (fun i M =>
           @for_loop matrix (Z.to_nat n) 1 (fun j M =>
             c1 <- aget s1 (i - 1) ;;
             c2 <- aget s2 (j - 1) ;;
             let tmp := if Ascii.eqb c1 c2 then 0 else 1 in
             a <- mget M (i - 1) j ;; a <- chk32 (a + 1) ;;
             b <- mget M i (j - 1) ;; b <- chk32 (b + 1) ;;
             c <- mget M (i - 1) (j - 1) ;; c <- chk32 (c + tmp) ;;
             mset M i j (min3 a b c)) M) M ;;
    mget M m n.
