(** Model of the output operators of Fraction, Matrix and Point (Fraction.h:123-125,
    Matrix.h:53-56 and 183-192, Point.h:135-139).  The output is the text written to a
    stream with default flags; [fmt] is the formatting of one number by the standard
    library ([os << x] or std::to_string). *)
From Verif Require Import Base DecModel FracModel MatModel.
Local Open Scope Z_scope.

(** the newline character written at Matrix.h:189 *)
Definition newline : ascii := ascii_of_nat 10.
(** operator<<, Fraction.h:123-125 *)
Definition print_fraction (f : frac) : bytes := to_string_Z (num f) ++ str "/" ++ to_string_Z (den f).
Section Print.
Context {A : Type} (fmt : A -> bytes).
(** one pass of the outer loop of toString, Matrix.h:187-189; A[i][0] is read first, unchecked *)
Definition matrix_row (m : mat A) (i : Z) (s : bytes) : outcome bytes :=
  x <- mget m i 0 ;;
  s <- for_loop (Z.to_nat (col m - 1)) 1 (fun j s => y <- mget m i j ;; Ok (s ++ str ", " ++ fmt y)) (s ++ fmt x) ;;
  Ok (s ++ [newline]).
(** toString, Matrix.h:183-192, and operator<<, Matrix.h:53-56 *)
Definition matrix_toString (m : mat A) : outcome bytes := for_loop (Z.to_nat (row m)) 0 (matrix_row m) [].
(** operator<<, Point.h:135-139; the dimension is the length of [p] *)
Definition print_point (p : list A) : outcome bytes :=
  x <- aget p 0 ;;
  s <- for_loop (length p - 1) 1 (fun i s => y <- aget p i ;; Ok (s ++ str ", " ++ fmt y)) (str "(" ++ fmt x) ;;
  Ok (s ++ str ")").
End Print.
