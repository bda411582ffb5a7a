From Coq Require Import QArith.
From Verif Require Import Base DecModel FracModel FracSpec FracProofs MatModel MatSpec MatProofs VecIOSpec OutModel OutSpec OutProofs.
Local Open Scope Z_scope.

(** C100: the printed text of a Fraction, Matrix or Point determines the value. *)

(** A fraction prints as two decimal numerals around a slash, and two fractions in
    lowest terms have the same text exactly if they are the same rational number. *)
Theorem C100_fraction :
  (forall f, exists s t, print_fraction f = s ++ "/"%char :: t /\ numeral s (num f) /\ numeral t (den f)) /\
  (forall f g, canonical f -> canonical g -> (print_fraction f = print_fraction g <-> (fval f == fval g)%Q)).
Proof.
  split; [exact fraction_text|]. intros f g F G. rewrite (fval_inj f g F G). split; [apply fraction_inj|now intros ->].
Qed.
Print Assumptions C100_fraction.

(** A matrix with at least one column prints one line per row, the entries of the row
    joined by ", ", for any formatting of the entries. *)
Theorem C100_matrix : forall (A : Type) (fmt : A -> bytes) (m : mat A) (n c : Z), shape m n c -> 0 < c \/ n = 0 ->
  matrix_toString fmt m = Ok (lines (ascii_of_nat 10) (map (fun r => joined (map fmt r)) (cells m))).
Proof.
  intros A fmt m n c S H. rewrite (matrix_text fmt m n c S H). f_equal. unfold lines. induction (cells m) as [|r l IH]; [reflexivity|]. cbn [flat_map map]. now rewrite IH.
Qed.
Print Assumptions C100_matrix.

(** With rows but no columns the first entry of an empty row is read. *)
Theorem C100_matrix_no_columns : forall (A : Type) (fmt : A -> bytes) (m : mat A) (n : Z), shape m n 0 -> 0 < n -> matrix_toString fmt m = UB.
Proof. exact @matrix_no_columns. Qed.
Print Assumptions C100_matrix_no_columns.

(** Two non-empty matrices have the same text exactly if they are equal, if the
    formatting of the entries can be read back. *)
Theorem C100_matrix_text_equal : forall (A : Type) (fmt : A -> bytes) (m m' : mat A) (n c n' c' : Z), readable (ascii_of_nat 10) fmt ->
  shape m n c -> shape m' n' c' -> 0 < n -> 0 < c -> 0 < n' -> 0 < c' ->
  (matrix_toString fmt m = matrix_toString fmt m' <-> m = m').
Proof.
  intros A fmt m m' n c n' c' [I W] S S' Hn Hc Hn' Hc'. split; [|now intros ->]. rewrite (matrix_text fmt m n c S), (matrix_text fmt m' n' c' S') by now left.
  intros E. injection E as E. destruct S as (L & R & C & _ & _ & Ln & F), S' as (L' & R' & C' & _ & _ & Ln' & F').
  apply (rows_inj fmt) in E; [|exact I|exact W| |].
  - destruct m as [r0 c0 l0 v0], m' as [r1 c1 l1 v1]. cbn in *. subst. rewrite Ln in Ln'.
    destruct l1 as [|r l1]; [cbn in Ln; lia|]. inversion F; inversion F'; subst. f_equal; lia.
  - eapply Forall_impl; [|exact F]. intros r Lr ->. cbn in Lr. lia.
  - eapply Forall_impl; [|exact F']. intros r Lr ->. cbn in Lr. lia.
Qed.
Print Assumptions C100_matrix_text_equal.

(** For matrices without rows the text does not tell the number of columns: they
    print alike and compare different. *)
Theorem C100_matrix_text_equal_refuted : exists m m' : mat Z, shape m 0 2 /\ shape m' 0 3 /\
  matrix_toString to_string_Z m = matrix_toString to_string_Z m' /\ m <> m'.
Proof. exists (Mat 0 2 [] true), (Mat 0 3 [] true). split; [|split]; [repeat (split; [reflexivity || lia|]); constructor..|]. split; [reflexivity|discriminate]. Qed.
Print Assumptions C100_matrix_text_equal_refuted.

(** A point prints its coordinates joined by ", " in parentheses; two points print
    alike exactly if they are equal, if the formatting of numbers can be read back. *)
Theorem C100_point : forall (A : Type) (fmt : A -> bytes),
  (forall p, p <> [] -> print_point fmt p = Ok (str "(" ++ joined (map fmt p) ++ str ")")) /\
  (forall p q, p <> [] -> q <> [] -> readable ")"%char fmt -> (print_point fmt p = print_point fmt q <-> p = q)).
Proof.
  intros A fmt. split; [exact (point_text fmt)|]. intros p q Np Nq [I W]. split; [|now intros ->]. rewrite !point_text by assumption. intros E.
  change (str ")") with [")"%char] in E. assert (F : forall p, Forall (without ","%char) (map fmt p) /\ Forall (without ")"%char) (map fmt p)) by (intros p0; split; apply Forall_map, Forall_forall; intros x _; apply W).
  injection E as E. apply split_unique in E; [|apply joined_without; [discriminate|discriminate|apply F]..]. destruct E as [E _].
  apply (map_inj fmt I). apply joined_inj; try apply F; [| |exact E]; intros Z0; apply map_eq_nil in Z0; contradiction.
Qed.
Print Assumptions C100_point.

(** std::to_string of an int can be read back. *)
Theorem C100_int_readable : readable (ascii_of_nat 10) to_string_Z /\ readable ")"%char to_string_Z.
Proof. split; (split; [exact to_string_inj|intros x; split; now apply to_string_without]). Qed.
Print Assumptions C100_int_readable.

Example C100_example :
  print_fraction (Frac (-3) 4) = str "-3/4" /\ canonical (Frac (-3) 4) /\
  matrix_toString to_string_Z (Mat 2 3 [[1; -2; 30]; [4; 5; 6]] true) = Ok (str "1, -2, 30" ++ ascii_of_nat 10 :: str "4, 5, 6" ++ [ascii_of_nat 10]) /\
  shape (Mat 2 3 [[1; -2; 30]; [4; 5; 6]] true) 2 3 /\ shape (Mat (A:=Z) 2 0 [[]; []] true) 2 0 /\
  print_point to_string_Z [1; -20; 3] = Ok (str "(1, -20, 3)").
Proof.
  split; [reflexivity|]. split; [repeat split; reflexivity|]. split; [reflexivity|]. split; [|split; [|reflexivity]].
  - repeat (split; [reflexivity || lia|]). repeat constructor.
  - repeat (split; [reflexivity || lia|]). repeat constructor.
Qed.
