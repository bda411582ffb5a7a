(** Specification for statistics: mean and mean squared deviation of integers as real numbers. *)
From Coq Require Import Reals.
From Verif Require Import Base.
Local Open Scope R_scope.

Fixpoint rsum (l : list R) : R := match l with [] => 0 | x :: l => x + rsum l end.
Definition rmean (l : list R) : R := rsum l / INR (length l).
Definition mean_sq_dev (l : list R) : R := rmean (map (fun x => (x - rmean l) * (x - rmean l)) l).
(** all entries are the same number *)
Definition all_equal {A} (l : list A) : Prop := forall x y, In x l -> In y l -> x = y.
(** sum of squared deviations over n - 1 *)
Definition sample_var (l : list R) : R := rsum (map (fun x => (x - rmean l) * (x - rmean l)) l) / (INR (length l) - 1).
(** error allowed for the average squared deviation [s] of [n] numbers computed around
    a centre that is off by [e] *)
Definition dev_bound (n : nat) (s e : R) : R := (INR n + 4) * / IZR (2 ^ 52) * s + 4 * (e * e) + / IZR (2 ^ 1072).
