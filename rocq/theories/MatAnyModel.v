(** Concrete arithmetics for Matrix<ValueType>::reduce (Matrix.h:153-181): double and int.
    The loops are those of MatModel.v; only the operations of ValueType change. *)
From Verif Require Import Base Float MatModel.
Local Open Scope Z_scope.

(** Matrix<double>: Matrix.h:161 (!= 0), 172 (/=), 173 (= 1.0), 176 (product, subtraction), 177 (= 0.0) in binary64 *)
Definition Dops : ops double := Ops double dzero done dadd dsub dmul ddiv deqb.
(** Matrix<int>: the same lines with int arithmetic, division truncates; results outside int
    (undefined behaviour) are not marked here, the witnesses stay within int *)
Definition Iops : ops Z := Ops Z 0 1 Z.add Z.sub Z.mul Z.quot Z.eqb.
