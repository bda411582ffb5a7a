(** One round of the polar method of NormalDistribution::next, over any
    arithmetic: doubles or exact reals. *)
From Verif Require Import Base Float RandModel.
Local Open Scope Z_scope.

(** the operations of NormalDistribution.cpp:22-38 and Random.cpp:29 *)
Record norm_ops (N : Type) := NormOps {
  nzero : N; none : N; nneg1 : N; nneg2 : N;
  nadd : N -> N -> N; nsub : N -> N -> N; nmul : N -> N -> N; ndiv : N -> N -> N;
  neq : N -> N -> bool; ngt : N -> N -> bool; nlog : N -> N; nsqrt : N -> N }.
Arguments NormOps {N}. Arguments nzero {N}. Arguments none {N}. Arguments nneg1 {N}. Arguments nneg2 {N}.
Arguments nadd {N}. Arguments nsub {N}. Arguments nmul {N}. Arguments ndiv {N}. Arguments neq {N}. Arguments ngt {N}.
Arguments nlog {N}. Arguments nsqrt {N}.

(** [nextDouble(-1, 1)] on a unit draw [a], Random.cpp:29 *)
Definition spread {N} (O : norm_ops N) (a : N) : N :=
  nadd O (nmul O a (nsub O (none O) (nneg1 O))) (nneg1 O).
(** NormalDistribution.cpp:26-37 on two unit draws: [u * result] and
    [spareResult]; [None]: the round is repeated (line 32) *)
Definition norm_try {N} (O : norm_ops N) (a b : N) : option (N * N) :=
  let u := spread O a in
  let v := spread O b in
  let sum := nadd O (nmul O u u) (nmul O v v) in
  if neq O sum (nzero O) || ngt O sum (none O) then None
  else
    let result := nsqrt O (ndiv O (nmul O (nneg2 O) (nlog O sum)) sum) in
    Some (nmul O u result, nmul O v result).
(** the operations on doubles; [log] is libm's; NormalDistribution.cpp:22-38 *)
Definition dnorm (log : double -> double) : norm_ops double :=
  NormOps dzero done (dof (-1)) (dof (-2)) dadd dsub dmul ddiv deqb (fun x y => dltb y x) log dsqrt.
(** the loop of NormalDistribution.cpp:25-32 on the unit draws in order, and how
    many of them were used; [None]: all were used and the loop goes on *)
Fixpoint norm_loop {N} (O : norm_ops N) (us : list N) : option (N * N * nat) :=
  match us with
  | a :: b :: us =>
      match norm_try O a b with
      | Some p => Some (p, 2%nat)
      | None => match norm_loop O us with Some (p, k) => Some (p, (2 + k)%nat) | None => None end
      end
  | _ => None
  end.
