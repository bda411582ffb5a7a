(** What a range-update / range-query structure over a list should answer. *)
From Verif Require Import Base SegModel.
Local Open Scope Z_scope.

(** the value at a position after one update *)
Definition app1 (u : change) (x : Z) : Z := match u with Add a => x + a | Mul m => x * m end.
(** the list as a function, after a sequence of calls *)
Definition after1 (c : call) (f : Z -> Z) (i : Z) : Z :=
  match c with
  | CQuery _ _ _ => f i
  | CUpdate u lv rv => if (lv <=? i) && (i <=? rv) then app1 u (f i) else f i
  end.
Definition after (cs : list call) (f : Z -> Z) : Z -> Z := fold_left (fun f c => after1 c f) cs f.
Definition at_ (v : list Z) (i : Z) : Z := nth (Z.to_nat i) v 0.

(** f l + ... + f (l + n - 1) *)
Fixpoint rsum (n : nat) (f : Z -> Z) (l : Z) : Z :=
  match n with O => 0 | S k => f l + rsum k f (l + 1) end.
(** the right answer x to a query over [l, r] of f *)
Definition answers (k : kind) (f : Z -> Z) (l r x : Z) : Prop :=
  match k with
  | QSum => x = rsum (Z.to_nat (r - l + 1)) f l
  | QMax => (exists i, l <= i <= r /\ f i = x) /\ forall i, l <= i <= r -> f i <= x
  | QMin => (exists i, l <= i <= r /\ f i = x) /\ forall i, l <= i <= r -> x <= f i
  end.

(** ranges of calls lie inside the tree *)
Definition valid_range (n lv rv : Z) : Prop := 0 <= lv /\ lv <= rv /\ rv < n.
Definition valid_call (n : Z) (c : call) : Prop :=
  match c with CQuery _ lv rv => valid_range n lv rv | CUpdate _ lv rv => valid_range n lv rv end.
(** the update contains or misses the range [l, r] entirely *)
Definition all_or_nothing (l r : Z) (c : call) : Prop :=
  match c with
  | CQuery _ _ _ => True
  | CUpdate _ lv rv => (lv <= l /\ r <= rv) \/ rv < l \/ r < lv
  end.
Definition monotone (k : kind) (l r : Z) (c : call) : Prop :=
  match c with
  | CUpdate (Mul m) lv rv => k = QSum \/ l = r \/ 0 <= m \/ rv < l \/ r < lv
  | _ => True
  end.
