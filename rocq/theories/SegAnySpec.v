(** What a tree of an arbitrary value type may answer. *)
From Coq Require Import Reals.
From Flocq Require Import Core.
From Verif Require Import Base SegModel SegSpec Float FloatProofs SegAnyModel.
Local Open Scope Z_scope.

(** [x] is the value of an expression that combines [f l], ..., [f r], each once and in this
    order, with parentheses nested at most [h] deep *)
Inductive bracketed {T} (op : T -> T -> T) (f : Z -> T) : nat -> Z -> Z -> T -> Prop :=
| one_value h l : bracketed op f h l l (f l)
| two_parts h l m r x y : l <= m < r -> bracketed op f h l m x -> bracketed op f h (m + 1) r y ->
    bracketed op f (S h) l r (op x y).

(** the list as a function *)
Definition nth_of {T} (v : list T) (d : T) (i : Z) : T := nth (Z.to_nat i) v d.
(** only queries, inside the list *)
Definition only_queries {T} (n : Z) (cs : list (@gcall T)) : Prop :=
  Forall (fun c => match c with GQuery _ lv rv => valid_range n lv rv | GUpdate _ _ _ => False end) cs.
(** the largest number of halvings of a list of n elements *)
Definition height (n : Z) : nat := Z.to_nat (Z.log2_up n).

(** [<] is a strict weak order among the values [f l], ..., [f r] *)
Definition ordered_on {T} (lt : T -> T -> bool) (f : Z -> T) (l r : Z) : Prop :=
  (forall i, l <= i <= r -> lt (f i) (f i) = false) /\
  (forall i j k, l <= i <= r -> l <= j <= r -> l <= k <= r -> lt (f i) (f j) = true -> lt (f j) (f k) = true -> lt (f i) (f k) = true) /\
  (forall i j k, l <= i <= r -> l <= j <= r -> l <= k <= r -> lt (f i) (f k) = true -> lt (f i) (f j) = true \/ lt (f j) (f k) = true).

(** doubles: not NaN; the order of the extended real line *)
Definition number (x : double) : Prop := dvalid x = true /\ x <> dnan.
Definition below (x y : double) : Prop :=
  match x, y with
  | SpecFloat.S754_infinity s, SpecFloat.S754_infinity t => s = true /\ t = false
  | SpecFloat.S754_infinity s, _ => s = true
  | _, SpecFloat.S754_infinity t => t = false
  | _, _ => (real x < real y)%R
  end.

(** g l + ... + g (l + n - 1) over the reals *)
Fixpoint total (n : nat) (g : Z -> R) (l : Z) : R :=
  match n with O => 0%R | S k => (g l + total k g (l + 1))%R end.
Definition over (g : Z -> R) (l r : Z) : R := total (Z.to_nat (r - l + 1)) g l.
(** half a unit in the last place of 1 *)
Definition ulp2 : R := bpow radix2 (-53).

(** the calls of SegModel, as calls of a tree of integers *)
Definition as_change (u : change) : gchange := match u with Add x => GAdd x | Mul x => GMul x end.
Definition as_call (c : call) : gcall := match c with CQuery k lv rv => GQuery k lv rv | CUpdate u lv rv => GUpdate (as_change u) lv rv end.
