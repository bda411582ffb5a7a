(** Containers: mathematical sequences, finite maps and (multi)sets. *)
From Coq Require Import Permutation Sorted.
From Verif Require Import Base ContModel.
Local Open Scope Z_scope.

(** histories: [post s o s' r]: a call [o] in state [s] may lead to [s'] with result [r] *)
Inductive history {S O R} (post : S -> O -> S -> R -> Prop) : S -> list O -> S -> list R -> Prop :=
| hist_nil s : history post s [] s []
| hist_cons s o s1 r os s2 rs : post s o s1 r -> history post s1 os s2 rs ->
    history post s (o :: os) s2 (r :: rs).
(** what a program sees: either the whole history (and the final state represents
    the final abstract state), or it stops at an illegal call - with an error, or
    with undefined behaviour if the call is one of the unchecked ones *)
Definition refines {C S O R} (rep : C -> S -> Prop) (legal : S -> O -> Prop) (unchecked : O -> Prop)
    (post : S -> O -> S -> R -> Prop) (s : S) (os : list O) (result : outcome (C * list R)) : Prop :=
  let stops (kind : O -> Prop) := exists os1 o os2 s1 rs, os = os1 ++ o :: os2 /\
      history (fun s o s' r => legal s o /\ post s o s' r) s os1 s1 rs /\ ~ legal s1 o /\ kind o in
  match result with
  | Ok (c, rs) => exists s', rep c s' /\ history (fun s o s' r => legal s o /\ post s o s' r) s os s' rs
  | Err => stops (fun o => ~ unchecked o)
  | UB => stops unchecked
  | Fuel => False
  end.
Definition none {O} (o : O) : Prop := False.

(** strict weak / strict total orders *)
Definition weak_order {K} (lt : K -> K -> bool) : Prop :=
  (forall a, lt a a = false) /\ (forall a b c, lt a b = true -> lt b c = true -> lt a c = true) /\
  (forall a b c, lt a c = true -> lt a b = true \/ lt b c = true).
Definition same {K} (lt : K -> K -> bool) (a b : K) : bool := negb (lt a b) && negb (lt b a).
Definition total_order {K} (lt : K -> K -> bool) : Prop :=
  (forall a, lt a a = false) /\ (forall a b c, lt a b = true -> lt b c = true -> lt a c = true) /\
  (forall a b, a <> b -> lt a b = true \/ lt b a = true).

Section Sequences.
Context {T : Type}.
Definition vlegal (l : list T) (o : vop T) : Prop :=
  match o with
  | VGet i | VErase i | VSet i _ | VRefSet i _ => 0 <= i < Z.of_nat (length l)
  | VInsert i _ => 0 <= i <= Z.of_nat (length l)
  | VFirst | VLast | VPop => l <> []
  | _ => True
  end.
Definition vpost (l : list T) (o : vop T) (l' : list T) (r : result T) : Prop :=
  match o with
  | VGet i => l' = l /\ exists x, nth_error l (Z.to_nat i) = Some x /\ r = RVal x
  | VFirst => l' = l /\ exists x t, l = x :: t /\ r = RVal x
  | VLast => l' = l /\ exists x t, l = t ++ [x] /\ r = RVal x
  | VIsEmpty => l' = l /\ exists b, r = RBool b /\ (b = true <-> l = [])
  | VSize => l' = l /\ r = RInt (Z.of_nat (length l))
  | VClear => l' = [] /\ r = RNone
  | VInsert i x => r = RNone /\ exists a b, l = a ++ b /\ Z.of_nat (length a) = i /\ l' = a ++ x :: b
  | VErase i => r = RNone /\ exists a y b, l = a ++ y :: b /\ Z.of_nat (length a) = i /\ l' = a ++ b
  | VSet i x | VRefSet i x => r = RNone /\ exists a y b, l = a ++ y :: b /\ Z.of_nat (length a) = i /\ l' = a ++ x :: b
  | VPush x => l' = l ++ [x] /\ r = RNone
  | VPop => exists x, l = l' ++ [x] /\ r = RVal x
  end.
(** indices are ints *)
Definition vint (o : vop T) : Prop :=
  match o with
  | VGet i | VErase i | VSet i _ | VRefSet i _ | VInsert i _ => in_int32 i = true
  | _ => True
  end.

Definition llegal (l : list T) (o : lop T) : Prop :=
  match o with
  | LAt i | LErase i => 0 <= i < Z.of_nat (length l)
  | LInsert i _ => 0 <= i <= Z.of_nat (length l)
  | LFirst | LLast | LPop | LPopFront => l <> []
  | _ => True
  end.
(** the stable sort of a list *)
Definition stable_sort (lt : T -> T -> bool) (l l' : list T) : Prop :=
  Permutation l l' /\ StronglySorted (fun x y => lt y x = false) l' /\
  forall x, filter (same lt x) l' = filter (same lt x) l.
Definition lpost (lt : T -> T -> bool) (l : list T) (o : lop T) (l' : list T) (r : result T) : Prop :=
  match o with
  | LAt i => l' = l /\ exists x, nth_error l (Z.to_nat i) = Some x /\ r = RVal x
  | LFirst => l' = l /\ exists x t, l = x :: t /\ r = RVal x
  | LLast => l' = l /\ exists x t, l = t ++ [x] /\ r = RVal x
  | LIsEmpty => l' = l /\ exists b, r = RBool b /\ (b = true <-> l = [])
  | LSize => l' = l /\ r = RInt (Z.of_nat (length l))
  | LClear => l' = [] /\ r = RNone
  | LInsert i x => r = RNone /\ exists a b, l = a ++ b /\ Z.of_nat (length a) = i /\ l' = a ++ x :: b
  | LErase i => r = RNone /\ exists a y b, l = a ++ y :: b /\ Z.of_nat (length a) = i /\ l' = a ++ b
  | LPush x => l' = l ++ [x] /\ r = RNone
  | LPushFront x => l' = x :: l /\ r = RNone
  | LPop => exists x, l = l' ++ [x] /\ r = RVal x
  | LPopFront => exists x, l = x :: l' /\ r = RVal x
  | LReverse => r = RNone /\ length l' = length l /\
      forall i, (i < length l)%nat -> nth_error l' i = nth_error l (length l - 1 - i)
  | LSort => r = RNone /\ stable_sort lt l l'
  end.
Definition lint (o : lop T) : Prop :=
  match o with
  | LAt i | LErase i | LInsert i _ => in_int32 i = true
  | _ => True
  end.

(** lexicographic order *)
Definition lexicographic (lt : T -> T -> bool) (a b : list T) : Prop :=
  (exists y t, b = a ++ y :: t) \/
  (exists p x s y t, a = p ++ x :: s /\ b = p ++ y :: t /\ lt x y = true).

(** a stack is a sequence with its top at the end, a queue with its front at the start *)
Definition slegal (l : list T) (o : sop T) : Prop := match o with SPop | STop => l <> [] | _ => True end.
Definition spost (l : list T) (o : sop T) (l' : list T) (r : result T) : Prop :=
  match o with
  | SPush x => l' = l ++ [x] /\ r = RNone
  | SPop => exists x, l = l' ++ [x] /\ r = RVal x
  | STop => l' = l /\ exists t x, l = t ++ [x] /\ r = RVal x
  | SSize => l' = l /\ r = RInt (Z.of_nat (length l))
  | SIsEmpty => l' = l /\ exists b, r = RBool b /\ (b = true <-> l = [])
  | SClear => l' = [] /\ r = RNone
  end.
Definition qlegal (l : list T) (o : qop T) : Prop := match o with QDequeue | QFirst | QLast => l <> [] | _ => True end.
Definition qunchecked (o : qop T) : Prop := match o with QFirst | QLast => True | _ => False end.
Definition qpost (l : list T) (o : qop T) (l' : list T) (r : result T) : Prop :=
  match o with
  | QEnqueue x => l' = l ++ [x] /\ r = RNone
  | QDequeue => exists x, l = x :: l' /\ r = RVal x
  | QFirst => l' = l /\ exists x t, l = x :: t /\ r = RVal x
  | QLast => l' = l /\ exists t x, l = t ++ [x] /\ r = RVal x
  | QSize => l' = l /\ r = RInt (Z.of_nat (length l))
  | QIsEmpty => l' = l /\ exists b, r = RBool b /\ (b = true <-> l = [])
  | QClear => l' = [] /\ r = RNone
  end.
(** stack programs that pop exactly what they push *)
Inductive balanced : list (sop T) -> Prop :=
| bal_nil : balanced []
| bal_size os : balanced os -> balanced (SSize :: os)
| bal_empty os : balanced os -> balanced (SIsEmpty :: os)
| bal_push x os1 os2 : balanced os1 -> balanced os2 -> balanced (SPush x :: os1 ++ SPop :: os2).
(** the values enqueued and dequeued by a queue history *)
Definition enqueued (os : list (qop T)) : list T :=
  flat_map (fun o => match o with QEnqueue x => [x] | _ => [] end) os.
Fixpoint dequeued (os : list (qop T)) (rs : list (result T)) : list T :=
  match os, rs with
  | QDequeue :: os, RVal x :: rs => x :: dequeued os rs
  | _ :: os, _ :: rs => dequeued os rs
  | _, _ => []
  end.
End Sequences.

(** what a history did last to a key; the history is given latest call first.
    An abstract state is such a past. *)
Section Maps.
Context {K V : Type} (lt : K -> K -> bool) (default : V).
(** the number of classes of keys satisfying [P] *)
Definition card (P : K -> Prop) (n : nat) : Prop :=
  exists ks, length ks = n /\ ForallOrdPairs (fun a b => same lt a b = false) ks /\
      forall k, P k <-> exists k', In k' ks /\ same lt k' k = true.

Fixpoint map_value (past : list (mop K V)) (k : K) : option V :=
  match past with
  | [] => None
  | MSet k' v :: past => if same lt k' k then Some v else map_value past k
  | MIndex k' :: past =>
      match map_value past k with
      | Some v => Some v
      | None => if same lt k' k then Some default else None
      end
  | MErase k' :: past => if same lt k' k then None else map_value past k
  | MClear :: _ => None
  | _ :: past => map_value past k
  end.
Definition map_legal (past : list (mop K V)) (o : mop K V) : Prop :=
  match o with MGet k => map_value past k <> None | _ => True end.
Definition map_post (past : list (mop K V)) (o : mop K V) (past' : list (mop K V)) (r : result V) : Prop :=
  past' = o :: past /\
      match o with
  | MGet k => exists v, map_value past k = Some v /\ r = RVal v
  | MIndex k => r = RVal (match map_value past k with Some v => v | None => default end)
  | MContains k => exists b, r = RBool b /\ (b = true <-> map_value past k <> None)
  | MSize => exists n, r = RInt (Z.of_nat n) /\ card (fun k => map_value past k <> None) n
  | _ => r = RNone
  end.
(** iteration goes through the entries in strictly increasing order of keys *)
Definition map_rep (m : list (K * V)) (past : list (mop K V)) : Prop :=
  StronglySorted (fun a b => lt (fst a) (fst b) = true) m /\
      forall k v, map_value past k = Some v <-> exists k', In (k', v) m /\ same lt k' k = true.

Fixpoint set_member (past : list (setop K)) (k : K) : bool :=
  match past with
  | [] => false
  | TInsert k' :: past => same lt k' k || set_member past k
  | TErase k' :: past => negb (same lt k' k) && set_member past k
  | TClear :: _ => false
  | _ :: past => set_member past k
  end.
Definition set_post (past : list (setop K)) (o : setop K) (past' : list (setop K)) (r : result K) : Prop :=
  past' = o :: past /\
      match o with
  | TContains k => r = RBool (set_member past k)
  | TSize => exists n, r = RInt (Z.of_nat n) /\ card (fun k => set_member past k = true) n
  | _ => r = RNone
  end.
Definition set_rep (s : list K) (past : list (setop K)) : Prop :=
  StronglySorted (fun a b => lt a b = true) s /\
      forall k, set_member past k = true <-> exists k', In k' s /\ same lt k' k = true.

Fixpoint multiplicity (past : list (msop K)) (k : K) : nat :=
  match past with
  | [] => 0
  | MSInsert k' :: past => (if same lt k' k then 1 else 0) + multiplicity past k
  | MSErase k' :: past => if same lt k' k then 0 else multiplicity past k
  | MSClear :: _ => 0
  | _ :: past => multiplicity past k
  end.
Fixpoint total (past : list (msop K)) : nat :=
  match past with
  | [] => 0
  | MSInsert k' :: past => 1 + total past
  | MSErase k' :: past => total past - multiplicity past k'
  | MSClear :: _ => 0
  | _ :: past => total past
  end.
Definition ms_legal (past : list (msop K)) (o : msop K) : Prop :=
  match o with MSErase k => multiplicity past k <> 0%nat | _ => True end.
Definition ms_post (past : list (msop K)) (o : msop K) (past' : list (msop K)) (r : result K) : Prop :=
  past' = o :: past /\
      match o with
  | MSContains k => exists b, r = RBool b /\ (b = true <-> multiplicity past k <> 0%nat)
  | MSCount k => r = RInt (Z.of_nat (multiplicity past k))
  | MSSize => r = RInt (Z.of_nat (total past))
  | _ => r = RNone
  end.
Definition ms_rep (s : list K) (past : list (msop K)) : Prop :=
  StronglySorted (fun a b => lt b a = false) s /\
  (forall k, length (filter (same lt k) s) = multiplicity past k) /\ length s = total past.
End Maps.
