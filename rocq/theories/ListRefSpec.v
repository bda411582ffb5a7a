(** Specification of references into Lists: a reference is a List with a position, and every call
    says where the element at a position goes. *)
From Coq Require Import Permutation Sorted.
From Verif Require Import Base ContModel ContSpec ListRefModel.
Local Open Scope Z_scope.

Section Spec.
Context {A : Type} (lt : A -> A -> bool).

(** how many elements a stable sort puts in front of the one at position [i] *)
Definition before (l : list A) (i : nat) : nat :=
  match nth_error l i with
  | Some x => (length (filter (fun y => lt y x) l) + length (filter (same lt x) (firstn i l)))%nat
  | None => i
  end.
(** where a call takes the element at position [i]; nothing if the element is removed *)
Definition goes (l : list A) (o : lop A) (i : nat) : option nat :=
  match o with
  | LInsert j _ => Some (if Z.of_nat i <? j then i else S i)
  | LErase j => if Z.of_nat i =? j then None else Some (if Z.of_nat i <? j then i else (i - 1)%nat)
  | LPushFront _ => Some (S i)
  | LPop => if Nat.eqb (S i) (length l) then None else Some i
  | LPopFront => match i with O => None | S i => Some i end
  | LClear => None
  | LReverse => Some (length l - 1 - i)%nat
  | LSort => Some (before l i)
  | _ => Some i
  end.
(** the contents of the two Lists, and for each reference its List and position, if any *)
Record plain := Plain { fst_list : list A; snd_list : list A; places : list (option (bool * nat)) }.
Definition pick (s : bool) (p : plain) : list A := if s then snd_list p else fst_list p.
Definition onward (f : bool -> nat -> option (bool * nat)) (ps : list (option (bool * nat))) : list (option (bool * nat)) :=
  map (fun o => match o with Some (s, i) => f s i | None => None end) ps.
Definition by_call (s : bool) (l : list A) (o : lop A) (t : bool) (i : nat) : option (bool * nat) :=
  if Bool.eqb s t then match goes l o i with Some j => Some (s, j) | None => None end else Some (t, i).
(** merging is sorting one list followed by the other *)
Definition by_merge (s : bool) (a b : list A) (t : bool) (i : nat) : option (bool * nat) :=
  Some (s, before (a ++ b) (if Bool.eqb s t then i else length a + i)%nat).

Definition flegal (p : plain) (o : fop A) : Prop :=
  match o with
  | Do s o => llegal (pick s p) o
  | TakeAt s i => 0 <= i < Z.of_nat (length (pick s p))
  | TakeFirst s | TakeLast s => pick s p <> []
  | Merge s => StronglySorted (fun x y => lt y x = false) (fst_list p) /\ StronglySorted (fun x y => lt y x = false) (snd_list p)
  | See h | Put h _ => exists q, nth_error (places p) h = Some (Some q)
  end.
(** these calls check nothing *)
Definition loose (o : fop A) : Prop := match o with Merge _ | See _ | Put _ _ => True | _ => False end.
Definition fpost (p : plain) (o : fop A) (p' : plain) (r : result A) : Prop :=
  match o with
  | Do s o =>
      lpost lt (pick s p) o (pick s p') r /\ pick (negb s) p' = pick (negb s) p /\
      places p' = onward (by_call s (pick s p) o) (places p)
  | TakeAt s i => r = RNone /\ p' = Plain (fst_list p) (snd_list p) (places p ++ [Some (s, Z.to_nat i)])
  | TakeFirst s => r = RNone /\ p' = Plain (fst_list p) (snd_list p) (places p ++ [Some (s, O)])
  | TakeLast s => r = RNone /\ p' = Plain (fst_list p) (snd_list p) (places p ++ [Some (s, (length (pick s p) - 1)%nat)])
  | Merge s =>
      r = RNone /\ stable_sort lt (pick s p ++ pick (negb s) p) (pick s p') /\ pick (negb s) p' = [] /\
      places p' = onward (by_merge s (pick s p) (pick (negb s) p)) (places p)
  | See h => p' = p /\ exists s i x, nth_error (places p) h = Some (Some (s, i)) /\ nth_error (pick s p) i = Some x /\ r = RVal x
  | Put h x =>
      r = RNone /\ places p' = places p /\ exists s i a y b, nth_error (places p) h = Some (Some (s, i)) /\
      pick s p = a ++ y :: b /\ length a = i /\ pick s p' = a ++ x :: b /\ pick (negb s) p' = pick (negb s) p
  end.
(** indices are ints *)
Definition fint (o : fop A) : Prop :=
  match o with
  | Do _ o => lint o
  | TakeAt _ i => in_int32 i = true
  | _ => True
  end.
(** calls that remove elements, and the number of references a program takes *)
Definition removes (o : fop A) : bool :=
  match o with Do _ (LErase _) | Do _ LPop | Do _ LPopFront | Do _ LClear => true | _ => false end.
Definition takes (o : fop A) : nat := match o with TakeAt _ _ | TakeFirst _ | TakeLast _ => 1 | _ => 0 end.
Fixpoint taken (os : list (fop A)) : nat := match os with [] => O | o :: os => (takes o + taken os)%nat end.
(** every reference that is used has been taken before, and nothing is merged *)
Fixpoint uses_own (n : nat) (os : list (fop A)) : bool :=
  match os with
  | [] => true
  | o :: os => match o with See h | Put h _ => Nat.ltb h n | Merge _ => false | _ => true end && uses_own (n + takes o) os
  end.
(** what the store holds *)
Definition holds (st : store A) (p : plain) : Prop :=
  map snd (one st) = fst_list p /\ map snd (two st) = snd_list p /\ length (held st) = length (places p).
End Spec.
Arguments plain A : clear implicits.
