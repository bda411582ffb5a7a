(** Specification of references into a Vector: what a program means if every reference simply
    is a position, and when a reference is safe whatever the capacity of the buffer. *)
From Verif Require Import Base RefModel.
Local Open Scope Z_scope.

Section Spec.
Context {A : Type}.
Definition inside (l : list A) (i : Z) : bool := (0 <=? i) && (i <? Z.of_nat (length l)).
Definition taken (l : list A) (ps : list nat) (a : arg A) : option A :=
  match a with
  | Val x => Some x
  | Elem h => match nth_error ps h with Some i => nth_error l i | None => None end
  end.
Definition replaced (l : list A) (i : nat) (x : A) : list A := firstn i l ++ x :: skipn (S i) l.
(** one call on the contents and the positions referred to *)
Definition plain (l : list A) (ps : list nat) (o : rop A) : option (list A * list nat * option A) :=
  match o with
  | Push a => match taken l ps a with Some x => Some (l ++ [x], ps, None) | None => None end
  | Insert i a =>
      match taken l ps a with
      | Some x => if (0 <=? i) && (i <=? Z.of_nat (length l)) then Some (firstn (Z.to_nat i) l ++ x :: skipn (Z.to_nat i) l, ps, None) else None
      | None => None
      end
  | Erase i => if inside l i then Some (firstn (Z.to_nat i) l ++ skipn (S (Z.to_nat i)) l, ps, None) else None
  | Set_ i a => match taken l ps a with Some x => if inside l i then Some (replaced l (Z.to_nat i) x, ps, None) else None | None => None end
  | Pop => match rev l with x :: t => Some (rev t, ps, Some x) | [] => None end
  | Clear => Some ([], ps, None)
  | Assign l => Some (l, ps, None)
  | Ref i => if inside l i then Some (l, ps ++ [Z.to_nat i], None) else None
  | RefFirst => match l with [] => None | _ => Some (l, ps ++ [O], None) end
  | RefLast => match l with [] => None | _ => Some (l, ps ++ [(length l - 1)%nat], None) end
  | Read h => match taken l ps (Elem h) with Some x => Some (l, ps, Some x) | None => None end
  | Write h a =>
      match taken l ps a, nth_error ps h with
      | Some x, Some i => if Nat.ltb i (length l) then Some (replaced l i x, ps, None) else None
      | _, _ => None
      end
  end.
Fixpoint plainly (l : list A) (ps : list nat) (os : list (rop A)) : option (list A * list nat * list (option A)) :=
  match os with
  | [] => Some (l, ps, [])
  | o :: os =>
      match plain l ps o with
      | Some (l, ps, r) => match plainly l ps os with Some (l, ps, rs) => Some (l, ps, r :: rs) | None => None end
      | None => None
      end
  end.
(** the greatest number of elements during a history *)
Fixpoint peak (l : list A) (ps : list nat) (os : list (rop A)) : nat :=
  Nat.max (length l) (match os with
                      | [] => O
                      | o :: os => match plain l ps o with Some (l, ps, _) => peak l ps os | None => O end
                      end).
(** a call on [n] elements that leaves a reference to position [i] alone, if there never were
    more than [p] elements before the reference was taken *)
Definition safe (p i n : nat) (o : rop A) : bool :=
  match o with
  | Push _ => Nat.ltb n p
  | Insert j _ => Nat.ltb n p && (Z.of_nat i <? j)
  | Erase j => Z.of_nat i <? j
  | Pop => Nat.ltb (S i) n
  | Clear | Assign _ => false
  | _ => true
  end.
Fixpoint calm (p i : nat) (l : list A) (ps : list nat) (os : list (rop A)) : bool :=
  match os with
  | [] => true
  | o :: os => safe p i (length l) o && match plain l ps o with Some (l, ps, _) => calm p i l ps os | None => true end
  end.
(** the position of the element a call makes a reference to *)
Definition refers (l : list A) (o : rop A) : option nat :=
  match o with
  | Ref i => Some (Z.to_nat i)
  | RefFirst => Some O
  | RefLast => Some (length l - 1)%nat
  | _ => None
  end.
(** the calls that use no reference taken before *)
Definition valued (a : arg A) : bool := match a with Val _ => true | Elem _ => false end.
Definition unused (o : rop A) : bool :=
  match o with
  | Push a | Insert _ a | Set_ _ a => valued a
  | Read _ | Write _ _ => false
  | _ => true
  end.
(** indices are ints *)
Definition int_index (o : rop A) : Prop :=
  match o with
  | Insert i _ | Erase i | Set_ i _ | Ref i => in_int32 i = true
  | _ => True
  end.
End Spec.
