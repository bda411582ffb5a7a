(** Specification of loops over Vectors: the loop is an index that runs from 0 to the size there was
    at the start; there are no iterators and no buffer. *)
From Verif Require Import Base ContModel ContSpec VecWalkModel.
Local Open Scope Z_scope.

Section Spec.
Context {A : Type}.
(** the calls that change the size *)
Definition resizes (o : vop A) : bool :=
  match o with VPush _ | VInsert _ _ | VErase _ | VPop | VClear => true | _ => false end.
Definition resizing (a : vact A) : bool := match a with VDo o => resizes o | VPut _ => false end.
(** the calls that change nothing *)
Definition reads (o : vop A) : bool :=
  match o with VGet _ | VFirst | VLast | VIsEmpty | VSize => true | _ => false end.
(** the actions that change nothing but the present element *)
Definition quiet (a : vact A) : bool := match a with VDo o => reads o | VPut _ => true end.
Definition within_size (l : list A) (i : Z) : bool := (0 <=? i) && (i <? Z.of_nat (length l)).
Definition put_at (l : list A) (i : nat) (x : A) : list A := firstn i l ++ x :: skipn (S i) l.
(** the contents after a call, none if the call ends the program with an error *)
Definition edited (l : list A) (o : vop A) : option (list A) :=
  match o with
  | VGet i => if within_size l i then Some l else None
  | VFirst | VLast => match l with [] => None | _ => Some l end
  | VIsEmpty | VSize => Some l
  | VClear => Some []
  | VInsert i x => if (0 <=? i) && (i <=? Z.of_nat (length l)) then Some (firstn (Z.to_nat i) l ++ x :: skipn (Z.to_nat i) l) else None
  | VErase i => if within_size l i then Some (firstn (Z.to_nat i) l ++ skipn (S (Z.to_nat i)) l) else None
  | VSet i x | VRefSet i x => if within_size l i then Some (put_at l (Z.to_nat i) x) else None
  | VPush x => Some (l ++ [x])
  | VPop => match rev l with [] => None | _ :: t => Some (rev t) end
  end.
(** one round at index [i]; [r]: the size has been changed *)
Fixpoint round (i : nat) (l : list A) (r : bool) (os : list (vact A)) : outcome (list A * bool) :=
  match os with
  | [] => Ok (l, r)
  | VDo o :: os => match edited l o with Some l => round i l (r || resizes o) os | None => Err end
  | VPut x :: os => if r then UB else round i (put_at l i x) r os
  end.
Context (body : list A -> list (vact A) * bool).
Fixpoint sweep (fuel n i : nat) (l vs : list A) : outcome (list A * list A) :=
  if Nat.eqb i n then Ok (l, vs)
  else
    match fuel, nth_error l i with
    | O, _ => Fuel
    | S fuel, Some e =>
        ' (l, r) <- round i l false (fst (body (vs ++ [e]))) ;;
        if snd (body (vs ++ [e])) then if r then UB else sweep fuel n (S i) l (vs ++ [e]) else Ok (l, vs ++ [e])
    | S _, None => UB
    end.
(** indices are ints *)
Definition int_calls : Prop := forall vs o, In (VDo o) (fst (body vs)) -> vint o.
(** no write through the loop variable once the size has been changed in the same round *)
Fixpoint tidy (r : bool) (os : list (vact A)) : bool :=
  match os with
  | [] => true
  | VDo o :: os => tidy (r || resizes o) os
  | VPut _ :: os => negb r && tidy r os
  end.
(** the last value written through the loop variable *)
Definition last_put (os : list (vact A)) (e : A) : A :=
  fold_left (fun e a => match a with VPut x => x | VDo _ => e end) os e.
(** the first [k] elements replaced by what the body last wrote to them *)
Fixpoint rewritten (vs l : list A) (k : nat) : list A :=
  match k, l with
  | S k, e :: l => last_put (fst (body (vs ++ [e]))) e :: rewritten (vs ++ [e]) l k
  | _, _ => l
  end.
End Spec.
