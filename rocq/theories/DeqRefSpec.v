(** Specification of references into Stacks and Queues: a reference is a container with a position,
    and the calls are those of a stack or queue of plain values. *)
From Verif Require Import Base ContModel ListRefModel ListRefSpec DeqRefModel.
Local Open Scope Z_scope.

Section Spec.
Context {A : Type} (queue : bool).

Definition put_side (s : bool) (l : list A) (ps : list (option (bool * nat))) (p : plain A) : plain A :=
  if s then Plain (fst_list p) l ps else Plain l (snd_list p) ps.
(** the positions in one container change *)
Definition moved (s : bool) (f : nat -> option nat) (t : bool) (i : nat) : option (bool * nat) :=
  if Bool.eqb s t then match f i with Some j => Some (s, j) | None => None end else Some (t, i).
Definition lose (s : bool) (p : plain A) : list (option (bool * nat)) := onward (moved s (fun _ => None)) (places p).
(** what a reference refers to *)
Definition target (p : plain A) (h : nat) : option (bool * nat * A) :=
  match nth_error (places p) h with
  | Some (Some (s, i)) => match nth_error (pick s p) i with Some x => Some (s, i, x) | None => None end
  | _ => None
  end.
(** sizes beyond the ints are not specified ([Fuel]) *)
Definition fits (l : list A) : bool := Z.of_nat (length l) <=? int32_max.
Definition pstep (p : plain A) (o : dop A) : outcome (plain A * result A) :=
  match o with
  | Push s x => Ok (put_side s (pick s p ++ [x]) (places p) p, RNone)
  | PushRef s h =>
      match target p h with
      | Some (_, x) => Ok (put_side s (pick s p ++ [x]) (places p) p, RNone)
      | None => UB
      end
  | Pop s =>
      if queue then
        match pick s p with
        | [] => Err
        | x :: l => Ok (put_side s l (onward (moved s (fun i => match i with O => None | S i => Some i end)) (places p)) p, RVal x)
        end
      else
        match rev (pick s p) with
        | [] => Err
        | x :: l => Ok (put_side s (rev l) (onward (moved s (fun i => if Nat.eqb i (length l) then None else Some i)) (places p)) p, RVal x)
        end
  | Clear s => if fits (pick s p) then Ok (put_side s [] (lose s p) p, RNone) else Fuel
  | Size s => if fits (pick s p) then Ok (p, RInt (Z.of_nat (length (pick s p)))) else Fuel
  | Take s back =>
      match pick s p with
      | [] => if queue then UB else Err
      | _ => Ok (Plain (fst_list p) (snd_list p) (places p ++ [Some (s, if queue && negb back then O else (length (pick s p) - 1)%nat)]), RNone)
      end
  | Assign s => Ok (put_side s (pick (negb s) p) (lose s p) p, RNone)
  | See h => match target p h with Some (_, x) => Ok (p, RVal x) | None => UB end
  | Put h x =>
      match target p h with
      | Some (s, i, _) => Ok (put_side s (firstn i (pick s p) ++ x :: skipn (S i) (pick s p)) (places p) p, RNone)
      | None => UB
      end
  end.
Fixpoint prun (p : plain A) (os : list (dop A)) : outcome (plain A * list (result A)) :=
  match os with
  | [] => Ok (p, [])
  | o :: os => ' (p, r) <- pstep p o ;; ' (p, rs) <- prun p os ;; Ok (p, r :: rs)
  end.
(** all elements of a container are replaced *)
Definition replaces (s : bool) (o : dop A) : bool :=
  match o with Clear t | Assign t => Bool.eqb s t | _ => false end.
(** the container never has [n] elements or fewer, and is not assigned to *)
Fixpoint above (s : bool) (n : nat) (p : plain A) (os : list (dop A)) : bool :=
  match os with
  | [] => true
  | o :: os =>
      match pstep p o with
      | Ok (p, _) => Nat.ltb n (length (pick s p)) && negb (match o with Assign t => Bool.eqb s t | _ => false end) && above s n p os
      | _ => true
      end
  end.
(** how often elements are removed one by one *)
Definition pops (s : bool) (os : list (dop A)) : nat :=
  length (filter (fun o : dop A => match o with Pop t => Bool.eqb s t | _ => false end) os).
(** elements are removed *)
Definition shrinks (s : bool) (o : dop A) : bool := match o with Pop t => Bool.eqb s t | _ => replaces s o end.
(** references are used, and no container *)
Definition only_refs (o : dop A) : bool := match o with See _ | Put _ _ => true | _ => false end.
End Spec.
