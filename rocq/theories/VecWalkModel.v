(** Model of a range-based for loop over a Vector (begin, end: src/include/containers/Vector.h:195-210)
    whose body calls functions of the Vector and writes to the element through the loop variable.
    The functions are those of ContModel; which iterators survive a call is what the standard says
    about std::vector.  Using or comparing one that did not is [UB]. *)
From Verif Require Import Base ContModel.
Local Open Scope Z_scope.

Section VecWalk.
Context {A : Type}.
(** the choice of the standard library: the room to spare when a buffer of capacity [c] is
    replaced because [n] elements are needed (std; called at Vector.h:314, 333) *)
Context (spare : nat -> nat -> nat).
(** the elements and the capacity of their buffer (vec, Vector.h:213), the iterator of the loop and
    its end() (Vector.h:195, 205) as positions, or none if they are invalid *)
Record vstate := VState { cells : list A; cap : nat; here : option nat; past : option nat }.
(** what the body does: a call (Vector.h:243-342), or [e = x] with the loop variable [auto& e] *)
Inductive vact := VDo (o : vop A) | VPut (x : A).

(** std: an iterator stays valid if its position is selected *)
Definition stay (p : nat -> bool) (q : option nat) : option nat :=
  match q with Some i => if p i then Some i else None | None => None end.
(** the iterators after a call on [n] elements.  push_back and insert: none survives a new buffer,
    otherwise those before the new element; erase and pop_back: those before the element removed;
    clear: none.  end() is behind all of these.  Vector.h:301-342 *)
Definition survive (st : vstate) (o : vop A) (q : option nat) : option nat :=
  let n := length (cells st) in
  match o with
  | VPush _ => if Nat.leb (n + 1) (cap st) then stay (fun i => Nat.ltb i n) q else None
  | VInsert j _ => if Nat.leb (n + 1) (cap st) then stay (fun i => Z.of_nat i <? j) q else None
  | VErase j => stay (fun i => Z.of_nat i <? j) q
  | VPop => stay (fun i => Nat.ltb (i + 1) n) q
  | VClear => None
  | _ => q
  end.
(** the capacity after a call; Vector.h:314, 333 *)
Definition room_after (st : vstate) (o : vop A) : nat :=
  let n := length (cells st) in
  match o with
  | VPush _ | VInsert _ _ => if Nat.leb (n + 1) (cap st) then cap st else (n + 1 + spare (cap st) (n + 1))%nat
  | _ => cap st
  end.
(** one action of the body; the results are not modelled, the body may know them all the same (see
    [for_vector]); Vector.h:243-342 *)
Definition vdo (st : vstate) (a : vact) : outcome vstate :=
  match a with
  | VDo o =>
      ' (l, _) <- vec_step (cells st) o ;;
      Ok (VState l (room_after st o) (survive st o (here st)) (survive st o (past st)))
  | VPut x =>
      match here st with
      | Some i => l <- aset (cells st) (Z.of_nat i) x ;; Ok (VState l (cap st) (here st) (past st))
      | None => UB
      end
  end.
(** a sequence of actions; Vector.h:243-342 *)
Fixpoint vdos (st : vstate) (os : list vact) : outcome vstate :=
  match os with
  | [] => Ok st
  | o :: os => st <- vdo st o ;; vdos st os
  end.
(** the loop [for (auto& e : v) { ... }]: both iterators are taken once, before the loop (Vector.h:195,
    205).  [body vs]: what the body does when [vs] are the values seen so far, the present one last,
    and whether it goes on.  As the contents depend on [vs] and the initial contents only, this is
    every body *)
Context (body : list A -> list vact * bool).
Fixpoint vec_loop (fuel : nat) (st : vstate) (vs : list A) : outcome (vstate * list A) :=
  match here st, past st with
  | Some i, Some n =>
      if Nat.eqb i n then Ok (st, vs)
      else
        match fuel with
        | O => Fuel
        | S fuel =>
            e <- aget (cells st) (Z.of_nat i) ;;
            st <- vdos st (fst (body (vs ++ [e]))) ;;
            if snd (body (vs ++ [e])) then
              match here st with
              | Some j => vec_loop fuel (VState (cells st) (cap st) (Some (S j)) (past st)) (vs ++ [e])
              | None => UB
              end
            else Ok (st, vs ++ [e])
        end
  | _, _ => UB
  end.
(** the whole loop over a Vector with the elements [l] and [c] cells to spare; Vector.h:195, 205 *)
Definition for_vector (fuel : nat) (l : list A) (c : nat) : outcome (vstate * list A) :=
  vec_loop fuel (VState l (length l + c) (Some O) (Some (length l))) [].
End VecWalk.
Arguments vstate A : clear implicits.
Arguments vact A : clear implicits.
