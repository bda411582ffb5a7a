(** Specification of loops over Lists: the loop is a position, which every call moves to where it
    takes the element there. *)
From Verif Require Import Base ContModel ContSpec ListRefModel ListRefSpec ListWalkModel.
Local Open Scope Z_scope.

Section Spec.
Context {A : Type} (lt : A -> A -> bool).
(** the contents, as a client that has no references sees them (C63), and the position, if any *)
Fixpoint edits (l : list A) (q : option nat) (os : list (lact A)) : outcome (list A * option nat) :=
  match os with
  | [] => Ok (l, q)
  | LDo o :: os =>
      ' (l', _) <- list_step lt l o ;;
      edits l' (match q with Some i => goes lt l o i | None => None end) os
  | LPut x :: os =>
      match q with
      | Some i => edits (firstn i l ++ x :: skipn (S i) l) q os
      | None => UB
      end
  end.
Context (body : list A -> list (lact A) * bool).
Fixpoint tour (fuel : nat) (l : list A) (i : nat) (vs : list A) : outcome (list A * list A) :=
  match nth_error l i with
  | None => Ok (l, vs)
  | Some e =>
      match fuel with
      | O => Fuel
      | S fuel =>
          ' (l', q) <- edits l (Some i) (fst (body (vs ++ [e]))) ;;
          if snd (body (vs ++ [e])) then match q with Some j => tour fuel l' (S j) (vs ++ [e]) | None => UB end
          else Ok (l', vs ++ [e])
      end
  end.
(** indices are ints *)
Definition int_indices : Prop := forall vs o, In (LDo o) (fst (body vs)) -> lint o.
(** actions that neither remove nor reorder *)
Definition keeps (a : lact A) : bool :=
  match a with LDo (LErase _) | LDo LPop | LDo LPopFront | LDo LClear | LDo LReverse | LDo LSort => false | _ => true end.
End Spec.
(** the elements of the first list occur in the second one in this order *)
Inductive within {A} : list A -> list A -> Prop :=
| within_nil l : within [] l
| within_take x a l : within a l -> within (x :: a) (x :: l)
| within_skip x a l : within a l -> within a (x :: l).
