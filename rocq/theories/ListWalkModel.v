(** Model of a range-based for loop over a List (begin, end, operator*, operator++:
    src/include/containers/List.h:206-223) whose body calls functions of the List and writes to the
    element through the loop variable.  As in ListRefModel an element is a node with an identity,
    an iterator is the identity or the end, and using one whose node is gone is [UB]. *)
From Verif Require Import Base ContModel ListRefModel WalkModel.
Local Open Scope Z_scope.

Section ListWalk.
Context {A : Type} (lt : A -> A -> bool).
(** the nodes and the identity of the next one; List.h:226 *)
Record chain := Chain { links : list (node A); unused : nat }.
(** what the body does: a call (List.h:265-377), or [e = x] with the loop variable [auto& e] *)
Inductive lact := LDo (o : lop A) | LPut (x : A).
(** one action while the loop stands at the node [id]; the results are not modelled, the body may
    know them all the same (see [for_list]); List.h:265-377 *)
Definition act (id : nat) (st : chain) (a : lact) : outcome chain :=
  match a with
  | LDo o => ' (l, _) <- list_step (lt_node lt) (links st) (tag (unused st) o) ;; Ok (Chain l (S (unused st)))
  | LPut x => _ <- deref id (links st) ;; Ok (Chain (overwrite id x (links st)) (unused st))
  end.
(** a sequence of actions; List.h:265-377 *)
Fixpoint acts (id : nat) (st : chain) (os : list lact) : outcome chain :=
  match os with
  | [] => Ok st
  | o :: os => st <- act id st o ;; acts id st os
  end.
(** the loop [for (auto& e : l) { ... }] from begin() to end() (List.h:208, 218).  [body vs]: what
    the body does when [vs] are the values seen so far, the present one last, and whether it goes
    on.  As the contents depend on [vs] and the initial contents only, this is every body *)
Context (body : list A -> list lact * bool).
Fixpoint list_loop (fuel : nat) (st : chain) (it : option nat) (vs : list A) : outcome (chain * list A) :=
  match it with
  | None => Ok (st, vs)
  | Some id =>
      match fuel with
      | O => Fuel
      | S fuel =>
          e <- deref id (links st) ;;
          st <- acts id st (fst (body (vs ++ [e]))) ;;
          if snd (body (vs ++ [e])) then it <- after id (links st) ;; list_loop fuel st it (vs ++ [e])
          else Ok (st, vs ++ [e])
      end
  end.
(** the whole loop over a List with the elements [l]; List.h:208, 218 *)
Definition for_list (fuel : nat) (l : list A) : outcome (chain * list A) :=
  list_loop fuel (Chain (number O l) (length l)) (head (number O l)) [].
End ListWalk.
Arguments chain A : clear implicits.
Arguments lact A : clear implicits.
