(** Specification of loops over ordered containers: a container is a sorted list, the loop is a
    position in it. *)
From Coq Require Import Permutation Sorted.
From Verif Require Import Base ContModel ContSpec WalkModel.
Local Open Scope Z_scope.

Section Spec.
Context {E K : Type} (key : E -> K) (lt : K -> K -> bool) (multi : bool).
(** the contents after a call *)
Definition has_key (k : K) (l : list E) : bool := existsb (fun x => same lt k (key x)) l.
Definition change (l : list E) (o : tcall E K) : outcome (list E) :=
  match o with
  | TIns e =>
      if negb multi && has_key (key e) l then Ok l
      else Ok (filter (fun x => negb (lt (key e) (key x))) l ++ e :: filter (fun x => lt (key e) (key x)) l)
  | TDel k => if multi && negb (has_key k l) then Err else Ok (filter (fun x => negb (same lt k (key x))) l)
  | TWipe => Ok []
  end.
Fixpoint changes (l : list E) (os : list (tcall E K)) : outcome (list E) :=
  match os with
  | [] => Ok l
  | o :: os => l <- change l o ;; changes l os
  end.
(** the call removes the elements with key [k] *)
Definition removes (k : K) (o : tcall E K) : bool :=
  match o with TIns _ => false | TDel q => same lt q k | TWipe => true end.
(** the number of smaller elements *)
Definition smaller (k : K) (l : list E) : nat := length (filter (fun x => lt (key x) k) l).
(** the loop at position [i]: the present element keeps its place among the equal ones, and is
    followed by the next element of the present contents *)
Context (body : list E -> list (tcall E K) * bool).
Fixpoint sweep (fuel : nat) (l : list E) (i : nat) (vs : list E) : outcome (list E * list E) :=
  match nth_error l i with
  | None => Ok (l, vs)
  | Some e =>
      match fuel with
      | O => Fuel
      | S fuel =>
          let vs := vs ++ [e] in
          l' <- changes l (fst (body vs)) ;;
          if negb (snd (body vs)) then Ok (l', vs)
          else if existsb (removes (key e)) (fst (body vs)) then UB
          else sweep fuel l' (smaller (key e) l' + (i - smaller (key e) l) + 1) vs
      end
  end.
Definition contents (st : tree E) : list E := map snd (nodes st).
(** a container as the program has made it *)
Definition made (st : tree E) : Prop := exists os, tcalls key lt multi (Tree [] O) os = Ok st.
(** the calls made by the body for the elements [vs] *)
Definition issued (vs : list E) : list (tcall E K) :=
  flat_map (fun n => fst (body (firstn n vs))) (seq 1 (length vs)).
(** insertion of [e] does not add an element in front of the loop, that stands at [x] *)
Definition backward (x e : E) : Prop := if multi then lt (key e) (key x) = true else lt (key x) (key e) = false.
End Spec.
