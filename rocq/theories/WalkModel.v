(** Model of a range-based for loop over a Set, MultiSet or Map (begin, end, operator*, operator++:
    src/include/containers/Set.h:76-97, MultiSet.h:82-103, Map.h:109-124) whose body inserts into
    and erases from the container being traversed.  An iterator of a std::set, multiset or map is a
    node: the tree functions of ContModel run on entries that carry the identity of their node, an
    iterator is the identity or the end, and moving one whose node is gone is [UB]. *)
From Verif Require Import Base ContModel.
Local Open Scope Z_scope.

Section Walk.
(** entries with their keys; [multi]: MultiSet.h, otherwise Set.h or Map.h *)
Context {E K : Type} (key : E -> K) (lt : K -> K -> bool) (multi : bool).

(** the nodes in key order and the identity of the next one; Set.h:148, MultiSet.h:154, Map.h:175 *)
Record tree := Tree { nodes : list (nat * E); fresh : nat }.
(** calls: insert (Set.h:187-190, MultiSet.h:193-196; for a Map a new key by set or operator[],
    Map.h:217-225, where assigning to the value of a present key, which moves no node, is left
    out), erase (Set.h:192-195, MultiSet.h:198-205, Map.h:242-245), clear (Set.h:197-200,
    MultiSet.h:212-215, Map.h:237-240) *)
Inductive tcall := TIns (e : E) | TDel (k : K) | TWipe.
(** the key of a node, as compared by std::set etc.; Set.h:187-195 *)
Definition nkey (n : nat * E) : K := key (snd n).
(** one call; the lines are those above *)
Definition tcall_step (st : tree) (o : tcall) : outcome tree :=
  match o with
  | TIns e =>
      let ins := if multi then t_insert_multi nkey lt else t_insert nkey lt in
      Ok (Tree (ins (fresh st, e) (nodes st)) (S (fresh st)))
  | TDel k =>
      if multi && match t_find nkey lt k (nodes st) with None => true | _ => false end then Err
      else Ok (Tree (t_erase nkey lt k (nodes st)) (fresh st))
  | TWipe => Ok (Tree [] (fresh st))
  end.
(** a sequence of calls; Set.h:187-200 etc. *)
Fixpoint tcalls (st : tree) (os : list tcall) : outcome tree :=
  match os with
  | [] => Ok st
  | o :: os => st <- tcall_step st o ;; tcalls st os
  end.
(** std: operator* of the iterator [id]; Set.h:76-97 *)
Fixpoint deref (id : nat) (l : list (nat * E)) : outcome E :=
  match l with
  | [] => UB
  | n :: l => if Nat.eqb (fst n) id then Ok (snd n) else deref id l
  end.
(** std: the iterator to the first node, or the end; begin(), Set.h:82 *)
Definition head (l : list (nat * E)) : option nat := match l with [] => None | n :: _ => Some (fst n) end.
(** std: operator++ of the iterator [id]; Set.h:76-97 *)
Fixpoint after (id : nat) (l : list (nat * E)) : outcome (option nat) :=
  match l with
  | [] => UB
  | n :: l => if Nat.eqb (fst n) id then Ok (head l) else after id l
  end.
(** the loop [for (const auto& e : s) { ... }]: from begin() to end() (Set.h:82-97).  [body vs] is
    what the body does when [vs] are the elements seen so far, the present one last: its calls on
    the container, and whether it goes on (otherwise it leaves the loop).  As the contents depend
    on [vs] and the initial contents only, this is every body *)
Context (body : list E -> list tcall * bool).
Fixpoint loop (fuel : nat) (st : tree) (it : option nat) (vs : list E) : outcome (tree * list E) :=
  match it with
  | None => Ok (st, vs)
  | Some id =>
      match fuel with
      | O => Fuel
      | S fuel =>
          e <- deref id (nodes st) ;;
          let vs := vs ++ [e] in
          st <- tcalls st (fst (body vs)) ;;
          if snd (body vs) then it <- after id (nodes st) ;; loop fuel st it vs
          else Ok (st, vs)
      end
  end.
(** the whole loop; Set.h:82-97 *)
Definition for_each (fuel : nat) (st : tree) : outcome (tree * list E) := loop fuel st (head (nodes st)) [].
End Walk.
Arguments tree E : clear implicits.
Arguments tcall E K : clear implicits.
