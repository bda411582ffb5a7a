(** Model of a range-based for loop over a MultiMap (begin, end: src/include/containers/
    MultiMap.h:78-100; operator* and operator++ of std::multimap) whose body erases keys, clears
    the MultiMap and assigns to the value of the element it stands at.  As in WalkModel an iterator
    is a node: the tree functions of ContModel run on entries that carry the identity of their
    node, an iterator is the identity or the end, and using one whose node is gone is [UB]. *)
From Verif Require Import Base ContModel ListRefModel WalkModel.
Local Open Scope Z_scope.

Section MMWalk.
Context {K V : Type} (lt : K -> K -> bool).

(** calls: erase (MultiMap.h:203-206), clear (MultiMap.h:198-201), [e.second = v] for the element
    [e] of the loop (the iterator refers to pair<const KeyType, ValueType>, MultiMap.h:78-100).
    There is no call that inserts *)
Inductive mcall := MDel (k : K) | MWipe | MWrite (v : V).
(** the key of a node, as compared by std::multimap; MultiMap.h:203-206 *)
Definition mkey (n : nat * (K * V)) : K := fst (snd n).
(** one call, the loop at the node [id]; the lines are those above *)
Definition mcall_step (id : nat) (l : list (nat * (K * V))) (o : mcall) : outcome (list (nat * (K * V))) :=
  match o with
  | MDel k => Ok (t_erase mkey lt k l)
  | MWipe => Ok []
  | MWrite v => e <- deref id l ;; Ok (overwrite id (fst e, v) l)
  end.
(** the calls of one round; MultiMap.h:198-206 *)
Fixpoint mcalls (id : nat) (l : list (nat * (K * V))) (os : list mcall) : outcome (list (nat * (K * V))) :=
  match os with
  | [] => Ok l
  | o :: os => l <- mcall_step id l o ;; mcalls id l os
  end.
(** the loop [for (auto& e : m) { ... }]: from begin() to end() (MultiMap.h:78-100).  [body vs] is
    what the body does when [vs] are the elements it has found so far, the present one last: its
    calls, and whether it goes on (otherwise it leaves the loop).  As the contents depend on [vs]
    and the initial contents only, this is every body *)
Context (body : list (K * V) -> list mcall * bool).
Fixpoint mloop (fuel : nat) (l : list (nat * (K * V))) (it : option nat) (vs : list (K * V)) : outcome (list (nat * (K * V)) * list (K * V)) :=
  match it with
  | None => Ok (l, vs)
  | Some id =>
      match fuel with
      | O => Fuel
      | S fuel =>
          e <- deref id l ;;
          let vs := vs ++ [e] in
          l <- mcalls id l (fst (body vs)) ;;
          if snd (body vs) then it <- after id l ;; mloop fuel l it vs
          else Ok (l, vs)
      end
  end.
(** the whole loop over a MultiMap with given contents; MultiMap.h:78-100 *)
Definition mm_each (fuel : nat) (m : list (K * V)) : outcome (list (nat * (K * V)) * list (K * V)) :=
  let l := number O m in mloop fuel l (head l) [].
End MMWalk.
Arguments mcall K V : clear implicits.
