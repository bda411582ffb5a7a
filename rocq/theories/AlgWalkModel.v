(** Model of mapAll (src/include/algorithm/Map.h:19-31) and filterContainer
    (src/include/algorithm/Filter.h:19-30) over a Set or MultiSet with a function that inserts into
    and erases from the container being traversed.  The container and its iterators are those of
    WalkModel. *)
From Verif Require Import Base ContModel WalkModel.
Local Open Scope Z_scope.

Section AlgWalk.
Context {E K B : Type} (key : E -> K) (lt : K -> K -> bool) (multi : bool).
(** the function: when the elements it was called with so far are [vs], the present one last, its
    calls on the container and its result; algorithm/Map.h:28.  As the contents depend on [vs] and
    the initial contents only, this is every function that does not throw (exceptions: CallModel) *)
Context (f : list E -> list (tcall E K) * B).
(** the loop of mapAll from the iterator [it] on, algorithm/Map.h:27-29; reserve (26) has no effect
    on the result *)
Fixpoint map_loop (fuel : nat) (st : tree E) (it : option nat) (vs : list E) (ret : list B) : outcome (tree E * list B) :=
  match it with
  | None => Ok (st, ret)
  | Some id =>
      match fuel with
      | O => Fuel
      | S fuel =>
          e <- deref id (nodes st) ;;
          st <- tcalls key lt multi st (fst (f (vs ++ [e]))) ;;
          it <- after id (nodes st) ;;
          map_loop fuel st it (vs ++ [e]) (ret ++ [snd (f (vs ++ [e]))])
      end
  end.
(** algorithm/Map.h:19-31 *)
Definition map_all (fuel : nat) (st : tree E) : outcome (tree E * list B) := map_loop fuel st (head (nodes st)) [] [].
End AlgWalk.

Section FilterWalk.
Context {E K : Type} (key : E -> K) (lt : K -> K -> bool) (multi : bool).
(** the function; Filter.h:24 *)
Context (f : list E -> list (tcall E K) * bool).
(** the loop of filterContainer, Filter.h:23-27: the element is read again after the call *)
Fixpoint filter_walk (fuel : nat) (st : tree E) (it : option nat) (vs ret : list E) : outcome (tree E * list E) :=
  match it with
  | None => Ok (st, ret)
  | Some id =>
      match fuel with
      | O => Fuel
      | S fuel =>
          e <- deref id (nodes st) ;;
          st <- tcalls key lt multi st (fst (f (vs ++ [e]))) ;;
          ret <- (if snd (f (vs ++ [e])) then x <- deref id (nodes st) ;; Ok (ret ++ [x]) else Ok ret) ;;
          it <- after id (nodes st) ;;
          filter_walk fuel st it (vs ++ [e]) ret
      end
  end.
(** Filter.h:19-30 *)
Definition filter_container (fuel : nat) (st : tree E) : outcome (tree E * list E) := filter_walk fuel st (head (nodes st)) [] [].
End FilterWalk.
