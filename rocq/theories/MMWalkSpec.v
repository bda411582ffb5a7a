(** Specification of loops over a MultiMap: what is behind the loop, the present element if it is
    still there, and what is ahead. *)
From Coq Require Import Sorted.
From Verif Require Import Base ContModel ContSpec MMWalkModel.
Local Open Scope Z_scope.

Section Spec.
Context {K V : Type} (lt : K -> K -> bool).
(** the contents of a MultiMap: in key order *)
Definition ordered (m : list (K * V)) : Prop := StronglySorted (fun a b => lt (fst b) (fst a) = false) m.
(** the call removes the elements with key [k] *)
Definition kills (k : K) (o : mcall K V) : bool :=
  match o with MDel q => same lt q k | MWipe => true | MWrite _ => false end.
Definition spared (os : list (mcall K V)) (e : K * V) : bool := negb (existsb (kills (fst e)) os).
Definition opt {X} (c : option X) : list X := match c with Some x => [x] | None => [] end.
Definition act (d : list (K * V)) (c : option (K * V)) (r : list (K * V)) (o : mcall K V) : outcome (list (K * V) * option (K * V) * list (K * V)) :=
  match o with
  | MWrite v => match c with Some (k, _) => Ok (d, Some (k, v), r) | None => UB end
  | _ => Ok (filter (spared [o]) d, match c with Some e => if spared [o] e then Some e else None | None => None end, filter (spared [o]) r)
  end.
Fixpoint acts (d : list (K * V)) (c : option (K * V)) (r : list (K * V)) (os : list (mcall K V)) : outcome (list (K * V) * option (K * V) * list (K * V)) :=
  match os with
  | [] => Ok (d, c, r)
  | o :: os => x <- act d c r o ;; acts (fst (fst x)) (snd (fst x)) (snd x) os
  end.
Context (body : list (K * V) -> list (mcall K V) * bool).
Fixpoint tour (fuel : nat) (d r vs : list (K * V)) : outcome (list (K * V) * list (K * V)) :=
  match r with
  | [] => Ok (d, vs)
  | e :: r =>
      match fuel with
      | O => Fuel
      | S fuel =>
          let vs := vs ++ [e] in
          x <- acts d (Some e) r (fst (body vs)) ;;
          if snd (body vs) then match snd (fst x) with Some e => tour fuel (fst (fst x) ++ [e]) (snd x) vs | None => UB end
          else Ok (fst (fst x) ++ opt (snd (fst x)) ++ snd x, vs)
      end
  end.
(** the calls made for the elements [vs] after the first [n] *)
Definition made_from (n : nat) (vs : list (K * V)) : list (mcall K V) :=
  flat_map (fun i => fst (body (firstn i vs))) (seq (S n) (length vs - n)).
(** some of the elements, in the same order *)
Inductive some_of {X} : list X -> list X -> Prop :=
| some_nil : some_of [] []
| some_take x a b : some_of a b -> some_of (x :: a) (x :: b)
| some_skip x a b : some_of a b -> some_of a (x :: b).
End Spec.
