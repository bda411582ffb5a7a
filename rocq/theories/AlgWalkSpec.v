(** Specification of mapAll and filterContainer with functions that change the container. *)
From Coq Require Import Sorted.
From Verif Require Import Base ContModel ContSpec WalkModel WalkSpec.
Local Open Scope Z_scope.

Section Spec.
Context {E K : Type} (key : E -> K) (lt : K -> K -> bool) (multi : bool).
(** the results for the elements [vs], called with [before] already *)
Fixpoint heard {B} (f : list E -> list (tcall E K) * B) (before vs : list E) : list B :=
  match vs with
  | [] => []
  | e :: vs => snd (f (before ++ [e])) :: heard f (before ++ [e]) vs
  end.
(** the elements of [vs] for which the function returned true *)
Fixpoint passed (f : list E -> list (tcall E K) * bool) (before vs : list E) : list E :=
  match vs with
  | [] => []
  | e :: vs => (if snd (f (before ++ [e])) then [e] else []) ++ passed f (before ++ [e]) vs
  end.
(** the calls on the container that the function makes for the elements [vs] *)
Definition wished {B} (f : list E -> list (tcall E K) * B) (vs : list E) : list (tcall E K) :=
  flat_map (fun n => fst (f (firstn n vs))) (seq 1 (length vs)).
(** the function is called with the elements [vs] of a container with contents [l]: in order, with
    every one that it does not remove, with none but these and those it inserts *)
Definition course {B} (f : list E -> list (tcall E K) * B) (l vs : list E) : Prop :=
  StronglySorted (fun a b => if multi then lt (key b) (key a) = false else lt (key a) (key b) = true) vs /\
  (forall x, In x l -> (forall o, In o (wished f vs) -> removes lt (key x) o = false) -> In x vs) /\
  (forall x, In x vs -> In x l \/ In (TIns x) (wished f vs)).
(** a function of the present element only *)
Definition on_last {B} (d : B) (g : E -> B) (vs : list E) : B := match rev vs with x :: _ => g x | [] => d end.
End Spec.
