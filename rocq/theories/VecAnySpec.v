(** Specification for the text of vectors of any element type. *)
From Verif Require Import Base DecModel VecIOSpec VecAnyModel.
Local Open Scope Z_scope.

(** the values a program can hold: ints are ints, sizes fit *)
Fixpoint proper (t : elt) : val t -> Prop :=
  match t with
  | EInt => fun z => - 2 ^ 31 <= z < 2 ^ 31
  | EChar | EStr => fun _ => True
  | EVec t => fun v => Z.of_nat (length v) < 2 ^ 31 /\ Forall (proper t) v
  end.
(** no strings anywhere inside *)
Fixpoint no_strings (t : elt) : Prop :=
  match t with EStr => False | EInt | EChar => True | EVec t => no_strings t end.
(** no character is white space and no vector of characters starts with a closing brace *)
Fixpoint plain (t : elt) : val t -> Prop :=
  match t with
  | EInt | EStr => fun _ => True
  | EChar => fun c => ~ blank c
  | EVec t => fun v => Forall (plain t) v /\
      (match t return list (val t) -> Prop with EChar => fun v => forall w, v <> "}"%char :: w | _ => fun _ => True end) v
  end.
(** the printed form *)
Fixpoint text (t : elt) : val t -> bytes :=
  match t with
  | EInt => to_string_Z
  | EChar => fun c => [c]
  | EStr => fun s => s
  | EVec t => fun v => str "{" ++ joined (map (text t) v) ++ str "}"
  end.
(** the longest vector anywhere inside *)
Fixpoint widest (t : elt) : val t -> nat :=
  match t with
  | EVec t => fun v => fold_right Nat.max (length v) (map (widest t) v)
  | _ => fun _ => O
  end.
(** an ordinary word: not empty, no white space, commas or braces *)
Definition plain_word (w : bytes) : Prop :=
  w <> [] /\ Forall (fun c => ~ blank c /\ c <> ","%char /\ c <> "}"%char) w.
