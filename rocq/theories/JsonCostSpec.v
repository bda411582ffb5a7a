(** What the stack depth and the copying of loadJSON are compared with: sizes of the
    value loaded and counts of characters of the text. *)
From Verif Require Import Base JsonModel.
Local Open Scope nat_scope.

(** the values inside a value, itself included (member names not) *)
Fixpoint nodes {F} (v : json F) : nat :=
  match v with
  | JArr l => 1 + fold_right (fun v n => nodes v + n) 0 l
  | JObj m => 1 + fold_right (fun p n => nodes (snd p) + n) 0 m
  | _ => 1
  end.
(** how deeply a value is nested; 1 for a value that contains no other *)
Fixpoint height {F} (v : json F) : nat :=
  match v with
  | JArr l => 1 + fold_right (fun v n => Nat.max (height v) n) 0 l
  | JObj m => 1 + fold_right (fun p n => Nat.max (height (snd p)) n) 0 m
  | _ => 1
  end.
(** the sum over all members of all objects inside a value of the size of the member:
    each value is counted once for each object around it *)
Fixpoint member_work {F} (v : json F) : nat :=
  match v with
  | JArr l => fold_right (fun v n => member_work v + n) 0 l
  | JObj m => fold_right (fun p n => nodes (snd p) + member_work (snd p) + n) 0 m
  | _ => 0
  end.
(** how many bytes of a text are '[' or '{' *)
Definition openings (s : bytes) : nat :=
  length (filter (fun c => Ascii.eqb c "[" || Ascii.eqb c "{") s).
(** how many bytes of a text are '{' *)
Definition braces (s : bytes) : nat := length (filter (fun c => Ascii.eqb c "{") s).
(** "[[...[]...]]": n arrays inside each other *)
Definition brackets (n : nat) : bytes := repeat "["%char n ++ repeat "]"%char n.
(** the value of [brackets (S n)] *)
Fixpoint deep_array {F} (n : nat) : json F :=
  match n with O => JArr [] | S n => JArr [deep_array n] end.
(** {"":{"":...{}...}}: n + 1 objects inside each other; 5 n + 2 bytes *)
Fixpoint nested (n : nat) : bytes :=
  match n with
  | O => ["{"%char; "}"%char]
  | S n => ["{"%char; DQ; DQ; ":"%char] ++ nested n ++ ["}"%char]
  end.
(** the value of [nested n] *)
Fixpoint deep_object {F} (n : nat) : json F :=
  match n with O => JObj [] | S n => JObj [([], deep_object n)] end.
