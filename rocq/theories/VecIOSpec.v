(** Specification of the text format of int vectors. *)
From Verif Require Import Base DecModel.
Local Open Scope Z_scope.

Definition blank (c : ascii) : Prop := In c [" "; "009"; "010"; "011"; "012"; "013"]%char.
Definition ws (t : bytes) : Prop := Forall blank t.
(** digits with an optional sign *)
Definition digits (t : bytes) : Prop := Forall (fun c => is_digit c = true) t.
Inductive signed : bytes -> Z -> Prop :=
| signed_none ds : ds <> [] -> digits ds -> signed ds (dec_value ds)
| signed_plus ds : ds <> [] -> digits ds -> signed ("+"%char :: ds) (dec_value ds)
| signed_minus ds : ds <> [] -> digits ds -> signed ("-"%char :: ds) (- dec_value ds).
Definition int_text (t : bytes) (z : Z) : Prop := signed t z /\ - 2 ^ 31 <= z < 2 ^ 31.
Inductive elements : bytes -> list Z -> Prop :=
| el_one w t z w' : ws w -> int_text t z -> ws w' -> elements (w ++ t ++ w') [z]
| el_more w t z w' r zs : ws w -> int_text t z -> ws w' -> elements r zs -> elements (w ++ t ++ w' ++ ","%char :: r) (z :: zs).
(** what denotes a vector *)
Definition vector_text (t : bytes) (v : list Z) : Prop :=
  exists w b, ws w /\ t = w ++ "{"%char :: b ++ ["}"%char] /\ ((ws b /\ v = []) \/ elements b v).
(** text that starts with something that is visibly not an int: no digits, or too large;
    the offending token is followed by another character *)
Definition not_an_int (r : bytes) : Prop :=
  exists w t c u, r = w ++ t ++ c :: u /\ ws w /\ is_digit c = false /\
    ((t = [] /\ ~ blank c /\ c <> "+"%char /\ c <> "-"%char) \/ t = ["+"%char] \/ t = ["-"%char] \/
     exists z, signed t z /\ ~ (- 2 ^ 31 <= z < 2 ^ 31)).
(** an opening brace and a comma that is not preceded by an element, or that is
    preceded by elements but not followed by an int *)
Definition stuck (r : bytes) : Prop :=
  exists w b r', r = w ++ "{"%char :: b ++ ","%char :: r' /\ ws w /\ (ws b \/ ((exists zs, elements b zs) /\ not_an_int r')).
(** the elements joined by ", " *)
Fixpoint joined (l : list bytes) : bytes :=
  match l with
  | [] => []
  | [t] => t
  | t :: l => t ++ str ", " ++ joined l
  end.
