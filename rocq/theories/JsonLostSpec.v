(** The texts on which loadJSON has undefined behaviour: reading goes two characters behind
    the end, or an exponent does not fit an int. *)
From Verif Require Import Base DecModel JsonModel JsonSpec JsonTextSpec JsonLooseSpec.
Local Open Scope nat_scope.

Section Lost.
Context {F : Type} (D : doubles F).
(** the exponent, as [exp_result] reads it *)
Definition wide (x : ascii) (ds : bytes) : Prop :=
  let z := (if Ascii.eqb x "-" then - dec_value ds else dec_value ds)%Z in (z < - 2 ^ 31 \/ 2 ^ 31 <= z)%Z.
Inductive lost : bytes -> Prop :=
| x_space c s : space c -> lost s -> lost (c :: s)
(** a string that is not closed, possibly with a backslash at the end *)
| x_string b t u : lchars b t -> u = [] \/ u = ["092"%char] -> lost ("034"%char :: b ++ u)
| x_exp n e x ds r : run n -> In e (str "eE") -> forallb is_digit ds = true -> wide x ds -> stops r \/ nul_or_end r -> lost (n ++ e :: x :: ds ++ r)
| x_array s : lost_items s -> lost ("["%char :: s)
| x_object s : lost_entries s -> lost ("{"%char :: s)
with lost_items : bytes -> Prop :=
| xi_here s : lost s -> lost_items s
(** the text ends with a number inside an array *)
| xi_end s v : loose D s v None -> lost_items s
| xi_later s v w s' : loose D s v (Some (w ++ ","%char :: s')) -> spaces w -> lost_items s' -> lost_items s
with lost_entries : bytes -> Prop :=
| xe_key s : lost s -> lost_entries s
| xe_key_end s k : loose D s k None -> lost_entries s
| xe_value s k w s1 : loose D s k (Some (w ++ ":"%char :: s1)) -> spaces w -> lost s1 -> lost_entries s
| xe_value_end s k w s1 v : loose D s k (Some (w ++ ":"%char :: s1)) -> spaces w -> loose D s1 v None -> lost_entries s
| xe_later s k w s1 v w' s2 : loose D s k (Some (w ++ ":"%char :: s1)) -> spaces w -> loose D s1 v (Some (w' ++ ","%char :: s2)) -> spaces w' -> lost_entries s2 -> lost_entries s.
End Lost.
