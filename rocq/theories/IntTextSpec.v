(** What texts of integers mean for a type: the numbers it accepts and what it makes of them. *)
From Verif Require Import Base DecModel VecIOSpec CastSpec IntTyModel.
Local Open Scope Z_scope.

(** the values of the type *)
Definition value_of (t : ty) (z : Z) : Prop :=
  if sgn t then - 2 ^ (bits t - 1) <= z < 2 ^ (bits t - 1) else 0 <= z < 2 ^ bits t.
(** the numbers accepted: its values, or for an unsigned type also their negatives *)
Definition accepts (t : ty) (z : Z) : Prop := value_of t z \/ (sgn t = false /\ value_of t (- z)).
(** what an accepted number becomes *)
Definition becomes (t : ty) (z : Z) : Z := if z <? 0 then if sgn t then z else 2 ^ bits t + z else z.
(** what stringCast makes of any number: the nearest value if the type is signed; the largest
    one for what an unsigned type does not accept *)
Definition cast_value (t : ty) (z y : Z) : Prop :=
  (accepts t z /\ y = becomes t z) \/
  (~ accepts t z /\ y = if sgn t && (z <? 0) then - 2 ^ (bits t - 1) else if sgn t then 2 ^ (bits t - 1) - 1 else 2 ^ bits t - 1).
Inductive casts (t : ty) : bytes -> outcome Z -> Prop :=
| casts_number w x z u y : ws w -> signed x z -> no_digit u -> cast_value t z y -> casts t (w ++ x ++ u) (Ok y)
| casts_other w u : ws w -> u <> [] -> no_blank u -> no_number u -> casts t (w ++ u) (Ok 0)
| casts_blank w : ws w -> casts t w UB.

(** an element, a comma separated list of them, a vector *)
Definition item (t : ty) (x : bytes) (y : Z) : Prop := exists z, signed x z /\ accepts t z /\ y = becomes t z.
Inductive items (t : ty) : bytes -> list Z -> Prop :=
| it_one w x z w' : ws w -> item t x z -> ws w' -> items t (w ++ x ++ w') [z]
| it_more w x z w' r zs : ws w -> item t x z -> ws w' -> items t r zs -> items t (w ++ x ++ w' ++ ","%char :: r) (z :: zs).
Definition vector_of (t : ty) (x : bytes) (v : list Z) : Prop :=
  exists w b, ws w /\ x = w ++ "{"%char :: b ++ ["}"%char] /\ ((ws b /\ v = []) \/ items t b v).
(** a text that starts with no accepted number, visibly: the offending token is followed by
    another character *)
Definition no_item (t : ty) (r : bytes) : Prop :=
  exists w x c u, r = w ++ x ++ c :: u /\ ws w /\ is_digit c = false /\
    ((x = [] /\ ~ blank c /\ c <> "+"%char /\ c <> "-"%char) \/ x = ["+"%char] \/ x = ["-"%char] \/
     exists z, signed x z /\ ~ accepts t z).
(** an opening brace and a comma that is not preceded by an element, or that is preceded by
    elements but not followed by one *)
Definition hangs (t : ty) (r : bytes) : Prop :=
  exists w b r', r = w ++ "{"%char :: b ++ ","%char :: r' /\ ws w /\ (ws b \/ ((exists zs, items t b zs) /\ no_item t r')).
(** the character with a given code *)
Definition char_of (z : Z) : ascii := ascii_of_N (Z.to_N (z mod 256)).
