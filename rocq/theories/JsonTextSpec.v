(** JSON documents (RFC 8259) with free layout, and the values they stand for in this library.
    Numbers have no exponent (C55 covers those); numbers are clamped to int, [\uXXXX] stays as
    written and keys are in escaped form, as C52, C54 and C55 say. *)
From Verif Require Import Base DecModel JsonModel JsonSpec.
Local Open Scope nat_scope.

(** white space between tokens *)
Definition blank (w : bytes) : Prop := forall c, In c w -> In c [" "%char; "009"%char; "010"%char; "013"%char].
(** the text between the quotes of a string, and the string *)
Inductive chars : bytes -> bytes -> Prop :=
| ch_nil : chars [] []
| ch_plain c t s : c <> "034"%char -> c <> "092"%char -> chars t s -> chars (c :: t) (c :: s)
| ch_escape e c t s :
    In (e, c) [("034", "034"); ("092", "092"); ("/", "/"); ("b", "008"); ("f", "012"); ("n", "010"); ("r", "013"); ("t", "009")]%char ->
    chars t s -> chars ("092"%char :: e :: t) (c :: s)
| ch_unicode h t s : length h = 4 -> (forall c, In c h -> In c (str "0123456789abcdefABCDEF")) ->
    chars t s -> chars ("092"%char :: "u"%char :: h ++ t) ("092"%char :: "u"%char :: h ++ s).
Definition sign (neg : bool) : bytes := if neg then ["-"%char] else [].
(** every key with the value it is given last, in the order of the keys *)
Definition last_wins {V} (ms m : list (bytes * V)) : Prop :=
  increasing (map fst m) /\
  forall k v, In (k, v) m <-> exists a t b, ms = a ++ (t, v) :: b /\ k = jsonEscape t /\ ~ In t (map fst b).

Section Text.
Context {F : Type} (D : doubles F).
Inductive text : bytes -> json F -> Prop :=
| t_null : text (str "null") JNull
| t_true : text (str "true") (JBool true)
| t_false : text (str "false") (JBool false)
| t_int neg ds : ds <> [] -> forallb is_digit ds = true ->
    text (sign neg ++ ds) (JInt (Z.max (- 2 ^ 31) (Z.min (2 ^ 31 - 1) (if neg then - dec_value ds else dec_value ds))))
| t_float neg ds fs : ds <> [] -> forallb is_digit ds = true -> forallb is_digit fs = true ->
    text (sign neg ++ ds ++ "."%char :: fs) (JFlt (f_scale D (f_read D (sign neg ++ ds ++ "."%char :: fs)) 0))
| t_string b s : chars b s -> text ("034"%char :: b ++ ["034"%char]) (JStr s)
| t_array0 w : blank w -> text ("["%char :: w ++ ["]"%char]) (JArr [])
| t_array b l : elements b l -> text ("["%char :: b ++ ["]"%char]) (JArr l)
| t_object0 w : blank w -> text ("{"%char :: w ++ ["}"%char]) (JObj [])
| t_object b ms m : members b ms -> last_wins ms m -> text ("{"%char :: b ++ ["}"%char]) (JObj m)
with elements : bytes -> list (json F) -> Prop :=
| e_one w t w' v : blank w -> text t v -> blank w' -> elements (w ++ t ++ w') [v]
| e_more w t w' v b l : blank w -> text t v -> blank w' -> elements b l -> elements (w ++ t ++ w' ++ ","%char :: b) (v :: l)
with members : bytes -> list (bytes * json F) -> Prop :=
| m_one w k w1 w2 t w3 n v : blank w -> chars k n -> blank w1 -> blank w2 -> text t v -> blank w3 ->
    members (w ++ "034"%char :: k ++ "034"%char :: w1 ++ ":"%char :: w2 ++ t ++ w3) [(n, v)]
| m_more w k w1 w2 t w3 n v b ms : blank w -> chars k n -> blank w1 -> blank w2 -> text t v -> blank w3 -> members b ms ->
    members (w ++ "034"%char :: k ++ "034"%char :: w1 ++ ":"%char :: w2 ++ t ++ w3 ++ ","%char :: b) ((n, v) :: ms).
End Text.
