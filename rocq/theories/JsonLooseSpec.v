(** The texts loadJSON accepts, as a grammar.  It is looser than JSON: [loose s v o]
    says that a value [v] is read off the front of [s] and [o] is what is left; [None]
    means that reading went one character behind the end (a number that ends the text). *)
From Verif Require Import Base DecModel JsonModel JsonSpec JsonTextSpec.
Local Open Scope nat_scope.

(** white space: blank, tab, line feed, vertical tab, form feed, carriage return *)
Definition space (c : ascii) : Prop := In c [" "; "009"; "010"; "011"; "012"; "013"]%char.
Definition spaces (w : bytes) : Prop := Forall space w.
(** characters that may follow a number *)
Definition stop (c : ascii) : Prop := space c \/ In c (str ",]}").
Definition stops (r : bytes) : Prop := exists c r', r = c :: r' /\ stop c.
(** nothing left, or a NUL character *)
Definition nul_or_end (r : bytes) : Prop := r = [] \/ exists r', r = "000"%char :: r'.
(** string bodies: unknown escapes are allowed and stand for a backslash *)
Definition known : list (ascii * ascii) :=
  [("034", "034"); ("092", "092"); ("/", "/"); ("b", "008"); ("f", "012"); ("n", "010"); ("r", "013"); ("t", "009")]%char.
Inductive lchars : bytes -> bytes -> Prop :=
| lc_nil : lchars [] []
| lc_plain c t s : c <> "034"%char -> c <> "092"%char -> lchars t s -> lchars (c :: t) (c :: s)
| lc_escape e c t s : In (e, c) known -> lchars t s -> lchars ("092"%char :: e :: t) (c :: s)
| lc_unknown e t s : ~ In e (map fst known) -> e <> "u"%char -> lchars t s -> lchars ("092"%char :: e :: t) ("092"%char :: s)
| lc_unicode h t s : length h = 4 -> (forall c, In c h -> In c (str "0123456789abcdefABCDEF")) ->
    lchars t s -> lchars ("092"%char :: "u"%char :: h ++ t) ("092"%char :: "u"%char :: h ++ s).
(** a number: a digit or minus sign, then any digits, dots and minus signs *)
Definition run (n : bytes) : Prop := exists c t, n = c :: t /\ (is_digit c = true \/ c = "-"%char) /\ forallb number_char t = true.
(** the integer at the front of a number, 0 if there is none after the minus sign *)
Definition leading (n : bytes) (z : Z) : Prop :=
  exists neg ds u, n = sign neg ++ ds ++ u /\ forallb is_digit ds = true /\ (neg = false -> ds <> []) /\
    (forall c u', u = c :: u' -> is_digit c = false) /\ z = (if neg then - dec_value ds else dec_value ds)%Z.
Definition clamp (z : Z) : Z := Z.max (- 2 ^ 31) (Z.min (2 ^ 31 - 1) z).
(** keys that are not strings count as the empty string *)
Definition name {F} (k : json F) : bytes := match k with JStr t => t | _ => [] end.

Section Loose.
Context {F : Type} (D : doubles F).
(** the value of a number without exponent, and with exponent [z] *)
Inductive plain_value (n : bytes) : json F -> Prop :=
| pv_int z : ~ In "."%char n -> leading n z -> plain_value n (JInt (clamp z))
| pv_float : In "."%char n -> plain_value n (JFlt (f_scale D (f_read D n) 0)).
(** [x] is the character behind the e, [ds] the digits after it; the first character is only looked at for a minus sign *)
Inductive exp_result (n : bytes) (x : ascii) (ds : bytes) : json F -> Prop :=
| ev_none v : x <> "-"%char -> ds = [] -> plain_value n v -> exp_result n x ds v
| ev_some z : x = "-"%char \/ ds <> [] -> z = (if Ascii.eqb x "-" then - dec_value ds else dec_value ds)%Z -> (- 2 ^ 31 <= z < 2 ^ 31)%Z ->
    exp_result n x ds (JFlt (f_scale D (f_read D n) z)).
Inductive loose : bytes -> json F -> option bytes -> Prop :=
| l_space c s v o : space c -> loose s v o -> loose (c :: s) v o
| l_null r : loose (str "null" ++ r) JNull (Some r)
| l_true r : loose (str "true" ++ r) (JBool true) (Some r)
| l_false r : loose (str "false" ++ r) (JBool false) (Some r)
| l_string b t r : lchars b t -> loose ("034"%char :: b ++ "034"%char :: r) (JStr t) (Some r)
| l_number n v r : run n -> plain_value n v -> stops r -> loose (n ++ r) v (Some r)
| l_number_nul n v r : run n -> plain_value n v -> loose (n ++ "000"%char :: r) v (Some r)
| l_number_end n v : run n -> plain_value n v -> loose n v None
| l_exp n e x ds p c v r : run n -> In e (str "eE") -> forallb is_digit ds = true -> x :: ds = p ++ [c] -> exp_result n x ds v -> stops r ->
    loose (n ++ e :: x :: ds ++ r) v (Some (c :: r))
| l_exp_end n e x ds v r : run n -> In e (str "eE") -> forallb is_digit ds = true -> exp_result n x ds v -> nul_or_end r ->
    loose (n ++ e :: x :: ds ++ r) v (Some r)
| l_array0 w r : spaces w -> loose ("["%char :: w ++ "]"%char :: r) (JArr []) (Some r)
| l_array s l r : items s l r -> loose ("["%char :: s) (JArr l) (Some r)
| l_object0 w r : spaces w -> loose ("{"%char :: w ++ "}"%char :: r) (JObj []) (Some r)
| l_object s ms m r : entries s ms r -> last_wins ms m -> loose ("{"%char :: s) (JObj m) (Some r)
with items : bytes -> list (json F) -> bytes -> Prop :=
| i_last s v w r : loose s v (Some (w ++ "]"%char :: r)) -> spaces w -> items s [v] r
| i_more s v w s' l r : loose s v (Some (w ++ ","%char :: s')) -> spaces w -> items s' l r -> items s (v :: l) r
with entries : bytes -> list (bytes * json F) -> bytes -> Prop :=
| n_last s k w s1 v w' r : loose s k (Some (w ++ ":"%char :: s1)) -> spaces w -> loose s1 v (Some (w' ++ "}"%char :: r)) -> spaces w' -> entries s [(name k, v)] r
| n_more s k w s1 v w' s2 ms r : loose s k (Some (w ++ ":"%char :: s1)) -> spaces w -> loose s1 v (Some (w' ++ ","%char :: s2)) -> spaces w' -> entries s2 ms r ->
    entries s ((name k, v) :: ms) r.
End Loose.
