(** JSON: which values and texts the properties talk about. *)
From Verif Require Import Base DecModel JsonModel.
Local Open Scope nat_scope.

(** characters that must be escaped in a JSON string according to jsonEscape *)
Definition special (c : ascii) : Prop :=
  In c ["034"%char; "092"%char; "008"%char; "012"%char; "010"%char; "013"%char; "009"%char].
Definition plain (s : bytes) : Prop := forall c, In c s -> ~ special c.

(** lexicographic order on byte strings *)
Inductive lex : bytes -> bytes -> Prop :=
| lex_nil y b : lex [] (y :: b)
| lex_lt x y a b : (byteZ x < byteZ y)%Z -> lex (x :: a) (y :: b)
| lex_eq x a b : lex a b -> lex (x :: a) (x :: b).
Fixpoint increasing (ks : list bytes) : Prop :=
  match ks with
  | a :: (b :: _) as t => lex a b /\ increasing t
  | _ => True
  end.

(** a float that survives printing and reading *)
Definition number_char (c : ascii) : bool := is_digit c || Ascii.eqb c "-" || Ascii.eqb c ".".
Definition float_stable {F} (D : doubles F) (f : F) : Prop :=
  (exists c t, f_text D f = c :: t /\ (is_digit c = true \/ c = "-"%char) /\
     forallb number_char t = true /\ In "."%char t) /\
  f_scale D (f_read D (f_text D f)) 0 = f.

(** values: ints in range, objects have strictly increasing keys, each key
    satisfies [K], each float satisfies [FL] *)
Fixpoint value {F} (K : bytes -> Prop) (FL : F -> Prop) (v : json F) : Prop :=
  match v with
  | JInt z => in_int32 z = true
  | JFlt f => FL f
  | JArr l => fold_right (fun v P => value K FL v /\ P) True l
  | JObj m => increasing (map fst m) /\ fold_right (fun kv P => K (fst kv) /\ value K FL (snd kv) /\ P) True m
  | _ => True
  end.
(** [k] is the escaped form of some string *)
Definition escaped (k : bytes) : Prop := exists t, k = jsonEscape t.

(** does the text end inside a string literal?  Scan from the left; a quote
    opens a literal, inside a literal a backslash hides the next character *)
Fixpoint open_at_end (inside : bool) (s : bytes) : bool :=
  match s with
  | [] => inside
  | c :: t =>
      if inside then
        if Ascii.eqb c "092" then match t with [] => true | _ :: t => open_at_end true t end
        else open_at_end (negb (Ascii.eqb c "034")) t
      else open_at_end (Ascii.eqb c "034") t
  end.
(** texts whose parsing may leave the string: they end inside a string literal, or
    in a number character, or contain an exponent that does not fit an int *)
Definition ends_in_number (s : bytes) : Prop := exists a c, s = a ++ [c] /\ number_char c = true.
Definition huge_exponent (s : bytes) : Prop :=
  exists a e c ds rest, s = a ++ e :: c :: ds ++ rest /\ (e = "e"%char \/ e = "E"%char) /\
    forallb is_digit ds = true /\ (int32_max < dec_value ds)%Z.
Definition risky (s : bytes) : Prop := open_at_end false s = true \/ ends_in_number s \/ huge_exponent s.
