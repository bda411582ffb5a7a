(** What stringCast returns, as a relation between texts and results, and what a stringCast
    object refers to. *)
From Verif Require Import Base DecModel VecIOSpec CastModel.
Local Open Scope Z_scope.

(** [u] does not start with a digit; [u] does not start with white space *)
Definition no_digit (u : bytes) : Prop := forall c r, u = c :: r -> is_digit c = false.
Definition no_blank (u : bytes) : Prop := forall c r, u = c :: r -> ~ blank c.
(** [u] starts with no number: neither a digit nor a sign followed by a digit *)
Definition no_number (u : bytes) : Prop := no_digit u /\ forall r, u = "+"%char :: r \/ u = "-"%char :: r -> no_digit r.
(** the number in front, negative if written with a minus sign *)
Definition clamped (lo hi z : Z) : Z := Z.max lo (Z.min hi z).
(** an unsigned number: beyond the range in magnitude the largest, otherwise modulo 2^32 *)
Definition unsigned_of (z : Z) : Z := if 2 ^ 32 <=? Z.abs z then 2 ^ 32 - 1 else z mod 2 ^ 32.
Inductive denotes : ctype -> bytes -> outcome cvalue -> Prop :=
| den_int w t z u : ws w -> signed t z -> no_digit u -> denotes TInt (w ++ t ++ u) (Ok (VInt (clamped (- 2 ^ 31) (2 ^ 31 - 1) z)))
| den_int_none w u : ws w -> u <> [] -> no_blank u -> no_number u -> denotes TInt (w ++ u) (Ok (VInt 0))
| den_unsigned w t z u : ws w -> signed t z -> no_digit u -> denotes TUnsigned (w ++ t ++ u) (Ok (VUnsigned (unsigned_of z)))
| den_unsigned_none w u : ws w -> u <> [] -> no_blank u -> no_number u -> denotes TUnsigned (w ++ u) (Ok (VUnsigned 0))
| den_bool w t z u : ws w -> signed t z -> no_digit u -> denotes TBool (w ++ t ++ u) (Ok (VBool (negb (z =? 0))))
| den_bool_none w u : ws w -> u <> [] -> no_blank u -> no_number u -> denotes TBool (w ++ u) (Ok (VBool false))
| den_char w c u : ws w -> ~ blank c -> denotes TChar (w ++ c :: u) (Ok (VChar c))
| den_string w t u : ws w -> Forall (fun c => ~ blank c) t -> (t = [] -> u = []) -> (forall c r, u = c :: r -> blank c) -> denotes TString (w ++ t ++ u) (Ok (VString t))
| den_blank ty w : ws w -> ty <> TString -> denotes ty w UB.

(** the stringCast objects of a history in order of construction, and the text that string
    variable [i] has at the end of it *)
Definition referred (o : cop) : list (ctype * option nat) :=
  match o with CNew ty i => [(ty, Some i)] | CTemp ty _ => [(ty, None)] | _ => [] end.
Definition declared (o : cop) : nat := match o with SNew _ => 1 | _ => 0 end.
(** going back from the end: the last declaration, assignment or end of variable [i] *)
Fixpoint last_text (i : nat) (past : list cop) : option bytes :=
  match past with
  | [] => None
  | o :: past =>
      match o with
      | SNew t => if Nat.eqb (list_sum (map declared past)) i then Some t else last_text i past
      | SAssign j t => if Nat.eqb j i then Some t else last_text i past
      | SEnd j => if Nat.eqb j i then None else last_text i past
      | _ => last_text i past
      end
  end.
