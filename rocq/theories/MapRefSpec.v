(** Specification of references into a Map: a reference is a key, until that key is erased. *)
From Verif Require Import Base ContModel ContSpec MapRefModel.
Local Open Scope Z_scope.

Section Spec.
Context {K V : Type} (lt : K -> K -> bool) (default : V).
(** the value of each key, and for each reference its key, if any *)
Record table := Table { value : K -> option V; keys : list (option K) }.
Definition alive (t : table) (h : nat) : Prop := exists k, nth_error (keys t) h = Some (Some k).
Definition glegal (t : table) (o : gop K V) : Prop :=
  match o with
  | GGet k | GKeep k => value t k <> None
  | GSetFrom _ h | GRead h | GWrite h _ => alive t h
  | _ => True
  end.
(** these calls check nothing *)
Definition gloose (o : gop K V) : Prop := match o with GSetFrom _ _ | GRead _ | GWrite _ _ => True | _ => False end.
Definition becomes (t t' : table) (k : K) (v : option V) : Prop :=
  forall q, value t' q = if same lt k q then v else value t q.
Definition gpost (t : table) (o : gop K V) (t' : table) (r : result V) : Prop :=
  match o with
  | GSet k v => r = RNone /\ becomes t t' k (Some v) /\ keys t' = keys t
  | GSetFrom k h => r = RNone /\ keys t' = keys t /\
      exists q v, nth_error (keys t) h = Some (Some q) /\ value t q = Some v /\ becomes t t' k (Some v)
  | GErase k => r = RNone /\ becomes t t' k None /\
      keys t' = map (fun o => match o with Some q => if same lt k q then None else Some q | None => None end) (keys t)
  | GClear => r = RNone /\ (forall q, value t' q = None) /\ keys t' = map (fun _ => None) (keys t)
  | GGet k => exists v, t' = t /\ value t k = Some v /\ r = RVal v
  | GKeep k => r = RNone /\ value t' = value t /\ keys t' = keys t ++ [Some k]
  | GKeepIndex k => r = RNone /\ keys t' = keys t ++ [Some k] /\
      becomes t t' k (match value t k with Some v => Some v | None => Some default end)
  | GRead h => t' = t /\ exists k v, nth_error (keys t) h = Some (Some k) /\ value t k = Some v /\ r = RVal v
  | GWrite h v => r = RNone /\ keys t' = keys t /\ exists k, nth_error (keys t) h = Some (Some k) /\ becomes t t' k (Some v)
  end.
(** what the Map holds *)
Definition shows (st : mstore K V) (t : table) : Prop :=
  forall k, value t k = match t_find fst lt k (entries st) with Some e => Some (snd (snd e)) | None => None end.
(** the calls that remove values, and the number of references a program takes *)
Definition drops (o : gop K V) : bool := match o with GErase _ | GClear => true | _ => false end.
Definition keeps (o : gop K V) : nat := match o with GKeep _ | GKeepIndex _ => 1 | _ => 0 end.
Fixpoint numbered (n : nat) (os : list (gop K V)) : bool :=
  match os with
  | [] => true
  | o :: os => match o with GSetFrom _ h | GRead h | GWrite h _ => Nat.ltb h n | _ => true end && numbered (n + keeps o) os
  end.
End Spec.
Arguments table K V : clear implicits.
