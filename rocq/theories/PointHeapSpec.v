(** Point expressions, their values, and the number of operators in them. *)
From Verif Require Import Base GeoModel PointHeapModel.

Inductive pexp (N : Type) :=
| PVar (p : list N) | PAdd (a b : pexp N) | PSub (a b : pexp N) | PScale (a : pexp N) (c : N) | PQuot (a : pexp N) (c : N).
Arguments PVar {N}. Arguments PAdd {N}. Arguments PSub {N}. Arguments PScale {N}. Arguments PQuot {N}.

Section Spec.
Context {N : Type} (A : num N).
(** every variable has [n] coordinates *)
Fixpoint dims (n : nat) (e : pexp N) : Prop :=
  match e with
  | PVar p => length p = n
  | PAdd a b | PSub a b => dims n a /\ dims n b
  | PScale a _ | PQuot a _ => dims n a
  end.
(** coordinate [i] of the value, by ordinary arithmetic on coordinates *)
Fixpoint coord (e : pexp N) (i : nat) : N :=
  match e with
  | PVar p => nth i p (nzero A)
  | PAdd a b => nadd A (coord a i) (coord b i)
  | PSub a b => nsub A (coord a i) (coord b i)
  | PScale a c => nmul A (coord a i) c
  | PQuot a c => ndiv A (coord a i) c
  end.
(** number of operators *)
Fixpoint operators (e : pexp N) : nat :=
  match e with
  | PVar _ => 0
  | PAdd a b | PSub a b => S (operators a + operators b)
  | PScale a _ | PQuot a _ => S (operators a)
  end.
(** evaluation by the library; operands may be evaluated in either order, chosen by [o] for each operator *)
Fixpoint evaluate (o : pexp N -> bool) (e : pexp N) (h : pheap) : list N * pheap :=
  let both op a b h :=
    if o e then let '(p, h) := evaluate o a h in let '(q, h) := evaluate o b h in op p q h
    else let '(q, h) := evaluate o b h in let '(p, h) := evaluate o a h in op p q h in
  match e with
  | PVar p => (p, h)
  | PAdd a b => both (hadd A) a b h
  | PSub a b => both (hsub A) a b h
  | PScale a c => let '(p, h) := evaluate o a h in hscale A p c h
  | PQuot a c => let '(p, h) := evaluate o a h in hquot A p c h
  end.
End Spec.
(** the heap after [h] contains all of [h] unchanged and [k] more points, which nothing frees *)
Definition leaked {N} (k : nat) (h h' : list (list N)) : Prop := exists new, h' = h ++ new /\ length new = k.
(** repeat a call [k] times *)
Fixpoint calls {H R} (k : nat) (f : H -> R * H) (h : H) : H := match k with O => h | S k => calls k f (snd (f h)) end.
