(** The meaning of programs with BigNum variables over the natural numbers. *)
From Verif Require Import Base DecModel BigModel BigSpec BigProgModel.
Local Open Scope Z_scope.

(** number of decimal digits, 0 for 0 *)
Fixpoint nd_loop (fuel : nat) (z : Z) : Z :=
  match fuel with O => 0 | S f => if z <=? 0 then 0 else 1 + nd_loop f (z / 10) end.
Definition nd (z : Z) : Z := nd_loop (S (Z.to_nat (Z.log2 z))) z.

(** a variable: its number, and whether it has never lost digits (nor been copy-constructed) *)
Definition zvars := list (Z * bool).
Definition value (zs : zvars) (i : nat) : Z := fst (nth i zs (0, false)).
Definition solid (zs : zvars) (i : nat) : bool := snd (nth i zs (0, false)).
Fixpoint zval (zs : zvars) (e : pexpr) : Z :=
  match e with
  | PVar i => value zs i
  | PInt n => n
  | PStr s => dec_value s
  | PAdd a b => zval zs a + zval zs b
  | PSub a b => zval zs a - zval zs b
  | PMul a b => zval zs a * zval zs b
  end.
(** temporaries are solid *)
Definition esolid (zs : zvars) (e : pexpr) : bool := match e with PVar i => solid zs i | _ => true end.
Fixpoint zput (zs : zvars) (i : nat) (x : Z * bool) : zvars :=
  match zs, i with
  | [], _ => []
  | _ :: t, O => x :: t
  | y :: t, S i => y :: zput t i x
  end.
(** x gets the number [z]: it stays solid unless it loses digits *)
Definition store (zs : zvars) (i : nat) (z : Z) : zvars := zput zs i (z, solid zs i && (nd (value zs i) <=? nd z)).
Definition zexec (zs : zvars) (s : pstmt) : zvars * list Z :=
  match s with
  | SNew e => (zs ++ [(zval zs e, match e with PVar _ => false | _ => true end)], [])
  | SSet i e => (store zs i (zval zs e), [])
  | SAdd i e => (store zs i (value zs i + zval zs e), [])
  | SSub i e => (store zs i (value zs i - zval zs e), [])
  | SMul i n => (store zs i (value zs i * n), [])
  | SInc i => (store zs i (value zs i + 1), [])
  | SDec i => (store zs i (value zs i - 1), [])
  | SPrint i => (zs, [value zs i])
  end.
Fixpoint zexecs (zs : zvars) (p : list pstmt) : zvars * list Z :=
  match p with
  | [] => (zs, [])
  | s :: p => let '(zs, o) := zexec zs s in let '(zs, o') := zexecs zs p in (zs, o ++ o')
  end.

Section Fine.
Context (cap : nat).
Definition small (z : Z) : Prop := 0 <= z < 10 ^ (Z.of_nat cap - 1).
(** an operand that is not solid must be at least as long as the other one *)
Definition reaches (sol : bool) (x y : Z) : Prop := sol = true \/ nd y <= nd x.
(** every number is natural and below 10^(cap-1), every literal is valid, and the operands of sums
    and differences are solid or long enough *)
Fixpoint efine (zs : zvars) (e : pexpr) : Prop :=
  small (zval zs e) /\
  match e with
  | PVar i => (i < length zs)%nat
  | PInt n => in_int64 n = true
  | PStr s => forallb is_digit s = true /\ s <> [] /\ hd_error s <> Some "0"%char
  | PAdd a b => efine zs a /\ efine zs b /\ reaches (esolid zs a) (zval zs a) (zval zs b) /\ reaches (esolid zs b) (zval zs b) (zval zs a)
  | PSub a b => efine zs a /\ efine zs b /\ reaches (esolid zs b) (zval zs b) (zval zs a)
  | PMul a b => efine zs a /\ efine zs b
  end.
Definition sfine (zs : zvars) (s : pstmt) : Prop :=
  match s with
  | SNew e => efine zs e
  | SSet i e => (i < length zs)%nat /\ efine zs e
  | SAdd i e => efine zs (PAdd (PVar i) e)
  | SSub i e => efine zs (PSub (PVar i) e)
  | SMul i n => efine zs (PMul (PVar i) (PInt n))
  | SInc i => efine zs (PAdd (PVar i) (PInt 1))
  | SDec i => efine zs (PSub (PVar i) (PInt 1))
  | SPrint i => (i < length zs)%nat
  end.
Fixpoint fine (zs : zvars) (p : list pstmt) : Prop :=
  match p with [] => True | s :: p => sfine zs s /\ fine (fst (zexec zs s)) p end.
End Fine.

(** the text of a number; zero is printed as nothing (C25) *)
Definition shows (t : bytes) (z : Z) : Prop := (z = 0 -> t = []) /\ (z <> 0 -> numeral t z).

(** f(0), ..., f(n-1) *)
Fixpoint fib (n : nat) : Z := match n with O => 0 | S O => 1 | S (S k as m) => fib m + fib k end.
Fixpoint repeated {A} (n : nat) (p : list A) : list A := match n with O => [] | S n => p ++ repeated n p end.
(** [BigNum<N> a = 0, b = 1, c = 0; repeat n times: c = a + b; a = b; b = c;  cout << a] *)
Definition fib_program (n : nat) : list pstmt :=
  [SNew (PInt 0); SNew (PInt 1); SNew (PInt 0)] ++ repeated n [SSet 2 (PAdd (PVar 0) (PVar 1)); SSet 0 (PVar 1); SSet 1 (PVar 2)] ++ [SPrint 0].
(** [BigNum<N> f = 1; for (i = 1; i <= n; i++) f *= i; cout << f] *)
Definition fact_program (n : nat) : list pstmt :=
  [SNew (PInt 1)] ++ map (fun i => SMul 0 (Z.of_nat i)) (seq 1 n) ++ [SPrint 0].
Fixpoint factorial (n : nat) : Z := match n with O => 1 | S k => Z.of_nat n * factorial k end.
