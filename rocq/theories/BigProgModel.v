(** Programs with BigNum variables: statements over BigNum.h, executed on the model of
    BigModel.v.  Expressions build temporaries; variables are operands by reference. *)
From Verif Require Import Base DecModel BigModel.
Local Open Scope Z_scope.

(** expressions with variables, BigNum.h:23, 31, 84, 136, 188 *)
Inductive pexpr :=
| PVar (i : nat) | PInt (n : Z) | PStr (s : bytes)
| PAdd (a b : pexpr) | PSub (a b : pexpr) | PMul (a b : pexpr).
(** client statements: BigNum.h:23-57, 110-133, 162-185, 204-231, 305 *)
Inductive pstmt :=
| SNew (e : pexpr)            (* BigNum<N> x = e; *)
| SSet (i : nat) (e : pexpr)  (* x = e; *)
| SAdd (i : nat) (e : pexpr)  (* x += e; *)
| SSub (i : nat) (e : pexpr)  (* x -= e; *)
| SMul (i : nat) (n : Z)      (* x *= n; *)
| SInc (i : nat)              (* ++x; or x++; with the result unused *)
| SDec (i : nat)              (* --x; or x--; with the result unused *)
| SPrint (i : nat).           (* cout << x *)

Section Model.
Context (cap : nat).
(** a variable of the program, an object of BigNum.h:15-318 *)
Definition var (vs : list big) (i : nat) : outcome big :=
  match nth_error vs i with Some b => Ok b | None => UB end.
(** the new value of a variable, BigNum.h:52-57 *)
Fixpoint put (vs : list big) (i : nat) (b : big) : list big :=
  match vs, i with
  | [], _ => []
  | _ :: t, O => b :: t
  | x :: t, S i => x :: put t i b
  end.
(** evaluation of an expression, BigNum.h:23-47, 84-95, 136-147, 188-191; a sum or difference
    that does not return within the two calls of sub (BigNum.h:263-267) never does *)
Fixpoint peval (vs : list big) (e : pexpr) : outcome big :=
  match e with
  | PVar i => var vs i
  | PInt n => of_int64 cap n
  | PStr s => of_string cap s
  | PAdd a b => x <- peval vs a ;; y <- peval vs b ;; plus 2 cap x y
  | PSub a b => x <- peval vs a ;; y <- peval vs b ;; minus 2 cap x y
  | PMul a b => x <- peval vs a ;; y <- peval vs b ;; times cap x y
  end.
(** initialisation: a variable is copied (BigNum.h:43-47), a temporary becomes the variable *)
Definition init (vs : list big) (e : pexpr) : outcome big :=
  match e with PVar i => x <- var vs i ;; copy cap x | _ => peval vs e end.
(** one statement, BigNum.h:23-57, 110-133, 162-185, 204-231, 305-310 *)
Definition exec (vs : list big) (s : pstmt) : outcome (list big * list bytes) :=
  match s with
  | SNew e => b <- init vs e ;; Ok (vs ++ [b], [])
  | SSet i e => v <- peval vs e ;; x <- var vs i ;; r <- assign x v ;; Ok (put vs i r, [])
  | SAdd i e => v <- peval vs e ;; x <- var vs i ;; r <- plus_assign 2 cap x v ;; Ok (put vs i r, [])
  | SSub i e => v <- peval vs e ;; x <- var vs i ;; r <- minus_assign 2 cap x v ;; Ok (put vs i r, [])
  | SMul i n => x <- var vs i ;; r <- times_assign_int cap x n ;; Ok (put vs i r, [])
  | SInc i => x <- var vs i ;; r <- incr 2 cap x ;; Ok (put vs i r, [])
  | SDec i => x <- var vs i ;; r <- decr 2 cap x ;; Ok (put vs i r, [])
  | SPrint i => x <- var vs i ;; t <- toString x ;; Ok (vs, [t])
  end.
(** a whole program, statements of BigNum.h:23-57, 110-231, 305-310: final variables and output *)
Fixpoint execs (vs : list big) (p : list pstmt) : outcome (list big * list bytes) :=
  match p with
  | [] => Ok (vs, [])
  | s :: p => '(vs, o) <- exec vs s ;; '(vs, o') <- execs vs p ;; Ok (vs, o ++ o')
  end.
End Model.
