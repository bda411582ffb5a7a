(** Matrix variables as values: every variable simply holds a matrix (the value operations are
    those of MatModel.v, whose meaning is stated by C31-C33), and the memory a program may hold. *)
From Verif Require Import Base MatModel MatSpec MatHeapModel.
Local Open Scope Z_scope.

Section Spec.
Context {A : Type} (o : ops A) (f : Z -> A).
Definition env := list (option (mat A)).
Definition def (e : env) (m : mat A) : outcome (env * mret (A := A)) := Ok (e ++ [Some m], RNone).
Definition vstep (e : env) (p : mop (A := A)) : outcome (env * mret (A := A)) :=
  match p with
  | MNew n m => r <- mk o n m ;; def e r
  | MLists ini => r <- of_lists o f ini ;; def e r
  | MCopy i => x <- var e i ;; def e x
  | MAssign i j => x <- var e i ;; y <- var e j ;; Ok (upd e i (Some y), RNone)
  | MEnd i => x <- var e i ;; Ok (upd e i None, RNone)
  | MGet i r c => x <- var e i ;; v <- mget x r c ;; Ok (e, RVal v)
  | MSet i r c v => x <- var e i ;; x <- mset x r c v ;; Ok (upd e i (Some x), RNone)
  | MEq i j => x <- var e i ;; y <- var e j ;; b <- eqm o x y ;; Ok (e, RBool b)
  | MAdd i j => x <- var e i ;; y <- var e j ;; r <- add o x y ;; def e r
  | MSub i j => x <- var e i ;; y <- var e j ;; r <- sub o x y ;; def e r
  | MMul i j => x <- var e i ;; y <- var e j ;; r <- mul o x y ;; def e r
  | MAddTo i j => x <- var e i ;; y <- var e j ;; x <- add_assign o x y ;; Ok (upd e i (Some x), RNone)
  | MSubFrom i j => x <- var e i ;; y <- var e j ;; x <- sub_assign o x y ;; Ok (upd e i (Some x), RNone)
  | MMulBy i j => x <- var e i ;; y <- var e j ;; if col x =? row y then UB else Err
  | MPow i n => x <- var e i ;; r <- pow o 33 x n ;; def e r
  | MReduce i => x <- var e i ;; x <- reduce o x ;; Ok (upd e i (Some x), RNone)
  end.
(** blocks that an operation allocates and nobody can free: the product, or the power, made by
    [new]: the object, its pointer array and its rows *)
Definition lost (e : env) (p : mop (A := A)) : Z :=
  match p with
  | MMul i _ | MPow i _ => match var e i with Ok x => 2 + row x | _ => 0 end
  | _ => 0
  end.
(** values of the variables and results; total of lost blocks *)
Fixpoint vrun (e : env) (ps : list (mop (A := A))) : outcome (env * list (mret (A := A)) * Z) :=
  match ps with
  | [] => Ok (e, [], 0)
  | p :: ps => ' (e1, r) <- vstep e p ;; ' (e2, rs, k) <- vrun e1 ps ;; Ok (e2, r :: rs, lost e p + k)
  end.
(** blocks of the variables in scope: a pointer array and the rows of each *)
Fixpoint held (e : env) : Z :=
  match e with
  | [] => 0
  | Some m :: e => 1 + row m + held e
  | None :: e => held e
  end.
(** allocated blocks *)
Fixpoint allocated (h : heap (A := A)) : Z :=
  match h with
  | [] => 0
  | Some _ :: h => 1 + allocated h
  | None :: h => allocated h
  end.
(** operations that lose memory *)
Definition multiplies (p : mop (A := A)) : bool := match p with MMul _ _ | MPow _ _ => true | _ => false end.
End Spec.
