(** Matrix.h ([Matrix<ValueType>]) with the integer types of IntTyModel as ValueType: every
    operation on entries is done in the promoted type (undefined on signed overflow) and
    converted back when it is stored.  Storage, copies and the loops are those of
    MatModel.v; [operator*=] and [pow] do not depend on the entry type beyond what C32 says. *)
From Verif Require Import Base MatModel IntTyModel.
Local Open Scope Z_scope.

(** zero, one and [!=] of the entries: Matrix.h:24 (memset), 138, 161, 173, 177; the arithmetic of this record is not used *)
Definition Eops : ops Z := Ops Z 0 1 Z.add Z.sub Z.mul Z.quot Z.eqb.

Section Model.
Context (t : ty).
(** [x + y] stored in an entry, Matrix.h:96 and 103 *)
Definition eadd (x y : Z) : outcome Z := v <- arith (promote t) (x + y) ;; Ok (conv t v).
(** [x - y] stored in an entry, Matrix.h:111 and 118 *)
Definition esub (x y : Z) : outcome Z := v <- arith (promote t) (x - y) ;; Ok (conv t v).
(** [z += x * y], Matrix.h:76 and 86 *)
Definition emuladd (z x y : Z) : outcome Z :=
  p <- arith (promote t) (x * y) ;; v <- arith (promote t) (z + p) ;; Ok (conv t v).
(** [z -= x * y], Matrix.h:176 *)
Definition emulsub (z x y : Z) : outcome Z :=
  p <- arith (promote t) (x * y) ;; v <- arith (promote t) (z - p) ;; Ok (conv t v).
(** [x /= y], Matrix.h:172 *)
Definition ediv (x y : Z) : outcome Z := v <- adiv (promote t) x y ;; Ok (conv t v).

(** the triple loop of operator*, Matrix.h:73-76 *)
Definition imul_into (a b ret : mat Z) : outcome (mat Z) :=
  loop2 (row ret) (col ret)
    (fun i j r => for_loop (Z.to_nat (col a)) 0
       (fun k r => x <- mget a i k ;; y <- mget b k j ;; z <- mget r i j ;; v <- emuladd z x y ;; mset r i j v) r) ret.
(** operator*, Matrix.h:70-78 *)
Definition imul (a b : mat Z) : outcome (mat Z) :=
  if negb (col a =? row b) then Err
  else ret <- mk Eops (row a) (col b) ;; ret <- imul_into a b ret ;; deepCopy Eops ret.
(** operator+ and operator-, Matrix.h:92-98 and 107-113 *)
Definition izip_op (f : Z -> Z -> outcome Z) (a b : mat Z) : outcome (mat Z) :=
  if negb ((row a =? row b) && (col a =? col b)) then Err
  else ret <- mk Eops (row a) (col a) ;;
       loop2 (row a) (col a) (fun i j r => x <- mget a i j ;; y <- mget b i j ;; v <- f x y ;; mset r i j v) ret.
(** operator+, Matrix.h:92-98 *)
Definition iadd := izip_op eadd.
(** operator-, Matrix.h:107-113 *)
Definition isub := izip_op esub.
(** operator+= and operator-=, Matrix.h:100-105 and 115-120, for distinct objects *)
Definition izip_assign (f : Z -> Z -> outcome Z) (a b : mat Z) : outcome (mat Z) :=
  if negb ((row a =? row b) && (col a =? col b)) then Err
  else loop2 (row a) (col a) (fun i j a => x <- mget a i j ;; y <- mget b i j ;; v <- f x y ;; mset a i j v) a.
(** operator+=, Matrix.h:100-105 *)
Definition iadd_assign := izip_assign eadd.
(** operator-=, Matrix.h:115-120 *)
Definition isub_assign := izip_assign esub.

(** reduce, lines 172-173 *)
Definition inormalise (m : mat Z) (i r : Z) : outcome (mat Z) :=
  m <- for_loop (Z.to_nat (col m - 1 - r)) 0
         (fun t m => let j := col m - 1 - t in
            x <- mget m i j ;; y <- mget m i r ;; v <- ediv x y ;; mset m i j v) m ;;
  mset m i r 1.
(** reduce, Matrix.h:176-177 *)
Definition ieliminate_row (i r : Z) (j : Z) (m : mat Z) : outcome (mat Z) :=
  m <- for_loop (Z.to_nat (col m - 1 - r)) 0
         (fun t m => let k := col m - 1 - t in
            x <- mget m j k ;; y <- mget m i k ;; z <- mget m j r ;; v <- emulsub x y z ;; mset m j k v) m ;;
  mset m j r 0.
(** reduce, Matrix.h:175-178 *)
Definition ieliminate (m : mat Z) (i r : Z) : outcome (mat Z) :=
  for_loop (Z.to_nat (row m - (i + 1))) (i + 1) (ieliminate_row i r) m.
(** the outer loop of reduce, Matrix.h:155; [n] rows remain *)
Fixpoint ireduce_loop (n : nat) (i r : Z) (m : mat Z) : outcome (mat Z) :=
  match n with
  | O => Ok m
  | S n' =>
      ' (nz, r, m) <- find_pivot Eops (S (Z.to_nat (col m - r))) m i r None ;;
      match nz with
      | None => UB
      | Some j =>
          if j <? 0 then Ok m
          else m <- inormalise m i r ;; m <- ieliminate m i r ;; ireduce_loop n' (i + 1) r m
      end
  end.
(** reduce, Matrix.h:153-181 *)
Definition ireduce (m : mat Z) : outcome (mat Z) := ireduce_loop (Z.to_nat (row m)) 0 0 m.
End Model.
