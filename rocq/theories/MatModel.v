(** Model of src/include/math_utils/Matrix.h ([Matrix<ValueType>]).

    [ValueType] is any type with the operations below (exact arithmetic; machine
    overflow and floating-point rounding of a concrete ValueType are not
    modelled).  A matrix object owns its buffers: [cells] is the contents of
    [elem], [live] is false between [clear()] and the next allocation; using or
    freeing a dead buffer is UB.  [assert] failures are modelled by [Err]
    (abort; the library is compiled with assertions).  Dimensions are
    non-negative and the [memset] of a new matrix makes every entry zero.
    Objects leaked by operator* and pow are not tracked. *)
From Verif Require Import Base.
Local Open Scope Z_scope.

(** operations of ValueType that Matrix.h uses *)
Record ops (A : Type) := Ops {
  o0 : A; o1 : A;
  oadd : A -> A -> A; osub : A -> A -> A; omul : A -> A -> A; odiv : A -> A -> A;
  oeqb : A -> A -> bool }.
Arguments o0 {A}. Arguments o1 {A}. Arguments oadd {A}. Arguments osub {A}.
Arguments omul {A}. Arguments odiv {A}. Arguments oeqb {A}.

(** data members, Matrix.h:195-197 *)
Record mat (A : Type) := Mat { row : Z; col : Z; cells : list (list A); live : bool }.
Arguments Mat {A}. Arguments row {A}. Arguments col {A}. Arguments cells {A}. Arguments live {A}.

Section Model.
Context {A : Type} (o : ops A).

(** elem[i][j] read and written, Matrix.h:51 *)
Definition mget (m : mat A) (i j : Z) : outcome A :=
  if live m then r <- aget (cells m) i ;; aget r j else UB.
(** [elem[i][j] = v], Matrix.h:51 *)
Definition mset (m : mat A) (i j : Z) (v : A) : outcome (mat A) :=
  if live m then
    r <- aget (cells m) i ;; r' <- aset r j v ;; c <- aset (cells m) i r' ;;
    Ok (Mat (row m) (col m) c true)
  else UB.

(** Matrix(int n, int m), Matrix.h:20-26 (a negative size makes [new] throw) *)
Definition mk (n m : Z) : outcome (mat A) :=
  if (n <? 0) || (m <? 0) then Err
  else Ok (Mat n m (repeat (repeat (o0 o) (Z.to_nat m)) (Z.to_nat n)) true).

(** for i < n, for j < m: body; the double loops of Matrix.h:21-34, 92-113 *)
Definition loop2 {S} (n m : Z) (body : Z -> Z -> S -> outcome S) (s : S) : outcome S :=
  for_loop (Z.to_nat n) 0 (fun i s => for_loop (Z.to_nat m) 0 (body i) s) s.

(** Matrix(std::vector<std::vector<int>>), Matrix.h:28-36; [f] is the conversion
    from int; [ini[0]] and [ini[i][j]] are unchecked *)
Definition of_lists (f : Z -> A) (ini : list (list Z)) : outcome (mat A) :=
  r0 <- aget ini 0 ;;
  let n := Z.of_nat (length ini) in
  let m := Z.of_nat (length r0) in
  a <- mk n m ;;
  loop2 n m (fun i j a => r <- aget ini i ;; x <- aget r j ;; mset a i j (f x)) a.

(** deepCopy, Matrix.h:127-134: allocates and copies *)
Definition deepCopy (src : mat A) : outcome (mat A) :=
  a <- mk (row src) (col src) ;;
  loop2 (row src) (col src) (fun i j a => x <- mget src i j ;; mset a i j x) a.
(** clear, Matrix.h:122-125: freeing freed buffers is UB *)
Definition clear (m : mat A) : outcome (mat A) :=
  if live m then Ok (Mat (row m) (col m) (cells m) false) else UB.
(** operator=, Matrix.h:43-48; [same] tells whether [this == &src] *)
Definition assign (same : bool) (this src : mat A) : outcome (mat A) :=
  if same then Ok this else _d <- clear this ;; deepCopy src.

(** operator==, Matrix.h:58-64 *)
Definition eqm (a b : mat A) : outcome bool :=
  if negb (row a =? row b) || negb (col a =? col b) then Ok false
  else loop2 (row a) (col a)
         (fun i j acc => if acc : bool then x <- mget a i j ;; y <- mget b i j ;; Ok (oeqb o x y) else Ok false)
         true.

(** the triple loop of operator* and operator*=, Matrix.h:73-76 and 83-86 *)
Definition mul_into (a b ret : mat A) : outcome (mat A) :=
  loop2 (row ret) (col ret)
    (fun i j r => for_loop (Z.to_nat (col a)) 0
       (fun k r => x <- mget a i k ;; y <- mget b k j ;; z <- mget r i j ;;
                   mset r i j (oadd o z (omul o x y))) r) ret.
(** operator*, Matrix.h:70-78: the result is copied out of the heap object *)
Definition mul (a b : mat A) : outcome (mat A) :=
  if negb (col a =? row b) then Err
  else ret <- mk (row a) (col b) ;; ret <- mul_into a b ret ;; deepCopy ret.
(** operator*=, Matrix.h:80-90: clear() and then operator=, which clears again *)
Definition mul_assign (a b : mat A) : outcome (mat A) :=
  if negb (col a =? row b) then Err
  else ret <- mk (row a) (col b) ;; ret <- mul_into a b ret ;;
       this <- clear a ;; assign false this ret.

(** operator+ and operator-, Matrix.h:92-98 and 107-113 *)
Definition zip_op (f : A -> A -> A) (a b : mat A) : outcome (mat A) :=
  if negb ((row a =? row b) && (col a =? col b)) then Err
  else ret <- mk (row a) (col a) ;;
       loop2 (row a) (col a)
         (fun i j r => x <- mget a i j ;; y <- mget b i j ;; mset r i j (f x y)) ret.
(** operator+, Matrix.h:92-98 *)
Definition add := zip_op (oadd o).
(** operator-, Matrix.h:107-113 *)
Definition sub := zip_op (osub o).
(** operator+= and operator-=, Matrix.h:100-105 and 115-120; [this] and [other]
    are distinct objects *)
Definition zip_assign (f : A -> A -> A) (a b : mat A) : outcome (mat A) :=
  if negb ((row a =? row b) && (col a =? col b)) then Err
  else loop2 (row a) (col a)
         (fun i j a => x <- mget a i j ;; y <- mget b i j ;; mset a i j (f x y)) a.
(** operator+=, Matrix.h:100-105 *)
Definition add_assign := zip_assign (oadd o).
(** operator-=, Matrix.h:115-120 *)
Definition sub_assign := zip_assign (osub o).

(** idMat, Matrix.h:136-140 *)
Definition idMat (n : Z) : outcome (mat A) :=
  m <- mk n n ;; for_loop (Z.to_nat n) 0 (fun i m => mset m i i (o1 o)) m.

(** pow, Matrix.h:142-151 *)
Fixpoint pow (fuel : nat) (src : mat A) (n : Z) : outcome (mat A) :=
  match fuel with
  | O => Fuel
  | S f =>
      if n =? 1 then deepCopy src
      else ret <- pow f src (Z.shiftr n 1) ;;
           if Z.odd n then mul_assign ret src else Ok ret
  end.

(** reduce, Matrix.h:153-181. *)
(** lines 159-163: first row j >= i with A[j][r] != 0, or -1 *)
Definition find_row (m : mat A) (i r : Z) : outcome Z :=
  for_loop (Z.to_nat (row m - i)) i
    (fun j found => if found <? 0 then x <- mget m j r ;; Ok (if oeqb o x (o0 o) then -1 else j)
                    else Ok found) (-1).
(** std::swap(A.elem[p], A.elem[q]), line 167 *)
Definition swap_rows (m : mat A) (p q : Z) : outcome (mat A) :=
  if live m then
    x <- aget (cells m) p ;; y <- aget (cells m) q ;;
    c <- aset (cells m) p y ;; c <- aset c q x ;; Ok (Mat (row m) (col m) c true)
  else UB.
(** the while loop, lines 157-170: returns nonZeroRow ([None] = never assigned),
    r and the matrix *)
Fixpoint find_pivot (fuel : nat) (m : mat A) (i r : Z) (nz : option Z) : outcome (option Z * Z * mat A) :=
  match fuel with
  | O => Fuel
  | S f =>
      if r <? col m then
        j <- find_row m i r ;;
        if j <? 0 then find_pivot f m i (r + 1) (Some j)
        else m' <- swap_rows m j i ;; Ok (Some j, r, m')
      else Ok (nz, r, m)
  end.
(** lines 172-173 *)
Definition normalise (m : mat A) (i r : Z) : outcome (mat A) :=
  m <- for_loop (Z.to_nat (col m - 1 - r)) 0
         (fun t m => let j := col m - 1 - t in
            x <- mget m i j ;; y <- mget m i r ;; mset m i j (odiv o x y)) m ;;
  mset m i r (o1 o).
(** lines 176-177 *)
Definition eliminate_row (i r : Z) (j : Z) (m : mat A) : outcome (mat A) :=
  m <- for_loop (Z.to_nat (col m - 1 - r)) 0
         (fun t m => let k := col m - 1 - t in
            x <- mget m j k ;; y <- mget m i k ;; z <- mget m j r ;;
            mset m j k (osub o x (omul o y z))) m ;;
  mset m j r (o0 o).
(** lines 175-178 *)
Definition eliminate (m : mat A) (i r : Z) : outcome (mat A) :=
  for_loop (Z.to_nat (row m - (i + 1))) (i + 1) (eliminate_row i r) m.
(** the outer loop, line 155; [n] rows remain *)
Fixpoint reduce_loop (n : nat) (i r : Z) (m : mat A) : outcome (mat A) :=
  match n with
  | O => Ok m
  | S n' =>
      ' (nz, r, m) <- find_pivot (S (Z.to_nat (col m - r))) m i r None ;;
      match nz with
      | None => UB
      | Some j =>
          if j <? 0 then Ok m
          else m <- normalise m i r ;; m <- eliminate m i r ;; reduce_loop n' (i + 1) r m
      end
  end.
(** the row reduction, Matrix.h:153-181 *)
Definition reduce (m : mat A) : outcome (mat A) := reduce_loop (Z.to_nat (row m)) 0 0 m.
End Model.
