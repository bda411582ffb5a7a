(** Model of src/include/math_utils/Matrix.h at the level of memory: Matrix objects point to an
    array of row pointers, every row is an array of its own.  Same simplifications as MatModel.v
    (exact arithmetic of ValueType, assertion failures and exceptions are [Err]).  Addresses are
    never reused; reading or freeing memory that is not allocated is UB. *)
From Verif Require Import Base MatModel.
Local Open Scope Z_scope.

Section Model.
Context {A : Type} (o : ops A).

(** an allocated block: ValueType*[row] (a pointer not yet assigned is [None]), ValueType[col],
    or the Matrix object made by [new Matrix] (Matrix.h:72, 82, 144; its members are kept in [obj]) *)
Inductive block := Ptrs (l : list (option nat)) | Vals (l : list A) | Self.
(** memory: position = address, [None] = freed; as created and freed by Matrix.h:21-34, 122-134 *)
Definition heap := list (option block).
(** data members, Matrix.h:195-197 *)
Record obj := Obj { elem : nat; orow : Z; ocol : Z }.

(** new, delete[], and access through a pointer (C++ operations used at Matrix.h:21-34, 122-133) *)
Definition alloc (h : heap) (b : block) : heap * nat := (h ++ [Some b], length h).
(** a read through a pointer, Matrix.h:21-34, 51 *)
Definition load (h : heap) (a : nat) : outcome block :=
  match nth_error h a with Some (Some b) => Ok b | _ => UB end.
(** a write through a pointer, Matrix.h:21-34, 51 *)
Definition store (h : heap) (a : nat) (b : block) : outcome heap := _b <- load h a ;; Ok (upd h a (Some b)).
(** [delete[]], Matrix.h:122-133 *)
Definition free (h : heap) (a : nat) : outcome heap := _b <- load h a ;; Ok (upd h a None).
(** the row pointers [elem], Matrix.h:21-34 *)
Definition ptrs (h : heap) (a : nat) : outcome (list (option nat)) :=
  b <- load h a ;; match b with Ptrs l => Ok l | _ => UB end.
(** the entries of a row, Matrix.h:21-34 *)
Definition vals (h : heap) (a : nat) : outcome (list A) :=
  b <- load h a ;; match b with Vals l => Ok l | _ => UB end.
(** operator[], Matrix.h:51: the row pointer, unchecked *)
Definition row_at (h : heap) (x : obj) (i : Z) : outcome nat :=
  l <- ptrs h (elem x) ;; p <- aget l i ;; match p with Some a => Ok a | None => UB end.
(** x[i][j] read and written; Matrix.h:51 *)
Definition hget (h : heap) (x : obj) (i j : Z) : outcome A := a <- row_at h x i ;; v <- vals h a ;; aget v j.
(** [x[i][j] = y], Matrix.h:51 *)
Definition hset (h : heap) (x : obj) (i j : Z) (y : A) : outcome heap :=
  a <- row_at h x i ;; v <- vals h a ;; v' <- aset v j y ;; store h a (Vals v').
(** elem[i] = a, Matrix.h:23, 33, 131 *)
Definition set_row (h : heap) (x : obj) (i : Z) (a : nat) : outcome heap :=
  l <- ptrs h (elem x) ;; l' <- aset l i (Some a) ;; store h (elem x) (Ptrs l').

(** allocation of elem and of the rows, each row filled by [fill] before the next one is
    allocated: Matrix.h:21-25, 31-35, 129-133 (a negative size makes [new] throw; the entries of
    a new row are 0 here, indeterminate at lines 33 and 131 but written before they are read) *)
Definition construct (h : heap) (n m : Z) (fill : Z -> obj -> heap -> outcome heap) : outcome (heap * obj) :=
  if (n <? 0) || (m <? 0) then Err
  else
    let (h, e) := alloc h (Ptrs (repeat None (Z.to_nat n))) in
    let x := Obj e n m in
    h <- for_loop (Z.to_nat n) 0
           (fun i h => let (h, a) := alloc h (Vals (repeat (o0 o) (Z.to_nat m))) in
                       h <- set_row h x i a ;; fill i x h) h ;;
    Ok (h, x).
(** Matrix(int n, int m), Matrix.h:20-26; memset, line 24 *)
Definition hmk (h : heap) (n m : Z) : outcome (heap * obj) := construct h n m (fun _ _ h => Ok h).
(** Matrix(std::vector<std::vector<int>>), Matrix.h:28-36 *)
Definition hof_lists (f : Z -> A) (h : heap) (ini : list (list Z)) : outcome (heap * obj) :=
  r0 <- aget ini 0 ;;
  construct h (Z.of_nat (length ini)) (Z.of_nat (length r0))
    (fun i x h => for_loop (length r0) 0 (fun j h => r <- aget ini i ;; v <- aget r j ;; hset h x i j (f v)) h).
(** deepCopy, Matrix.h:127-134, and the copy constructor, line 38 *)
Definition hcopy (h : heap) (src : obj) : outcome (heap * obj) :=
  construct h (orow src) (ocol src)
    (fun i x h => for_loop (Z.to_nat (ocol src)) 0 (fun j h => v <- hget h src i j ;; hset h x i j v) h).
(** clear, Matrix.h:122-125, and the destructor, line 40 *)
Definition hclear (h : heap) (x : obj) : outcome heap :=
  h <- for_loop (Z.to_nat (orow x)) 0 (fun i h => a <- row_at h x i ;; free h a) h ;;
  free h (elem x).
(** operator=, Matrix.h:43-48; [same] tells whether [this == &src] *)
Definition hassign (same : bool) (h : heap) (this src : obj) : outcome (heap * obj) :=
  if same then Ok (h, this) else h <- hclear h this ;; hcopy h src.

(** operator==, Matrix.h:58-64 *)
Definition heq (h : heap) (a b : obj) : outcome bool :=
  if negb (orow a =? orow b) || negb (ocol a =? ocol b) then Ok false
  else loop2 (orow a) (ocol a)
         (fun i j acc => if acc : bool then x <- hget h a i j ;; y <- hget h b i j ;; Ok (oeqb o x y) else Ok false)
         true.
(** the triple loop, Matrix.h:73-76 and 83-86 *)
Definition hmul_into (a b ret : obj) (h : heap) : outcome heap :=
  loop2 (orow ret) (ocol ret)
    (fun i j h => for_loop (Z.to_nat (ocol a)) 0
       (fun k h => x <- hget h a i k ;; y <- hget h b k j ;; z <- hget h ret i j ;;
                   hset h ret i j (oadd o z (omul o x y))) h) h.
(** Matrix* ret = new Matrix(row, other.col) and the loop, Matrix.h:71-76 and 81-86 *)
Definition hproduct (h : heap) (a b : obj) : outcome (heap * obj) :=
  if negb (ocol a =? orow b) then Err
  else
    let (h, _s) := alloc h Self in
    ' (h, ret) <- hmk h (orow a) (ocol b) ;;
    h <- hmul_into a b ret h ;; Ok (h, ret).
(** operator*, Matrix.h:70-78: returns a copy of *ret *)
Definition hmul (h : heap) (a b : obj) : outcome (heap * obj) :=
  ' (h, ret) <- hproduct h a b ;; hcopy h ret.
(** operator*=, Matrix.h:80-90 *)
Definition hmul_assign (h : heap) (a b : obj) : outcome (heap * obj) :=
  ' (h, ret) <- hproduct h a b ;; h <- hclear h a ;; hassign false h a ret.
(** operator+ and operator-, Matrix.h:92-98 and 107-113 *)
Definition hzip (f : A -> A -> A) (h : heap) (a b : obj) : outcome (heap * obj) :=
  if negb ((orow a =? orow b) && (ocol a =? ocol b)) then Err
  else
    ' (h, ret) <- hmk h (orow a) (ocol a) ;;
    h <- loop2 (orow a) (ocol a)
           (fun i j h => x <- hget h a i j ;; y <- hget h b i j ;; hset h ret i j (f x y)) h ;;
    Ok (h, ret).
(** operator+= and operator-=, Matrix.h:100-105 and 115-120; [a] and [b] may be the same object *)
Definition hzip_assign (f : A -> A -> A) (h : heap) (a b : obj) : outcome heap :=
  if negb ((orow a =? orow b) && (ocol a =? ocol b)) then Err
  else loop2 (orow a) (ocol a)
         (fun i j h => x <- hget h a i j ;; y <- hget h b i j ;; hset h a i j (f x y)) h.
(** pow, Matrix.h:142-151: a reference to an object made by [new] *)
Fixpoint hpow (fuel : nat) (h : heap) (src : obj) (n : Z) : outcome (heap * obj) :=
  match fuel with
  | O => Fuel
  | S f =>
      if n =? 1 then let (h, _s) := alloc h Self in hcopy h src
      else ' (h, ret) <- hpow f h src (Z.shiftr n 1) ;;
           if Z.odd n then hmul_assign h ret src else Ok (h, ret)
  end.

(** reduce, Matrix.h:153-181 *)
(** lines 159-163 *)
Definition hfind_row (h : heap) (x : obj) (i r : Z) : outcome Z :=
  for_loop (Z.to_nat (orow x - i)) i
    (fun j found => if found <? 0 then v <- hget h x j r ;; Ok (if oeqb o v (o0 o) then -1 else j)
                    else Ok found) (-1).
(** std::swap(A.elem[p], A.elem[q]), line 167: the pointers are exchanged *)
Definition hswap (h : heap) (x : obj) (p q : Z) : outcome heap :=
  l <- ptrs h (elem x) ;; a <- aget l p ;; b <- aget l q ;;
  l <- aset l p b ;; l <- aset l q a ;; store h (elem x) (Ptrs l).
(** lines 157-170 *)
Fixpoint hfind_pivot (fuel : nat) (h : heap) (x : obj) (i r : Z) (nz : option Z) : outcome (option Z * Z * heap) :=
  match fuel with
  | O => Fuel
  | S f =>
      if r <? ocol x then
        j <- hfind_row h x i r ;;
        if j <? 0 then hfind_pivot f h x i (r + 1) (Some j)
        else h' <- hswap h x j i ;; Ok (Some j, r, h')
      else Ok (nz, r, h)
  end.
(** lines 172-173 *)
Definition hnormalise (x : obj) (i r : Z) (h : heap) : outcome heap :=
  h <- for_loop (Z.to_nat (ocol x - 1 - r)) 0
         (fun t h => let j := ocol x - 1 - t in
            u <- hget h x i j ;; v <- hget h x i r ;; hset h x i j (odiv o u v)) h ;;
  hset h x i r (o1 o).
(** lines 176-177 *)
Definition heliminate_row (x : obj) (i r : Z) (j : Z) (h : heap) : outcome heap :=
  h <- for_loop (Z.to_nat (ocol x - 1 - r)) 0
         (fun t h => let k := ocol x - 1 - t in
            u <- hget h x j k ;; v <- hget h x i k ;; w <- hget h x j r ;;
            hset h x j k (osub o u (omul o v w))) h ;;
  hset h x j r (o0 o).
(** lines 175-178 *)
Definition heliminate (x : obj) (i r : Z) (h : heap) : outcome heap :=
  for_loop (Z.to_nat (orow x - (i + 1))) (i + 1) (heliminate_row x i r) h.
(** line 155 *)
Fixpoint hreduce_loop (n : nat) (x : obj) (i r : Z) (h : heap) : outcome heap :=
  match n with
  | O => Ok h
  | S n' =>
      ' (nz, r, h) <- hfind_pivot (S (Z.to_nat (ocol x - r))) h x i r None ;;
      match nz with
      | None => UB
      | Some j =>
          if j <? 0 then Ok h
          else h <- hnormalise x i r h ;; h <- heliminate x i r h ;; hreduce_loop n' x (i + 1) r h
      end
  end.
(** the row reduction, Matrix.h:153-181 *)
Definition hreduce (h : heap) (x : obj) : outcome heap := hreduce_loop (Z.to_nat (orow x)) x 0 0 h.

(** a client program: Matrix variables, numbered in the order of their definition; calls on Matrix.h *)
Inductive mop :=
| MNew (n m : Z)                     (* Matrix x(n, m) *)
| MLists (ini : list (list Z))       (* Matrix x(ini) *)
| MCopy (i : nat)                    (* Matrix x(v_i) *)
| MAssign (i j : nat)                (* v_i = v_j *)
| MEnd (i : nat)                     (* the lifetime of v_i ends *)
| MGet (i : nat) (r c : Z)           (* v_i[r][c] *)
| MSet (i : nat) (r c : Z) (v : A)   (* v_i[r][c] = v *)
| MEq (i j : nat)                    (* v_i == v_j *)
| MAdd (i j : nat) | MSub (i j : nat) | MMul (i j : nat)   (* Matrix x = v_i op v_j *)
| MAddTo (i j : nat) | MSubFrom (i j : nat) | MMulBy (i j : nat)   (* v_i op= v_j *)
| MPow (i : nat) (n : Z)             (* Matrix x = pow(v_i, n) *)
| MReduce (i : nat).                 (* v_i.reduce() *)
(** what an operation returns; return values of the calls on Matrix.h *)
Inductive mret := RNone | RVal (v : A) | RBool (b : bool).
(** memory and the client's Matrix variables (Matrix.h) *)
Record world := World { vars : list (option obj); mem : heap }.
(** a variable in scope; a client variable of type Matrix (Matrix.h) *)
Definition var {B} (l : list (option B)) (i : nat) : outcome B :=
  match nth_error l i with Some (Some x) => Ok x | _ => UB end.
(** a client variable initialised by a Matrix, Matrix.h:21-34 *)
Definition newvar (w : world) (p : heap * obj) : outcome (world * mret) :=
  Ok (World (vars w ++ [Some (snd p)]) (fst p), RNone).

(** one call on Matrix.h *)
Definition mstep (f : Z -> A) (w : world) (p : mop) : outcome (world * mret) :=
  let h := mem w in
  match p with
  | MNew n m => r <- hmk h n m ;; newvar w r
  | MLists ini => r <- hof_lists f h ini ;; newvar w r
  | MCopy i => x <- var (vars w) i ;; r <- hcopy h x ;; newvar w r
  | MAssign i j =>
      x <- var (vars w) i ;; y <- var (vars w) j ;;
      ' (h, x) <- hassign (Nat.eqb i j) h x y ;; Ok (World (upd (vars w) i (Some x)) h, RNone)
  | MEnd i => x <- var (vars w) i ;; h <- hclear h x ;; Ok (World (upd (vars w) i None) h, RNone)
  | MGet i r c => x <- var (vars w) i ;; v <- hget h x r c ;; Ok (w, RVal v)
  | MSet i r c v => x <- var (vars w) i ;; h <- hset h x r c v ;; Ok (World (vars w) h, RNone)
  | MEq i j => x <- var (vars w) i ;; y <- var (vars w) j ;; b <- heq h x y ;; Ok (w, RBool b)
  | MAdd i j => x <- var (vars w) i ;; y <- var (vars w) j ;; r <- hzip (oadd o) h x y ;; newvar w r
  | MSub i j => x <- var (vars w) i ;; y <- var (vars w) j ;; r <- hzip (osub o) h x y ;; newvar w r
  | MMul i j => x <- var (vars w) i ;; y <- var (vars w) j ;; r <- hmul h x y ;; newvar w r
  | MAddTo i j => x <- var (vars w) i ;; y <- var (vars w) j ;; h <- hzip_assign (oadd o) h x y ;; Ok (World (vars w) h, RNone)
  | MSubFrom i j => x <- var (vars w) i ;; y <- var (vars w) j ;; h <- hzip_assign (osub o) h x y ;; Ok (World (vars w) h, RNone)
  | MMulBy i j =>
      x <- var (vars w) i ;; y <- var (vars w) j ;;
      ' (h, x) <- hmul_assign h x y ;; Ok (World (upd (vars w) i (Some x)) h, RNone)
  | MPow i n => x <- var (vars w) i ;; ' (h, r) <- hpow 33 h x n ;; r <- hcopy h r ;; newvar w r
  | MReduce i => x <- var (vars w) i ;; h <- hreduce h x ;; Ok (World (vars w) h, RNone)
  end.
(** a sequence of calls on Matrix.h *)
Fixpoint mrun (f : Z -> A) (w : world) (ps : list mop) : outcome (world * list mret) :=
  match ps with
  | [] => Ok (w, [])
  | p :: ps => ' (w, r) <- mstep f w p ;; ' (w, rs) <- mrun f w ps ;; Ok (w, r :: rs)
  end.
End Model.
