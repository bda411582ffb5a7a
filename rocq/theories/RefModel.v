(** Model of references and iterators to elements of a Vector, src/include/containers/Vector.h,
    that a client keeps while it goes on using the Vector.  The elements live in a buffer of a
    certain capacity; the functions are those of ContModel, together with the rules of the
    standard for std::vector on which references survive a call.  Using one that did not is [UB]. *)
From Verif Require Import Base ContModel.
Local Open Scope Z_scope.

Section Refs.
Context {A : Type}.
(** the choice of the standard library: the room to spare when a buffer of capacity [c] is
    replaced because [n] elements are needed (std; called at Vector.h:314, 333) *)
Context (spare : nat -> nat -> nat).

(** a Vector: its elements, the capacity of its buffer (vec, Vector.h:213), and for each
    reference taken so far the position of its element, or none if it is invalid *)
Record rvec := RVec { items : list A; room : nat; refs : list (option nat) }.
(** what can be passed for [const ValueType&]: a value of its own, or the element that the
    [h]-th reference refers to; Vector.h:118, 128, 133 *)
Inductive arg := Val (x : A) | Elem (h : nat).
(** the calls; Ref is get, operator[] or an iterator begin()+i (Vector.h:49-98, 195-210), Read
    and Write use a reference *)
Inductive rop :=
| Push (a : arg) | Insert (i : Z) (a : arg) | Erase (i : Z) | Set_ (i : Z) (a : arg) | Pop | Clear
| Assign (l : list A) | Ref (i : Z) | RefFirst | RefLast | Read (h : nat) | Write (h : nat) (a : arg).

(** the position a reference refers to; std: using an invalid one is undefined, Vector.h:243-289 *)
Definition position (v : rvec) (h : nat) : outcome nat :=
  match nth_error (refs v) h with Some (Some i) => Ok i | _ => UB end.
(** reading through a reference; Vector.h:243-289 *)
Definition look (v : rvec) (h : nat) : outcome A := i <- position v h ;; aget (items v) (Z.of_nat i).
(** the value of an argument (simplification: passing an invalid reference counts as using it);
    Vector.h:118, 128, 133 *)
Definition value_of (v : rvec) (a : arg) : outcome A := match a with Val x => Ok x | Elem h => look v h end.
(** std: the references at the positions selected stay valid *)
Definition keep (p : nat -> bool) (rs : list (option nat)) : list (option nat) :=
  map (fun o => match o with Some i => if p i then Some i else None | None => None end) rs.
(** std: room for [n] elements; a new buffer invalidates all references; Vector.h:314, 333 *)
Definition reserve (v : rvec) (n : nat) : rvec :=
  if Nat.leb n (room v) then v else RVec (items v) (n + spare (room v) n) (keep (fun _ => false) (refs v)).
(** one call.  clear and operator= keep a buffer that is large enough.  push_back and insert take the value before they free or move anything, as the
    standard demands (the argument may be an element of the same vector).  Vector.h:243-342;
    Assign is the implicit operator=, Vector.h:14 *)
Definition rstep (v : rvec) (o : rop) : outcome (rvec * option A) :=
  match o with
  | Push a =>
      x <- value_of v a ;;
      let w := reserve v (length (items v) + 1) in
      Ok (RVec (seq_push (items v) x) (room w) (refs w), None)
  | Insert i a =>
      x <- value_of v a ;;
      l <- seq_insert (items v) i x ;;
      let w := reserve v (length (items v) + 1) in
      Ok (RVec l (room w) (keep (fun j => Z.of_nat j <? i) (refs w)), None)
  | Erase i =>
      l <- seq_erase (items v) i ;;
      Ok (RVec l (room v) (keep (fun j => Z.of_nat j <? i) (refs v)), None)
  | Set_ i a =>
      x <- value_of v a ;;
      l <- vec_set (items v) i x ;; Ok (RVec l (room v) (refs v), None)
  | Pop =>
      ' (x, l) <- seq_pop (items v) ;;
      Ok (RVec l (room v) (keep (fun j => Nat.ltb j (length l)) (refs v)), Some x)
  | Clear => Ok (RVec [] (room v) (keep (fun _ => false) (refs v)), None)
  | Assign l =>
      let w := reserve v (length l) in Ok (RVec l (room w) (keep (fun _ => false) (refs w)), None)
  | Ref i => _ <- vec_get (items v) i ;; Ok (RVec (items v) (room v) (refs v ++ [Some (Z.to_nat i)]), None)
  | RefFirst => _ <- seq_first (items v) ;; Ok (RVec (items v) (room v) (refs v ++ [Some O]), None)
  | RefLast => _ <- seq_last (items v) ;; Ok (RVec (items v) (room v) (refs v ++ [Some (length (items v) - 1)%nat]), None)
  | Read h => x <- look v h ;; Ok (v, Some x)
  | Write h a =>
      x <- value_of v a ;;
      i <- position v h ;;
      l <- aset (items v) (Z.of_nat i) x ;; Ok (RVec l (room v) (refs v), None)
  end.
(** a sequence of calls with their results; Vector.h:243-342 *)
Fixpoint rrun (v : rvec) (os : list rop) : outcome (rvec * list (option A)) :=
  match os with
  | [] => Ok (v, [])
  | o :: os => ' (v, r) <- rstep v o ;; ' (v, rs) <- rrun v os ;; Ok (v, r :: rs)
  end.
(** a Vector as constructed, with [c] cells to spare; Vector.h:217-236 *)
Definition fresh (l : list A) (c : nat) : rvec := RVec l (length l + c) [].
End Refs.
Arguments rvec A : clear implicits.
Arguments arg A : clear implicits.
Arguments rop A : clear implicits.
