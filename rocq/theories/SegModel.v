(** Model of src/include/graph/SegmentTree.h ([SegmentTree<ValueType>]).

    ValueType is modelled by unbounded integers (machine overflow is not
    modelled).  The seven parallel vectors minVal, maxVal, sumVal, addFlag,
    mulFlag, hasAddFlag, hasMulFlag (SegmentTree.h:29-35) always have the same
    length, so they are modelled as one list of records; unchecked indexing
    outside it is UB.  Index arithmetic on int is unbounded (4*size is assumed
    to fit an int).  Recursive functions carry fuel; [Fuel] stands for
    recursion that does not stop. *)
From Verif Require Import Base.
Local Open Scope Z_scope.

(** one index of the seven vectors, SegmentTree.h:29-35 *)
Record cell := Cell { mn : Z; mx : Z; sm : Z; addf : Z; mulf : Z; hadd : bool; hmul : bool }.
(** the seven vectors, SegmentTree.h:29-35, indexed together *)
Definition tree := list cell.

(** std::min / std::max of two values *)
Definition stdmin (a b : Z) : Z := if b <? a then b else a.
(** std::max, SegmentTree.h:71, 134 *)
Definition stdmax (a b : Z) : Z := if a <? b then b else a.

(** init, SegmentTree.h:56-73 *)
Fixpoint init (fuel : nat) (v : list Z) (l r o : Z) (s : tree) : outcome tree :=
  match fuel with
  | O => Fuel
  | S f =>
      if l =? r then
        x <- aget v l ;; c <- aget s o ;;
        aset s o (Cell x x x (addf c) (mulf c) false false)
      else
        let mid := Z.shiftr (l + r) 1 in
        let ls := 2 * o in let rs := 2 * o + 1 in
        s <- init f v l mid ls s ;;
        s <- init f v (mid + 1) r rs s ;;
        a <- aget s ls ;; b <- aget s rs ;; c <- aget s o ;;
        aset s o (Cell (stdmin (mn a) (mn b)) (stdmax (mx a) (mx b)) (sm a + sm b)
                       (addf c) (mulf c) (hadd c) (hmul c))
  end.
(** constructor, SegmentTree.h:41-54 (v[0] is only read when size > 0) *)
Definition build (v : list Z) : outcome tree :=
  let n := Z.of_nat (length v) in
  let x := hd 0 v in
  init (S (length v)) v 0 (n - 1) 1
       (repeat (Cell x x x x x false false) (4 * length v)).

(** lines 83-89 and 91-97: a pending factor [m] moves to child [c] *)
Definition push_mul (c : Z) (m : Z) (s : tree) : outcome tree :=
  k <- aget s c ;;
  let k := if hmul k then Cell (mn k) (mx k) (sm k) (addf k) (mulf k * m) (hadd k) true
           else Cell (mn k) (mx k) (sm k) (addf k) m (hadd k) true in
  let k := if hadd k then Cell (mn k) (mx k) (sm k) (addf k * m) (mulf k) true (hmul k) else k in
  aset s c k.
(** lines 105-110 and 111-116: a pending summand [a] moves to child [c] *)
Definition push_add (c : Z) (a : Z) (s : tree) : outcome tree :=
  k <- aget s c ;;
  aset s c (if hadd k then Cell (mn k) (mx k) (sm k) (addf k + a) (mulf k) true (hmul k)
            else Cell (mn k) (mx k) (sm k) a (mulf k) true (hmul k)).
(** update, SegmentTree.h:75-118 *)
Definition update (o l r : Z) (s : tree) : outcome tree :=
  let ls := 2 * o in let rs := 2 * o + 1 in
  c <- aget s o ;;
  s <- (if hmul c then
          let m := mulf c in
          s <- aset s o (Cell (mn c * m) (mx c * m) (sm c * m) (addf c) m (hadd c) false) ;;
          s <- push_mul ls m s ;; push_mul rs m s
        else Ok s) ;;
  c <- aget s o ;;
  if hadd c then
    let a := addf c in
    s <- aset s o (Cell (mn c + a) (mx c + a) (sm c + a * (r - l + 1)) a (mulf c) false (hmul c)) ;;
    s <- push_add ls a s ;; push_add rs a s
  else Ok s.

(** the three query functions differ in the vector read and in how the two
    halves are combined: (maxVal, max), (minVal, min), (sumVal, +); SegmentTree.h:120-171 *)
Inductive kind := QMax | QMin | QSum.
(** maxVal[o], minVal[o] or sumVal[o], SegmentTree.h:129, 147, 165 *)
Definition field (k : kind) (c : cell) : Z :=
  match k with QMax => mx c | QMin => mn c | QSum => sm c end.
(** the combination of the two halves, SegmentTree.h:134-135, 152-153, 170 *)
Definition combine (k : kind) (a b : Z) : Z :=
  match k with QMax => stdmax a b | QMin => stdmin a b | QSum => a + b end.
(** queryMax, queryMin, querySum (recursive), SegmentTree.h:125-136, 143-154,
    161-171; the two argument calls of line 134 etc. are evaluated left first
    (C++ leaves the order open) *)
Fixpoint query (fuel : nat) (k : kind) (lv rv l r o : Z) (s : tree) : outcome (Z * tree) :=
  match fuel with
  | O => Fuel
  | S f =>
      s <- update o l r s ;;
      if (lv <=? l) && (r <=? rv) then c <- aget s o ;; Ok (field k c, s)
      else
        let mid := Z.shiftr (l + r) 1 in
        let ls := 2 * o in let rs := 2 * o + 1 in
        if rv <=? mid then query f k lv rv l mid ls s
        else if mid <? lv then query f k lv rv (mid + 1) r rs s
        else
          ' (a, s) <- query f k lv rv l mid ls s ;;
          ' (b, s) <- query f k lv rv (mid + 1) r rs s ;;
          Ok (combine k a b, s)
  end.
(** size; the vectors have 4*size entries, SegmentTree.h:36, 43-44 *)
Definition size (s : tree) : Z := Z.of_nat (length s) / 4.
(** queryMax/Min/Sum(lv, rv), SegmentTree.h:120-123, 138-141, 156-159 *)
Definition query0 (k : kind) (lv rv : Z) (s : tree) : outcome (Z * tree) :=
  query (S (length s)) k lv rv 0 (size s - 1) 1 s.

(** what an interval update stores: addFlag/hasAddFlag (lines 183-184) or
    mulFlag/hasMulFlag (lines 203-204) *)
Inductive change := Add (x : Z) | Mul (x : Z).
(** the changes at a covered node, SegmentTree.h:182-186, 202-206 *)
Definition mark (c : cell) (u : change) : cell :=
  match u with
  | Add x => Cell (mn c) (mx c) (sm c) x (mulf c) true (hmul c)
  | Mul x => Cell (mn c) (mx c) (sm c) (addf c) x (hadd c) true
  end.
(** addInterval, mulInterval (recursive), SegmentTree.h:178-191, 198-211 *)
Fixpoint interval (fuel : nat) (u : change) (lv rv l r o : Z) (s : tree) : outcome tree :=
  match fuel with
  | O => Fuel
  | S f =>
      s <- update o l r s ;;
      if (lv <=? l) && (r <=? rv) then c <- aget s o ;; aset s o (mark c u)
      else
        let mid := Z.shiftr (l + r) 1 in
        let ls := 2 * o in let rs := 2 * o + 1 in
        s <- (if lv <=? mid then interval f u lv rv l mid ls s else Ok s) ;;
        if mid <? rv then interval f u lv rv (mid + 1) r rs s else Ok s
  end.
(** addInterval/mulInterval(lv, rv, x), SegmentTree.h:173-176, 193-196 *)
Definition interval0 (u : change) (lv rv : Z) (s : tree) : outcome tree :=
  interval (S (length s)) u lv rv 0 (size s - 1) 1 s.

(** a client: a sequence of calls on one tree; SegmentTree.h:120-211 *)
Inductive call := CQuery (k : kind) (lv rv : Z) | CUpdate (u : change) (lv rv : Z).
(** one call, SegmentTree.h:120-211 *)
Definition step (c : call) (s : tree) : outcome tree :=
  match c with
  | CQuery k lv rv => ' (_, s) <- query0 k lv rv s ;; Ok s
  | CUpdate u lv rv => interval0 u lv rv s
  end.
(** a sequence of calls, SegmentTree.h:120-211 *)
Fixpoint run (cs : list call) (s : tree) : outcome tree :=
  match cs with [] => Ok s | c :: cs => s <- step c s ;; run cs s end.
