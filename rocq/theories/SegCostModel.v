(** src/include/graph/SegmentTree.h once more, counting the nodes visited (the
    calls of the recursive functions; each does a constant amount of other
    work).  SegCostProofs shows that forgetting the counters gives back
    SegModel. *)
From Verif Require Import Base SegModel.
Local Open Scope Z_scope.

(** init, SegmentTree.h:56-73, counting its calls *)
Fixpoint initC (fuel : nat) (v : list Z) (l r o : Z) (s : tree) : outcome (tree * Z) :=
  match fuel with
  | O => Fuel
  | S f =>
      if l =? r then
        x <- aget v l ;; c <- aget s o ;;
        s <- aset s o (Cell x x x (addf c) (mulf c) false false) ;; Ok (s, 1)
      else
        let mid := Z.shiftr (l + r) 1 in
        let ls := 2 * o in let rs := 2 * o + 1 in
        ' (s, p) <- initC f v l mid ls s ;;
        ' (s, q) <- initC f v (mid + 1) r rs s ;;
        a <- aget s ls ;; b <- aget s rs ;; c <- aget s o ;;
        s <- aset s o (Cell (stdmin (mn a) (mn b)) (stdmax (mx a) (mx b)) (sm a + sm b)
                       (addf c) (mulf c) (hadd c) (hmul c)) ;;
        Ok (s, 1 + p + q)
  end.
(** constructor, SegmentTree.h:41-54, with the calls of init *)
Definition buildC (v : list Z) : outcome (tree * Z) :=
  let n := Z.of_nat (length v) in
  let x := hd 0 v in
  initC (S (length v)) v 0 (n - 1) 1
       (repeat (Cell x x x x x false false) (4 * length v)).

(** queryMax, queryMin, querySum (recursive), SegmentTree.h:125-136, 143-154,
    161-171, counting their calls *)
Fixpoint queryC (fuel : nat) (k : kind) (lv rv l r o : Z) (s : tree) : outcome (Z * tree * Z) :=
  match fuel with
  | O => Fuel
  | S f =>
      s <- update o l r s ;;
      if (lv <=? l) && (r <=? rv) then c <- aget s o ;; Ok ((field k c, s), 1)
      else
        let mid := Z.shiftr (l + r) 1 in
        let ls := 2 * o in let rs := 2 * o + 1 in
        if rv <=? mid then ' (x, n) <- queryC f k lv rv l mid ls s ;; Ok (x, 1 + n)
        else if mid <? lv then ' (x, n) <- queryC f k lv rv (mid + 1) r rs s ;; Ok (x, 1 + n)
        else
          ' (a, s, p) <- queryC f k lv rv l mid ls s ;;
          ' (b, s, q) <- queryC f k lv rv (mid + 1) r rs s ;;
          Ok ((combine k a b, s), 1 + p + q)
  end.
(** queryMax/Min/Sum(lv, rv), SegmentTree.h:120-123, 138-141, 156-159, with the
    number of nodes visited *)
Definition query0C (k : kind) (lv rv : Z) (s : tree) : outcome (Z * tree * Z) :=
  queryC (S (length s)) k lv rv 0 (size s - 1) 1 s.

(** addInterval, mulInterval (recursive), SegmentTree.h:178-191, 198-211,
    counting their calls *)
Fixpoint intervalC (fuel : nat) (u : change) (lv rv l r o : Z) (s : tree) : outcome (tree * Z) :=
  match fuel with
  | O => Fuel
  | S f =>
      s <- update o l r s ;;
      if (lv <=? l) && (r <=? rv) then c <- aget s o ;; s <- aset s o (mark c u) ;; Ok (s, 1)
      else
        let mid := Z.shiftr (l + r) 1 in
        let ls := 2 * o in let rs := 2 * o + 1 in
        ' (s, p) <- (if lv <=? mid then intervalC f u lv rv l mid ls s else Ok (s, 0)) ;;
        ' (s, q) <- (if mid <? rv then intervalC f u lv rv (mid + 1) r rs s else Ok (s, 0)) ;;
        Ok (s, 1 + p + q)
  end.
(** addInterval/mulInterval(lv, rv, x), SegmentTree.h:173-176, 193-196, with the
    number of nodes visited *)
Definition interval0C (u : change) (lv rv : Z) (s : tree) : outcome (tree * Z) :=
  intervalC (S (length s)) u lv rv 0 (size s - 1) 1 s.

(** one call with its cost, SegmentTree.h:120-211 *)
Definition stepC (c : call) (s : tree) : outcome (tree * Z) :=
  match c with
  | CQuery k lv rv => ' (_, s, n) <- query0C k lv rv s ;; Ok (s, n)
  | CUpdate u lv rv => interval0C u lv rv s
  end.
(** a sequence of calls with their total cost, SegmentTree.h:120-211 *)
Fixpoint runC (cs : list call) (s : tree) : outcome (tree * Z) :=
  match cs with
  | [] => Ok (s, 0)
  | c :: cs => ' (s, a) <- stepC c s ;; ' (s, b) <- runC cs s ;; Ok (s, a + b)
  end.
