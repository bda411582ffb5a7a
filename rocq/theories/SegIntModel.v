(** Model of src/include/graph/SegmentTree.h for a signed machine integer ValueType.

    The functions of SegModel with every arithmetic operation on ValueType checked: a result
    outside -M-1 .. M is undefined behaviour.  M = 2^31-1 is [SegmentTree<int>], M = 2^63-1 is
    [SegmentTree<long long>] (narrower types are promoted and not covered).  Data layout, index
    arithmetic and fuel as in SegModel. *)
From Verif Require Import Base SegModel.
Local Open Scope Z_scope.

(** one operation of ValueType; the arithmetic of SegmentTree.h:72, 80-112, 170 *)
Definition ck (M z : Z) : outcome Z := if (- M - 1 <=? z) && (z <=? M) then Ok z else UB.

(** init, SegmentTree.h:56-73; sumVal[ls] + sumVal[rs] in line 72 *)
Fixpoint init_m (M : Z) (fuel : nat) (v : list Z) (l r o : Z) (s : tree) : outcome tree :=
  match fuel with
  | O => Fuel
  | S f =>
      if l =? r then
        x <- aget v l ;; c <- aget s o ;;
        aset s o (Cell x x x (addf c) (mulf c) false false)
      else
        let mid := Z.shiftr (l + r) 1 in
        let ls := 2 * o in let rs := 2 * o + 1 in
        s <- init_m M f v l mid ls s ;;
        s <- init_m M f v (mid + 1) r rs s ;;
        a <- aget s ls ;; b <- aget s rs ;; c <- aget s o ;;
        t <- ck M (sm a + sm b) ;;
        aset s o (Cell (stdmin (mn a) (mn b)) (stdmax (mx a) (mx b)) t
                       (addf c) (mulf c) (hadd c) (hmul c))
  end.
(** constructor, SegmentTree.h:41-54 *)
Definition build_m (M : Z) (v : list Z) : outcome tree :=
  let n := Z.of_nat (length v) in
  let x := hd 0 v in
  init_m M (S (length v)) v 0 (n - 1) 1
       (repeat (Cell x x x x x false false) (4 * length v)).

(** lines 83-89 and 91-97: a pending factor [m] moves to child [c]; SegmentTree.h:84, 89 (92, 97) multiply *)
Definition push_mul_m (M c m : Z) (s : tree) : outcome tree :=
  k <- aget s c ;;
  k <- (if hmul k then t <- ck M (mulf k * m) ;; Ok (Cell (mn k) (mx k) (sm k) (addf k) t (hadd k) true)
        else Ok (Cell (mn k) (mx k) (sm k) (addf k) m (hadd k) true)) ;;
  k <- (if hadd k then t <- ck M (addf k * m) ;; Ok (Cell (mn k) (mx k) (sm k) t (mulf k) true (hmul k)) else Ok k) ;;
  aset s c k.
(** lines 105-110 and 111-116: a pending summand [a] moves to child [c]; SegmentTree.h:106 (112) adds *)
Definition push_add_m (M c a : Z) (s : tree) : outcome tree :=
  k <- aget s c ;;
  k <- (if hadd k then t <- ck M (addf k + a) ;; Ok (Cell (mn k) (mx k) (sm k) t (mulf k) true (hmul k))
        else Ok (Cell (mn k) (mx k) (sm k) a (mulf k) true (hmul k))) ;;
  aset s c k.
(** update, SegmentTree.h:75-118; the products of lines 80-82, the sums of lines 102-104 and the
    product addFlag[o] * (r - l + 1) inside line 104 *)
Definition update_m (M o l r : Z) (s : tree) : outcome tree :=
  let ls := 2 * o in let rs := 2 * o + 1 in
  c <- aget s o ;;
  s <- (if hmul c then
          let m := mulf c in
          x <- ck M (mn c * m) ;; y <- ck M (mx c * m) ;; z <- ck M (sm c * m) ;;
          s <- aset s o (Cell x y z (addf c) m (hadd c) false) ;;
          s <- push_mul_m M ls m s ;; push_mul_m M rs m s
        else Ok s) ;;
  c <- aget s o ;;
  if hadd c then
    let a := addf c in
    x <- ck M (mn c + a) ;; y <- ck M (mx c + a) ;; w <- ck M (a * (r - l + 1)) ;; z <- ck M (sm c + w) ;;
    s <- aset s o (Cell x y z a (mulf c) false (hmul c)) ;;
    s <- push_add_m M ls a s ;; push_add_m M rs a s
  else Ok s.

(** the combination of the two halves, SegmentTree.h:134-135, 152-153, 170 *)
Definition combine_m (M : Z) (k : kind) (a b : Z) : outcome Z :=
  match k with QSum => ck M (a + b) | _ => Ok (combine k a b) end.
(** queryMax, queryMin, querySum (recursive), SegmentTree.h:125-136, 143-154, 161-171 *)
Fixpoint query_m (M : Z) (fuel : nat) (k : kind) (lv rv l r o : Z) (s : tree) : outcome (Z * tree) :=
  match fuel with
  | O => Fuel
  | S f =>
      s <- update_m M o l r s ;;
      if (lv <=? l) && (r <=? rv) then c <- aget s o ;; Ok (field k c, s)
      else
        let mid := Z.shiftr (l + r) 1 in
        let ls := 2 * o in let rs := 2 * o + 1 in
        if rv <=? mid then query_m M f k lv rv l mid ls s
        else if mid <? lv then query_m M f k lv rv (mid + 1) r rs s
        else
          ' (a, s) <- query_m M f k lv rv l mid ls s ;;
          ' (b, s) <- query_m M f k lv rv (mid + 1) r rs s ;;
          x <- combine_m M k a b ;; Ok (x, s)
  end.
(** queryMax/Min/Sum(lv, rv), SegmentTree.h:120-123, 138-141, 156-159 *)
Definition query0_m (M : Z) (k : kind) (lv rv : Z) (s : tree) : outcome (Z * tree) :=
  query_m M (S (length s)) k lv rv 0 (size s - 1) 1 s.
(** addInterval, mulInterval (recursive), SegmentTree.h:178-191, 198-211 *)
Fixpoint interval_m (M : Z) (fuel : nat) (u : change) (lv rv l r o : Z) (s : tree) : outcome tree :=
  match fuel with
  | O => Fuel
  | S f =>
      s <- update_m M o l r s ;;
      if (lv <=? l) && (r <=? rv) then c <- aget s o ;; aset s o (mark c u)
      else
        let mid := Z.shiftr (l + r) 1 in
        let ls := 2 * o in let rs := 2 * o + 1 in
        s <- (if lv <=? mid then interval_m M f u lv rv l mid ls s else Ok s) ;;
        if mid <? rv then interval_m M f u lv rv (mid + 1) r rs s else Ok s
  end.
(** addInterval/mulInterval(lv, rv, x), SegmentTree.h:173-176, 193-196 *)
Definition interval0_m (M : Z) (u : change) (lv rv : Z) (s : tree) : outcome tree :=
  interval_m M (S (length s)) u lv rv 0 (size s - 1) 1 s.

(** one call, SegmentTree.h:120-211 *)
Definition step_m (M : Z) (c : call) (s : tree) : outcome tree :=
  match c with
  | CQuery k lv rv => ' (_, s) <- query0_m M k lv rv s ;; Ok s
  | CUpdate u lv rv => interval0_m M u lv rv s
  end.
(** a sequence of calls, SegmentTree.h:120-211 *)
Fixpoint run_m (M : Z) (cs : list call) (s : tree) : outcome tree :=
  match cs with [] => Ok s | c :: cs => s <- step_m M c s ;; run_m M cs s end.
(** construction, calls, one query; SegmentTree.h:41-54, 120-211 *)
Definition client_m (M : Z) (v : list Z) (cs : list call) (k : kind) (lv rv : Z) : outcome Z :=
  s <- build_m M v ;; s <- run_m M cs s ;; omap fst (query0_m M k lv rv s).
