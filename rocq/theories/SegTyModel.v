(** Model of src/include/graph/SegmentTree.h for every integer ValueType.

    The functions of SegModel with the arithmetic of the C++ integer types of IntTyModel:
    operands are promoted, signed overflow is undefined, the result is converted to
    ValueType when it is stored or returned.  (SegIntModel.v has [int] and [long long], where
    promotion and conversion do nothing.)  Data layout, index arithmetic and fuel as in
    SegModel. *)
From Verif Require Import Base SegModel IntTyModel.
Local Open Scope Z_scope.

(** [x * y] in ValueType, SegmentTree.h:80-82, 84, 89, 92, 97 *)
Definition tmul (t : ty) (x y : Z) : outcome Z := mulassign t t x y.
(** [x + y] in ValueType, SegmentTree.h:72, 102, 103, 106, 112, 170 *)
Definition tadd (t : ty) (x y : Z) : outcome Z := addassign t t x y.
(** [sumVal[o] += addFlag[o] * (r - l + 1)], SegmentTree.h:104: the product is computed in the
    common type of ValueType and int and is added in that type *)
Definition taddn (t : ty) (x a n : Z) : outcome Z :=
  let c := common t i32 in
  w <- arith c (conv c a * conv c n) ;; addassign t c x w.

(** init, SegmentTree.h:56-73; sumVal[ls] + sumVal[rs] in line 72 *)
Fixpoint init_t (t : ty) (fuel : nat) (v : list Z) (l r o : Z) (s : tree) : outcome tree :=
  match fuel with
  | O => Fuel
  | S f =>
      if l =? r then
        x <- aget v l ;; c <- aget s o ;;
        aset s o (Cell x x x (addf c) (mulf c) false false)
      else
        let mid := Z.shiftr (l + r) 1 in
        let ls := 2 * o in let rs := 2 * o + 1 in
        s <- init_t t f v l mid ls s ;;
        s <- init_t t f v (mid + 1) r rs s ;;
        a <- aget s ls ;; b <- aget s rs ;; c <- aget s o ;;
        z <- tadd t (sm a) (sm b) ;;
        aset s o (Cell (stdmin (mn a) (mn b)) (stdmax (mx a) (mx b)) z
                       (addf c) (mulf c) (hadd c) (hmul c))
  end.
(** constructor, SegmentTree.h:41-54 *)
Definition build_t (t : ty) (v : list Z) : outcome tree :=
  let n := Z.of_nat (length v) in
  let x := hd 0 v in
  init_t t (S (length v)) v 0 (n - 1) 1
       (repeat (Cell x x x x x false false) (4 * length v)).

(** lines 83-89 and 91-97: a pending factor [m] moves to child [c]; SegmentTree.h:84, 89 (92, 97) multiply *)
Definition push_mul_t (t : ty) (c m : Z) (s : tree) : outcome tree :=
  k <- aget s c ;;
  k <- (if hmul k then z <- tmul t (mulf k) m ;; Ok (Cell (mn k) (mx k) (sm k) (addf k) z (hadd k) true)
        else Ok (Cell (mn k) (mx k) (sm k) (addf k) m (hadd k) true)) ;;
  k <- (if hadd k then z <- tmul t (addf k) m ;; Ok (Cell (mn k) (mx k) (sm k) z (mulf k) true (hmul k)) else Ok k) ;;
  aset s c k.
(** lines 105-110 and 111-116: a pending summand [a] moves to child [c]; SegmentTree.h:106 (112) adds *)
Definition push_add_t (t : ty) (c a : Z) (s : tree) : outcome tree :=
  k <- aget s c ;;
  k <- (if hadd k then z <- tadd t (addf k) a ;; Ok (Cell (mn k) (mx k) (sm k) z (mulf k) true (hmul k))
        else Ok (Cell (mn k) (mx k) (sm k) a (mulf k) true (hmul k))) ;;
  aset s c k.
(** update, SegmentTree.h:75-118; the products of lines 80-82, the sums of lines 102-104 and the
    product addFlag[o] * (r - l + 1) inside line 104 *)
Definition update_t (t : ty) (o l r : Z) (s : tree) : outcome tree :=
  let ls := 2 * o in let rs := 2 * o + 1 in
  c <- aget s o ;;
  s <- (if hmul c then
          let m := mulf c in
          x <- tmul t (mn c) m ;; y <- tmul t (mx c) m ;; z <- tmul t (sm c) m ;;
          s <- aset s o (Cell x y z (addf c) m (hadd c) false) ;;
          s <- push_mul_t t ls m s ;; push_mul_t t rs m s
        else Ok s) ;;
  c <- aget s o ;;
  if hadd c then
    let a := addf c in
    x <- tadd t (mn c) a ;; y <- tadd t (mx c) a ;; z <- taddn t (sm c) a (r - l + 1) ;;
    s <- aset s o (Cell x y z a (mulf c) false (hmul c)) ;;
    s <- push_add_t t ls a s ;; push_add_t t rs a s
  else Ok s.

(** the combination of the two halves, SegmentTree.h:134-135, 152-153, 170 *)
Definition combine_t (t : ty) (k : kind) (a b : Z) : outcome Z :=
  match k with QSum => tadd t a b | _ => Ok (combine k a b) end.
(** queryMax, queryMin, querySum (recursive), SegmentTree.h:125-136, 143-154, 161-171 *)
Fixpoint query_t (t : ty) (fuel : nat) (k : kind) (lv rv l r o : Z) (s : tree) : outcome (Z * tree) :=
  match fuel with
  | O => Fuel
  | S f =>
      s <- update_t t o l r s ;;
      if (lv <=? l) && (r <=? rv) then c <- aget s o ;; Ok (field k c, s)
      else
        let mid := Z.shiftr (l + r) 1 in
        let ls := 2 * o in let rs := 2 * o + 1 in
        if rv <=? mid then query_t t f k lv rv l mid ls s
        else if mid <? lv then query_t t f k lv rv (mid + 1) r rs s
        else
          ' (a, s) <- query_t t f k lv rv l mid ls s ;;
          ' (b, s) <- query_t t f k lv rv (mid + 1) r rs s ;;
          x <- combine_t t k a b ;; Ok (x, s)
  end.
(** queryMax/Min/Sum(lv, rv), SegmentTree.h:120-123, 138-141, 156-159 *)
Definition query0_t (t : ty) (k : kind) (lv rv : Z) (s : tree) : outcome (Z * tree) :=
  query_t t (S (length s)) k lv rv 0 (size s - 1) 1 s.
(** addInterval, mulInterval (recursive), SegmentTree.h:178-191, 198-211 *)
Fixpoint interval_t (t : ty) (fuel : nat) (u : change) (lv rv l r o : Z) (s : tree) : outcome tree :=
  match fuel with
  | O => Fuel
  | S f =>
      s <- update_t t o l r s ;;
      if (lv <=? l) && (r <=? rv) then c <- aget s o ;; aset s o (mark c u)
      else
        let mid := Z.shiftr (l + r) 1 in
        let ls := 2 * o in let rs := 2 * o + 1 in
        s <- (if lv <=? mid then interval_t t f u lv rv l mid ls s else Ok s) ;;
        if mid <? rv then interval_t t f u lv rv (mid + 1) r rs s else Ok s
  end.
(** addInterval/mulInterval(lv, rv, x), SegmentTree.h:173-176, 193-196 *)
Definition interval0_t (t : ty) (u : change) (lv rv : Z) (s : tree) : outcome tree :=
  interval_t t (S (length s)) u lv rv 0 (size s - 1) 1 s.

(** one call, SegmentTree.h:120-211 *)
Definition step_t (t : ty) (c : call) (s : tree) : outcome tree :=
  match c with
  | CQuery k lv rv => ' (_, s) <- query0_t t k lv rv s ;; Ok s
  | CUpdate u lv rv => interval0_t t u lv rv s
  end.
(** a sequence of calls, SegmentTree.h:120-211 *)
Fixpoint run_t (t : ty) (cs : list call) (s : tree) : outcome tree :=
  match cs with [] => Ok s | c :: cs => s <- step_t t c s ;; run_t t cs s end.
(** construction, calls, one query; SegmentTree.h:41-54, 120-211 *)
Definition client_t (t : ty) (v : list Z) (cs : list call) (k : kind) (lv rv : Z) : outcome Z :=
  s <- build_t t v ;; s <- run_t t cs s ;; omap fst (query0_t t k lv rv s).
