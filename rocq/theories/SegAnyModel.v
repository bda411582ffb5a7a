(** Model of src/include/graph/SegmentTree.h for an arbitrary ValueType.

    The functions of SegModel once more; ValueType is any type with [<], [+], [*] and the
    product by an int, none of which can fail (as for double).  Data layout, index arithmetic,
    fuel and the order of evaluation as in SegModel. *)
From Verif Require Import Base SegModel Float.
Local Open Scope Z_scope.

(** the operations of ValueType used by SegmentTree.h:70-72, 80-98, 102-116, 134, 152, 170 *)
Record ops (T : Type) := Ops { vlt : T -> T -> bool; vadd : T -> T -> T; vmul : T -> T -> T; vtimes : T -> Z -> T }.
Arguments Ops {T}. Arguments vlt {T}. Arguments vadd {T}. Arguments vmul {T}. Arguments vtimes {T}.
(** one index of the seven vectors, SegmentTree.h:29-35 *)
Record gcell (T : Type) := GCell { gmn : T; gmx : T; gsm : T; gaddf : T; gmulf : T; ghadd : bool; ghmul : bool }.
Arguments GCell {T}. Arguments gmn {T}. Arguments gmx {T}. Arguments gsm {T}. Arguments gaddf {T}. Arguments gmulf {T}.
Arguments ghadd {T}. Arguments ghmul {T}.

Section Value.
Context {T : Type} (ty : ops T).
(** the seven vectors, SegmentTree.h:29-35 *)
Definition gtree := list (gcell T).
(** std::min, SegmentTree.h:70, 152 *)
Definition vmin (a b : T) : T := if vlt ty b a then b else a.
(** std::max, SegmentTree.h:71, 134 *)
Definition vmax (a b : T) : T := if vlt ty a b then b else a.

(** init, SegmentTree.h:56-73 *)
Fixpoint ginit (fuel : nat) (v : list T) (l r o : Z) (s : gtree) : outcome gtree :=
  match fuel with
  | O => Fuel
  | S f =>
      if l =? r then
        x <- aget v l ;; c <- aget s o ;;
        aset s o (GCell x x x (gaddf c) (gmulf c) false false)
      else
        let mid := Z.shiftr (l + r) 1 in
        let ls := 2 * o in let rs := 2 * o + 1 in
        s <- ginit f v l mid ls s ;;
        s <- ginit f v (mid + 1) r rs s ;;
        a <- aget s ls ;; b <- aget s rs ;; c <- aget s o ;;
        aset s o (GCell (vmin (gmn a) (gmn b)) (vmax (gmx a) (gmx b)) (vadd ty (gsm a) (gsm b))
                        (gaddf c) (gmulf c) (ghadd c) (ghmul c))
  end.
(** constructor, SegmentTree.h:41-54; without elements [init] is called with l = 0, r = -1 and
    never ends properly: modelled as UB (C34) *)
Definition gbuild (v : list T) : outcome gtree :=
  match v with
  | [] => UB
  | x :: _ => ginit (S (length v)) v 0 (Z.of_nat (length v) - 1) 1 (repeat (GCell x x x x x false false) (4 * length v))
  end.

(** SegmentTree.h:83-89, 91-97: a pending factor moves to a child *)
Definition gpush_mul (c : Z) (m : T) (s : gtree) : outcome gtree :=
  k <- aget s c ;;
  let k := if ghmul k then GCell (gmn k) (gmx k) (gsm k) (gaddf k) (vmul ty (gmulf k) m) (ghadd k) true
           else GCell (gmn k) (gmx k) (gsm k) (gaddf k) m (ghadd k) true in
  let k := if ghadd k then GCell (gmn k) (gmx k) (gsm k) (vmul ty (gaddf k) m) (gmulf k) true (ghmul k) else k in
  aset s c k.
(** SegmentTree.h:105-110, 111-116: a pending summand moves to a child *)
Definition gpush_add (c : Z) (a : T) (s : gtree) : outcome gtree :=
  k <- aget s c ;;
  aset s c (if ghadd k then GCell (gmn k) (gmx k) (gsm k) (vadd ty (gaddf k) a) (gmulf k) true (ghmul k)
            else GCell (gmn k) (gmx k) (gsm k) a (gmulf k) true (ghmul k)).
(** update, SegmentTree.h:75-118 *)
Definition gupdate (o l r : Z) (s : gtree) : outcome gtree :=
  let ls := 2 * o in let rs := 2 * o + 1 in
  c <- aget s o ;;
  s <- (if ghmul c then
          let m := gmulf c in
          s <- aset s o (GCell (vmul ty (gmn c) m) (vmul ty (gmx c) m) (vmul ty (gsm c) m) (gaddf c) m (ghadd c) false) ;;
          s <- gpush_mul ls m s ;; gpush_mul rs m s
        else Ok s) ;;
  c <- aget s o ;;
  if ghadd c then
    let a := gaddf c in
    s <- aset s o (GCell (vadd ty (gmn c) a) (vadd ty (gmx c) a) (vadd ty (gsm c) (vtimes ty a (r - l + 1))) a (gmulf c) false (ghmul c)) ;;
    s <- gpush_add ls a s ;; gpush_add rs a s
  else Ok s.

(** maxVal[o], minVal[o] or sumVal[o], SegmentTree.h:129, 147, 165 *)
Definition gfield (k : kind) (c : gcell T) : T :=
  match k with QMax => gmx c | QMin => gmn c | QSum => gsm c end.
(** the combination of the two halves, SegmentTree.h:134-135, 152-153, 170 *)
Definition gcombine (k : kind) (a b : T) : T :=
  match k with QMax => vmax a b | QMin => vmin a b | QSum => vadd ty a b end.
(** queryMax, queryMin, querySum (recursive), SegmentTree.h:125-136, 143-154, 161-171 *)
Fixpoint gquery (fuel : nat) (k : kind) (lv rv l r o : Z) (s : gtree) : outcome (T * gtree) :=
  match fuel with
  | O => Fuel
  | S f =>
      s <- gupdate o l r s ;;
      if (lv <=? l) && (r <=? rv) then c <- aget s o ;; Ok (gfield k c, s)
      else
        let mid := Z.shiftr (l + r) 1 in
        let ls := 2 * o in let rs := 2 * o + 1 in
        if rv <=? mid then gquery f k lv rv l mid ls s
        else if mid <? lv then gquery f k lv rv (mid + 1) r rs s
        else
          ' (a, s) <- gquery f k lv rv l mid ls s ;;
          ' (b, s) <- gquery f k lv rv (mid + 1) r rs s ;;
          Ok (gcombine k a b, s)
  end.
(** size, SegmentTree.h:36, 43-44 *)
Definition gsize (s : gtree) : Z := Z.of_nat (length s) / 4.
(** queryMax/Min/Sum(lv, rv), SegmentTree.h:120-123, 138-141, 156-159 *)
Definition gquery0 (k : kind) (lv rv : Z) (s : gtree) : outcome (T * gtree) :=
  gquery (S (length s)) k lv rv 0 (gsize s - 1) 1 s.

(** addInterval(lv, rv, x) and mulInterval(lv, rv, x), SegmentTree.h:173-211 *)
Inductive gchange := GAdd (x : T) | GMul (x : T).
(** the changes at a covered node, SegmentTree.h:182-186, 202-206 *)
Definition gmark (c : gcell T) (u : gchange) : gcell T :=
  match u with
  | GAdd x => GCell (gmn c) (gmx c) (gsm c) x (gmulf c) true (ghmul c)
  | GMul x => GCell (gmn c) (gmx c) (gsm c) (gaddf c) x (ghadd c) true
  end.
(** addInterval, mulInterval (recursive), SegmentTree.h:178-191, 198-211 *)
Fixpoint ginterval (fuel : nat) (u : gchange) (lv rv l r o : Z) (s : gtree) : outcome gtree :=
  match fuel with
  | O => Fuel
  | S f =>
      s <- gupdate o l r s ;;
      if (lv <=? l) && (r <=? rv) then c <- aget s o ;; aset s o (gmark c u)
      else
        let mid := Z.shiftr (l + r) 1 in
        let ls := 2 * o in let rs := 2 * o + 1 in
        s <- (if lv <=? mid then ginterval f u lv rv l mid ls s else Ok s) ;;
        if mid <? rv then ginterval f u lv rv (mid + 1) r rs s else Ok s
  end.
(** addInterval/mulInterval(lv, rv, x), SegmentTree.h:173-176, 193-196 *)
Definition ginterval0 (u : gchange) (lv rv : Z) (s : gtree) : outcome gtree :=
  ginterval (S (length s)) u lv rv 0 (gsize s - 1) 1 s.
(** a client: construction, calls, a query; SegmentTree.h:41-211 *)
Inductive gcall := GQuery (k : kind) (lv rv : Z) | GUpdate (u : gchange) (lv rv : Z).
(** one call, SegmentTree.h:120-211 *)
Definition gstep (c : gcall) (s : gtree) : outcome gtree :=
  match c with
  | GQuery k lv rv => ' (_, s) <- gquery0 k lv rv s ;; Ok s
  | GUpdate u lv rv => ginterval0 u lv rv s
  end.
(** a sequence of calls, SegmentTree.h:120-211 *)
Fixpoint grun (cs : list gcall) (s : gtree) : outcome gtree :=
  match cs with [] => Ok s | c :: cs => s <- gstep c s ;; grun cs s end.
(** construction, calls, a query; SegmentTree.h:41-211 *)
Definition gclient (v : list T) (cs : list gcall) (k : kind) (lv rv : Z) : outcome T :=
  s <- gbuild v ;; s <- grun cs s ;; ' (x, _) <- gquery0 k lv rv s ;; Ok x.
End Value.
Arguments GAdd {T}. Arguments GMul {T}. Arguments GQuery {T}. Arguments GUpdate {T}.

(** ValueType = double; [addFlag[o] * (r - l + 1)] converts the int, SegmentTree.h:104 *)
Definition doubles : ops double := Ops dltb dadd dmul (fun a n => dmul a (dof n)).
(** ValueType = mathematical integers, as in SegModel; SegmentTree.h:8-10 *)
Definition integers : ops Z := Ops Z.ltb Z.add Z.mul Z.mul.
