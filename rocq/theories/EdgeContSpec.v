(** What a client of Edge objects in containers can rely on, stated on the edges alive. *)
From Verif Require Import Base EdgeContModel.
From Coq Require Import Sorting.Sorted.
Local Open Scope Z_scope.

(** all Edge objects alive *)
Definition alive (s : state) : list edge := vars s ++ set_ s ++ mset s ++ lst s.
(** what a copy keeps: ends, weight, validity *)
Definition same_data (a b : edge) : Prop :=
  e_from a = e_from b /\ e_to a = e_to b /\ e_val a = e_val b /\ e_use a = e_use b.
(** the list is strictly / weakly increasing in weight *)
Definition increasing (l : list edge) : Prop := StronglySorted (fun a b => e_val a < e_val b) l.
Definition nondecreasing (l : list edge) : Prop := StronglySorted (fun a b => e_val a <= e_val b) l.
(** the edges of weight [w], in order *)
Definition of_weight (w : Z) (l : list edge) : list edge := filter (fun e => e_val e =? w) l.
(** an edge of weight [w] is present *)
Definition has_weight (w : Z) (l : list edge) : Prop := exists x, In x l /\ e_val x = w.
(** the variables a call names *)
Definition named (o : op) : list nat :=
  match o with
  | ECopy v | ESetVal v _ | ESetUse v _ | SInsert v | SErase v | SContains v | MInsert v | MErase v | MContains v
  | MCount v | LPush v | LPushFront v => [v]
  | EAssign v w | Equal v w | Less v w => [v; w]
  | _ => []
  end.
(** the calls that construct an Edge in state [s] *)
Definition constructs (s : state) (o : op) : Prop :=
  match o with
  | ENew _ _ _ | ECopy _ | SContains _ | MInsert _ | LPush _ | LPushFront _ => True
  | SInsert v => exists a, nth_error (vars s) v = Some a /\ ~ has_weight (e_val a) (set_ s)
  | LPop => lst s <> []
  | _ => False
  end.
(** the calls that end the program with an error message *)
Definition fails (s : state) (o : op) : Prop :=
  match o with
  | MErase v => exists a, nth_error (vars s) v = Some a /\ ~ has_weight (e_val a) (mset s)
  | LPop => lst s = []
  | _ => False
  end.
