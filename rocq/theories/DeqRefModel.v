(** Model of references to elements of Stacks and Queues (top, first, last: src/include/containers/
    Stack.h:148-158, Queue.h:156-174) that a client keeps while it goes on using two containers of
    the same kind.  The std::deque below a std::stack or std::queue moves no element when it grows
    or shrinks at an end, so an element is a node as in ListRefModel: the calls of ContModel run on
    lists of nodes (an identity with a value), a reference is the identity, and using one whose
    node is gone is [UB]. *)
From Verif Require Import Base ContModel ListRefModel.
Local Open Scope Z_scope.

Section DeqRefs.
(** [queue]: two Queues (Queue.h:131), otherwise two Stacks (Stack.h:118) *)
Context {A : Type} (queue : bool).

(** calls; [s] names the container: push or enqueue of a value, and of what a reference refers to
    (Stack.h:165-168, Queue.h:186-189); pop or dequeue (Stack.h:170-176, Queue.h:191-197); clear
    (Stack.h:178-184, Queue.h:199-205); size (Stack.h:143-146, Queue.h:176-179); keeping the
    reference that top returns, or first, or last if [back] (Stack.h:148-158, Queue.h:156-174);
    assigning the other container (Stack.h:137-141, Queue.h:150-154; assigning a container to
    itself is left out); reading and writing through a reference *)
Inductive dop :=
| Push (s : bool) (x : A) | PushRef (s : bool) (h : nat) | Pop (s : bool) | Clear (s : bool) | Size (s : bool)
| Take (s back : bool) | Assign (s : bool) | See (h : nat) | Put (h : nat) (x : A).
(** push, enqueue: a new node; Stack.h:165-168, Queue.h:186-189 *)
Definition pushed (st : store A) (s : bool) (x : A) : store A :=
  with_side s ((if queue then queue_enqueue else stack_push) (side_of s st) (next st, x)) st.
(** operator=: std: the elements of the target are replaced by copies, and references to them
    must not be used any more; Stack.h:137-141, Queue.h:150-154 *)
Definition assigned (st : store A) (s : bool) : store A :=
  let l := map snd (side_of (negb s) st) in
  let new := number (next st) l in
  if s then Store (one st) new (next st + length l) (held st) else Store new (two st) (next st + length l) (held st).
(** one call; the lines are those above *)
Definition dstep (st : store A) (o : dop) : outcome (store A * result A) :=
  match o with
  | Push s x => Ok (pushed st s x, RNone)
  | PushRef s h => n <- seen st h ;; Ok (pushed st s (snd n), RNone)
  | Pop s => ' (n, l) <- (if queue then queue_dequeue else stack_pop) (side_of s st) ;; Ok (with_side s l st, RVal (snd n))
  | Clear s => l <- (if queue then queue_clear else stack_clear) (side_of s st) ;; Ok (with_side s l st, RNone)
  | Size s => Ok (st, RInt (size_int (side_of s st)))
  | Take s back =>
      n <- (if queue then if back then queue_last else queue_first else stack_top) (side_of s st) ;;
      Ok (hold st n, RNone)
  | Assign s => Ok (assigned st s, RNone)
  | See h => n <- seen st h ;; Ok (st, RVal (snd n))
  | Put h x =>
      n <- seen st h ;;
      Ok (Store (overwrite (fst n) x (one st)) (overwrite (fst n) x (two st)) (next st) (held st), RNone)
  end.
(** a program; client of Stack.h and Queue.h *)
Fixpoint drun (st : store A) (os : list dop) : outcome (store A * list (result A)) :=
  match os with
  | [] => Ok (st, [])
  | o :: os => ' (st, r) <- dstep st o ;; ' (st, rs) <- drun st os ;; Ok (st, r :: rs)
  end.
End DeqRefs.
Arguments dop A : clear implicits.
