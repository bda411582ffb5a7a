(** Model of references and iterators to elements of Lists, src/include/containers/List.h, that a
    client keeps while it goes on using two Lists.  An element of a std::list is a node of its own:
    the calls of ContModel run on lists of nodes (an identity with a value), a reference is the
    identity, and using one whose node is gone is [UB]. *)
From Verif Require Import Base ContModel.
Local Open Scope Z_scope.

(** a node of a std::list; List.h:226 *)
Notation node A := (nat * A)%type.

Section ListRefs.
Context {A : Type} (lt : A -> A -> bool).

(** operator< of the elements, which sort and merge call; List.h:369-382 *)
Definition lt_node (x y : node A) : bool := lt (snd x) (snd y).
(** two Lists, the identity of the next node, the references taken so far; List.h:226 *)
Record store := Store { one : list (node A); two : list (node A); next : nat; held : list nat }.
(** the first ([false]) or the second ([true]) List; List.h:226 *)
Definition side_of (s : bool) (st : store) : list (node A) := if s then two st else one st.
(** a call has changed one of the Lists; a new node may have been made; List.h:265-382 *)
Definition with_side (s : bool) (l : list (node A)) (st : store) : store :=
  if s then Store (one st) l (S (next st)) (held st) else Store l (two st) (S (next st)) (held st).
(** the call with the node that it makes; List.h:324-351 *)
Definition tag (n : nat) (o : lop A) : lop (node A) :=
  match o with
  | LAt i => LAt i | LFirst => LFirst | LLast => LLast | LIsEmpty => LIsEmpty | LSize => LSize | LClear => LClear
  | LInsert i x => LInsert i (n, x) | LErase i => LErase i | LPush x => LPush (n, x) | LPushFront x => LPushFront (n, x)
  | LPop => LPop | LPopFront => LPopFront | LReverse => LReverse | LSort => LSort
  end.
(** the result without the identity; List.h:265-367 *)
Definition untag (r : result (node A)) : result A :=
  match r with RNone => RNone | RVal x => RVal (snd x) | RBool b => RBool b | RInt z => RInt z end.

(** calls: any call on one of the Lists; keeping the reference that operator[], first or last
    returns (or a dereferenceable iterator); [l.merge(m)] with [l] the List named; reading and
    writing through a reference.  List.h:207-223, 265-307, 379-382 *)
Inductive fop :=
| Do (s : bool) (o : lop A) | TakeAt (s : bool) (i : Z) | TakeFirst (s : bool) | TakeLast (s : bool)
| Merge (s : bool) | See (h : nat) | Put (h : nat) (x : A).
(** the node with an identity; List.h:226 *)
Definition node_at (id : nat) (l : list (node A)) : option (node A) := find (fun n => Nat.eqb (fst n) id) l.
(** writing into the node with an identity; List.h:265-307 *)
Definition overwrite (id : nat) (x : A) (l : list (node A)) : list (node A) :=
  map (fun n => if Nat.eqb (fst n) id then (id, x) else n) l.
(** the value a reference refers to; std: the node must still be in a list; List.h:265-307 *)
Definition seen (st : store) (h : nat) : outcome (node A) :=
  match nth_error (held st) h with
  | None => UB
  | Some id =>
      match node_at id (one st), node_at id (two st) with
      | Some n, _ | None, Some n => Ok n
      | None, None => UB
      end
  end.
(** a further reference; List.h:265-307 *)
Definition hold (st : store) (n : node A) : store := Store (one st) (two st) (next st) (held st ++ [fst n]).
(** one call; List.h:265-382 *)
Definition fstep (st : store) (o : fop) : outcome (store * result A) :=
  match o with
  | Do s o => ' (l, r) <- list_step lt_node (side_of s st) (tag (next st) o) ;; Ok (with_side s l st, untag r)
  | TakeAt s i => n <- list_at (side_of s st) i ;; Ok (hold st n, RNone)
  | TakeFirst s => n <- seq_first (side_of s st) ;; Ok (hold st n, RNone)
  | TakeLast s => n <- seq_last (side_of s st) ;; Ok (hold st n, RNone)
  | Merge s =>
      ' (l, m) <- list_merge lt_node (side_of s st) (side_of (negb s) st) ;;
      Ok (with_side (negb s) m (with_side s l st), RNone)
  | See h => n <- seen st h ;; Ok (st, RVal (snd n))
  | Put h x =>
      n <- seen st h ;;
      Ok (Store (overwrite (fst n) x (one st)) (overwrite (fst n) x (two st)) (next st) (held st), RNone)
  end.
(** two Lists as constructed; List.h:234-252 *)
Definition number (n : nat) (l : list A) : list (node A) := combine (seq n (length l)) l.
(** two Lists as constructed; List.h:234-252 *)
Definition lists (a b : list A) : store :=
  Store (number O a) (number (length a) b) (length a + length b) [].
End ListRefs.
Arguments store A : clear implicits.
Arguments fop A : clear implicits.
