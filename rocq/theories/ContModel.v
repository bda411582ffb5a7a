(** Model of src/include/containers/ (Vector.h, List.h, Stack.h, Queue.h, Set.h, Map.h,
    MultiSet.h, MultiMap.h).  The underlying STL sequences are lists; the
    underlying STL trees are the list of their entries in iteration order, with
    the search functions of the standard (lower_bound / upper_bound) on them.
    An exception of the STL ends the program and is modelled as [Err]; an STL
    call outside its preconditions is [UB]. *)
From Verif Require Import Base.
Local Open Scope Z_scope.

Section Sequences.
Context {T : Type}.

(** size() of the underlying standard container: Vector.h:296-299, Stack.h:143-146, Queue.h:176-179 *)
Definition len (l : list T) : Z := Z.of_nat (length l).
(** conversion of a size to [int] in the size() members, Vector.h:296-299,
    List.h:314-317, Stack.h:143-146, Queue.h:176-179 *)
Definition size_int (l : list T) : Z := wrap32 (len l).

(** results of a call; return values of the calls on Vector.h, List.h, Stack.h and Queue.h *)
Inductive result := RNone | RVal (x : T) | RBool (b : bool) | RInt (z : Z).

(** std: front(), back(), pop_back(), pop_front() on an empty sequence are undefined *)
Definition stl_front (l : list T) : outcome T := match l with [] => UB | x :: _ => Ok x end.
(** std back(), used at Vector.h:255-277, List.h:265-287, Queue.h:166-174 *)
Fixpoint stl_back (l : list T) : outcome T :=
  match l with [] => UB | [x] => Ok x | _ :: t => stl_back t end.
(** std pop_back(), used at Vector.h:336-342, List.h:353-359, Stack.h:170-176 *)
Fixpoint stl_pop_back (l : list T) : outcome (list T) :=
  match l with [] => UB | [_] => Ok [] | x :: t => omap (cons x) (stl_pop_back t) end.
(** std pop_front(), used at List.h:361-367 and Queue.h:191-197 *)
Definition stl_pop_front (l : list T) : outcome (list T) := match l with [] => UB | _ :: t => Ok t end.
(** std: an iterator [n] steps behind begin(); walking past end() is undefined.
    [splice f l n]: replace the rest [r] at this position by [f r] *)
Fixpoint splice (f : list T -> outcome (list T)) (l : list T) (n : nat) : outcome (list T) :=
  match n, l with
  | O, _ => f l
  | S n, x :: t => omap (cons x) (splice f t n)
  | S _, [] => UB
  end.
(** std::advance(begin(), index) followed by insert / erase *)
Definition stl_insert (l : list T) (index : Z) (x : T) : outcome (list T) :=
  if index <? 0 then UB else splice (fun r => Ok (x :: r)) l (Z.to_nat index).
(** std erase(iterator), used at Vector.h:317-323 and List.h:335-341 *)
Definition stl_erase (l : list T) (index : Z) : outcome (list T) :=
  if index <? 0 then UB else splice stl_pop_front l (Z.to_nat index).
(** vector::at throws if the (converted) index is not below size(); Vector.h:243-253, 279-289 *)
Definition stl_at (l : list T) (index : Z) : outcome T :=
  if wrapu64 index <? len l then aget l (wrapu64 index) else Err.
(** resize(n, value) of an empty container: the int is converted to size_t, a huge
    size throws (bound 2^62 stands for max_size()); Vector.h:223-226 and the constructors that call it *)
Definition stl_fill (n : Z) (x : T) : outcome (list T) :=
  if wrapu64 n <? 4611686018427387904 then Ok (repeat x (Z.to_nat (wrapu64 n))) else Err.

(** boundaryCheck, Vector.h:374-380 and List.h:414-420 *)
Definition boundaryCheck (l : list T) (index : Z) : outcome unit :=
  let unsignedIndex := wrapu64 index in
  if (index <? 0) || (len l <=? unsignedIndex) then Err else Ok tt.
(** emptyCheck, Vector.h:382-387, List.h:422-427, Stack.h:216-221, Queue.h:237-242 *)
Definition emptyCheck (l : list T) : outcome unit := match l with [] => Err | _ => Ok tt end.

(** Vector(n, value), Vector.h:223-226; List(n, value), List.h:239-242 *)
Definition seq_fill (n : Z) (x : T) : outcome (list T) := stl_fill n x.
(** get and operator[] of Vector, Vector.h:243-253, 279-289 *)
Definition vec_get (l : list T) (index : Z) : outcome T := _ <- boundaryCheck l index ;; stl_at l index.
(** writing through the reference returned by get / operator[]; Vector.h:243-253, 279-289 *)
Definition vec_ref_set (l : list T) (index : Z) (x : T) : outcome (list T) :=
  _ <- vec_get l index ;; aset l index x.
(** first, last: Vector.h:255-277, List.h:265-287 *)
Definition seq_first (l : list T) : outcome T := _ <- emptyCheck l ;; stl_front l.
(** last, Vector.h:255-277, List.h:265-287 *)
Definition seq_last (l : list T) : outcome T := _ <- emptyCheck l ;; stl_back l.
(** insert: Vector.h:306-315, List.h:324-333 *)
Definition seq_insert (l : list T) (index : Z) (x : T) : outcome (list T) :=
  let unsignedIndex := wrapu64 index in
  if (index <? 0) || (len l <? unsignedIndex) then Err else stl_insert l index x.
(** erase: Vector.h:317-323, List.h:335-341 *)
Definition seq_erase (l : list T) (index : Z) : outcome (list T) :=
  _ <- boundaryCheck l index ;; stl_erase l index.
(** set, Vector.h:325-329 *)
Definition vec_set (l : list T) (index : Z) (x : T) : outcome (list T) :=
  _ <- boundaryCheck l index ;; aset l index x.
(** push: Vector.h:331-334, List.h:343-346 *)
Definition seq_push (l : list T) (x : T) : list T := l ++ [x].
(** pop: Vector.h:336-342, List.h:353-359 *)
Definition seq_pop (l : list T) : outcome (T * list T) :=
  _ <- emptyCheck l ;; x <- stl_back l ;; l <- stl_pop_back l ;; Ok (x, l).
(** push_front, pop_front: List.h:348-351, 361-367 *)
Definition list_push_front (l : list T) (x : T) : list T := x :: l.
(** pop_front, List.h:361-367 *)
Definition list_pop_front (l : list T) : outcome (T * list T) :=
  _ <- emptyCheck l ;; x <- stl_front l ;; l <- stl_pop_front l ;; Ok (x, l).
(** operator[] of List, List.h:289-307: [for (i = 0; i != index; i++) ++iterator],
    then a dereference *)
Fixpoint walk (l : list T) (n : nat) : outcome T :=
  match n with
  | O => stl_front l
  | S n => match l with [] => UB | _ :: t => walk t n end
  end.
(** operator[], List.h:289-307 *)
Definition list_at (l : list T) (index : Z) : outcome T :=
  _ <- boundaryCheck l index ;; walk l (Z.to_nat index).
(** reverse, List.h:374-377 *)
Definition list_reverse (l : list T) : list T := rev l.

Context (lt : T -> T -> bool).
(** sort, List.h:369-372 (std::list::sort is stable): stable insertion sort *)
Fixpoint ins_sorted (x : T) (l : list T) : list T :=
  match l with
  | [] => [x]
  | y :: t => if lt y x then y :: ins_sorted x t else x :: y :: t
  end.
(** sort, List.h:369-372 *)
Definition list_sort (l : list T) : list T := fold_right ins_sorted [] l.
(** merge, List.h:379-382; std::list::merge takes an element of the second list
    only if it is less, and requires both lists to be sorted.  The second list
    is emptied. *)
Fixpoint is_sorted (l : list T) : bool :=
  match l with
  | x :: (y :: _) as t => negb (lt y x) && is_sorted t
  | _ => true
  end.
(** std::list::merge, used at List.h:379-382 *)
Fixpoint merge_loop (a : list T) : list T -> list T :=
  fix inner (b : list T) : list T :=
    match a, b with
    | [], _ => b
    | _, [] => a
    | x :: a', y :: b' => if lt y x then y :: inner b' else x :: merge_loop a' b
    end.
(** merge, List.h:379-382 *)
Definition list_merge (a b : list T) : outcome (list T * list T) :=
  if is_sorted a && is_sorted b then Ok (merge_loop a b, []) else UB.

(** comparisons of the underlying sequences: Vector.h:344-372, List.h:384-412,
    Stack.h:186-214, Queue.h:207-235 (a stack is compared from its bottom).
    [eq] is the element type's operator==. *)
Context (eq : T -> T -> bool).
(** std operator== of the underlying containers: Vector.h:345, List.h:384-412, Stack.h:186-214, Queue.h:207-235 *)
Fixpoint cmp_eq (a b : list T) : bool :=
  match a, b with
  | [], [] => true
  | x :: a, y :: b => eq x y && cmp_eq a b
  | _, _ => false
  end.
(** std::lexicographical_compare *)
Fixpoint cmp_lt (a b : list T) : bool :=
  match a, b with
  | _, [] => false
  | [], _ :: _ => true
  | x :: a, y :: b => if lt x y then true else if lt y x then false else cmp_lt a b
  end.
(** operator!=, Vector.h:350, List.h:384-412, Stack.h:186-214, Queue.h:207-235 *)
Definition cmp_ne a b := negb (cmp_eq a b).
(** operator>, Vector.h:365, List.h:384-412, Stack.h:186-214, Queue.h:207-235 *)
Definition cmp_gt a b := cmp_lt b a.
(** operator<=, Vector.h:360, List.h:384-412, Stack.h:186-214, Queue.h:207-235 *)
Definition cmp_le a b := negb (cmp_lt b a).
(** operator>=, Vector.h:370, List.h:384-412, Stack.h:186-214, Queue.h:207-235 *)
Definition cmp_ge a b := negb (cmp_lt a b).

(** one call on a Vector; Vector.h:243-342 *)
Inductive vop :=
| VGet (i : Z) | VFirst | VLast | VIsEmpty | VSize | VClear | VInsert (i : Z) (x : T)
| VErase (i : Z) | VSet (i : Z) (x : T) | VRefSet (i : Z) (x : T) | VPush (x : T) | VPop.
(** Vector.h: isEmpty 291-294, clear 301-304, the others as above *)
Definition vec_step (l : list T) (o : vop) : outcome (list T * result) :=
  match o with
  | VGet i => x <- vec_get l i ;; Ok (l, RVal x)
  | VFirst => x <- seq_first l ;; Ok (l, RVal x)
  | VLast => x <- seq_last l ;; Ok (l, RVal x)
  | VIsEmpty => Ok (l, RBool (match l with [] => true | _ => false end))
  | VSize => Ok (l, RInt (size_int l))
  | VClear => Ok ([], RNone)
  | VInsert i x => l <- seq_insert l i x ;; Ok (l, RNone)
  | VErase i => l <- seq_erase l i ;; Ok (l, RNone)
  | VSet i x => l <- vec_set l i x ;; Ok (l, RNone)
  | VRefSet i x => l <- vec_ref_set l i x ;; Ok (l, RNone)
  | VPush x => Ok (seq_push l x, RNone)
  | VPop => ' (x, l) <- seq_pop l ;; Ok (l, RVal x)
  end.
(** one call on a List; List.h:265-382 *)
Inductive lop :=
| LAt (i : Z) | LFirst | LLast | LIsEmpty | LSize | LClear | LInsert (i : Z) (x : T)
| LErase (i : Z) | LPush (x : T) | LPushFront (x : T) | LPop | LPopFront | LReverse | LSort.
(** List.h: isEmpty 309-312, clear 319-322, the others as above *)
Definition list_step (l : list T) (o : lop) : outcome (list T * result) :=
  match o with
  | LAt i => x <- list_at l i ;; Ok (l, RVal x)
  | LFirst => x <- seq_first l ;; Ok (l, RVal x)
  | LLast => x <- seq_last l ;; Ok (l, RVal x)
  | LIsEmpty => Ok (l, RBool (match l with [] => true | _ => false end))
  | LSize => Ok (l, RInt (size_int l))
  | LClear => Ok ([], RNone)
  | LInsert i x => l <- seq_insert l i x ;; Ok (l, RNone)
  | LErase i => l <- seq_erase l i ;; Ok (l, RNone)
  | LPush x => Ok (seq_push l x, RNone)
  | LPushFront x => Ok (list_push_front l x, RNone)
  | LPop => ' (x, l) <- seq_pop l ;; Ok (l, RVal x)
  | LPopFront => ' (x, l) <- list_pop_front l ;; Ok (l, RVal x)
  | LReverse => Ok (list_reverse l, RNone)
  | LSort => Ok (list_sort l, RNone)
  end.

(** Stack: the list is the underlying deque, top = back.
    top 148-158, pop 170-176, push 165-168 of Stack.h *)
Definition stack_top (l : list T) : outcome T := _ <- emptyCheck l ;; stl_back l.
(** push, Stack.h:165-168 *)
Definition stack_push (l : list T) (x : T) : list T := l ++ [x].
(** pop, Stack.h:170-176 *)
Definition stack_pop (l : list T) : outcome (T * list T) :=
  _ <- emptyCheck l ;; x <- stl_back l ;; l <- stl_pop_back l ;; Ok (x, l).
(** the loop of clear, Stack.h:178-184 and Queue.h:199-205:
    [int size = size(); for (int i = 0; i != size; i++) pop()]; [n] iterations *)
Fixpoint pop_times (pop : list T -> outcome (list T)) (n : nat) (l : list T) : outcome (list T) :=
  match n with
  | O => Ok l
  | S n => l <- pop l ;; pop_times pop n l
  end.
(** with a negative [size] the counter runs up to INT_MAX and overflows (or the
    container runs empty before): undefined in both cases; Stack.h:178-184, Queue.h:199-205 *)
Definition clear_loop (pop : list T -> outcome (list T)) (l : list T) : outcome (list T) :=
  let size := size_int l in
  if size <? 0 then UB else pop_times pop (Z.to_nat size) l.
(** clear, Stack.h:178-184 *)
Definition stack_clear (l : list T) : outcome (list T) := clear_loop stl_pop_back l.
(** one call on a Stack, Stack.h:143-184 *)
Inductive sop := SPush (x : T) | SPop | STop | SSize | SIsEmpty | SClear.
(** Stack.h: size 143-146, isEmpty 160-163, the others as above *)
Definition stack_step (l : list T) (o : sop) : outcome (list T * result) :=
  match o with
  | SPush x => Ok (stack_push l x, RNone)
  | SPop => ' (x, l) <- stack_pop l ;; Ok (l, RVal x)
  | STop => x <- stack_top l ;; Ok (l, RVal x)
  | SSize => Ok (l, RInt (size_int l))
  | SIsEmpty => Ok (l, RBool (match l with [] => true | _ => false end))
  | SClear => l <- stack_clear l ;; Ok (l, RNone)
  end.

(** Queue: front = first element of the list.
    Queue.h: first 156-164 and last 166-174 (not checked), enqueue 186-189, dequeue 191-197 *)
Definition queue_first (l : list T) : outcome T := stl_front l.
(** last, Queue.h:166-174 *)
Definition queue_last (l : list T) : outcome T := stl_back l.
(** enqueue, Queue.h:186-189 *)
Definition queue_enqueue (l : list T) (x : T) : list T := l ++ [x].
(** dequeue, Queue.h:191-197 *)
Definition queue_dequeue (l : list T) : outcome (T * list T) :=
  _ <- emptyCheck l ;; x <- stl_front l ;; l <- stl_pop_front l ;; Ok (x, l).
(** clear, Queue.h:199-205 *)
Definition queue_clear (l : list T) : outcome (list T) := clear_loop stl_pop_front l.
(** one call on a Queue, Queue.h:156-205 *)
Inductive qop := QEnqueue (x : T) | QDequeue | QFirst | QLast | QSize | QIsEmpty | QClear.
(** Queue.h: size 176-179, isEmpty 181-184, the others as above *)
Definition queue_step (l : list T) (o : qop) : outcome (list T * result) :=
  match o with
  | QEnqueue x => Ok (queue_enqueue l x, RNone)
  | QDequeue => ' (x, l) <- queue_dequeue l ;; Ok (l, RVal x)
  | QFirst => x <- queue_first l ;; Ok (l, RVal x)
  | QLast => x <- queue_last l ;; Ok (l, RVal x)
  | QSize => Ok (l, RInt (size_int l))
  | QIsEmpty => Ok (l, RBool (match l with [] => true | _ => false end))
  | QClear => l <- queue_clear l ;; Ok (l, RNone)
  end.
End Sequences.
Arguments result : clear implicits.
Arguments vop : clear implicits.
Arguments lop : clear implicits.
Arguments sop : clear implicits.
Arguments qop : clear implicits.

(** a history of calls; the results in order.  The program stops at the first error; client of Vector.h, List.h, Stack.h, Queue.h, Map.h, Set.h, MultiSet.h *)
Fixpoint run {S O R} (step : S -> O -> outcome (S * R)) (s : S) (os : list O) : outcome (S * list R) :=
  match os with
  | [] => Ok (s, [])
  | o :: os =>
      ' (s, r) <- step s o ;;
      ' (s, rs) <- run step s os ;;
      Ok (s, r :: rs)
  end.

Section Trees.
(** entries [E] with keys [K] compared by [lt] (std::less of the key type) *)
Context {E K : Type} (key : E -> K) (lt : K -> K -> bool).

(** std: find = lower_bound and a check *)
Fixpoint t_find (k : K) (l : list E) : option E :=
  match l with
  | [] => None
  | e :: t => if lt (key e) k then t_find k t else if lt k (key e) then None else Some e
  end.
(** std: insertion into a map/set: nothing happens if an equivalent key is present *)
Fixpoint t_insert (e : E) (l : list E) : list E :=
  match l with
  | [] => [e]
  | x :: t => if lt (key x) (key e) then x :: t_insert e t else if lt (key e) (key x) then e :: x :: t else x :: t
  end.
(** std: insertion into a multimap/multiset: behind all equivalent keys *)
Fixpoint t_insert_multi (e : E) (l : list E) : list E :=
  match l with
  | [] => [e]
  | x :: t => if lt (key e) (key x) then e :: x :: t else x :: t_insert_multi e t
  end.
(** std: equal_range, count and erase by key *)
Fixpoint t_range (k : K) (l : list E) : list E :=
  match l with
  | [] => []
  | x :: t => if lt (key x) k then t_range k t else if lt k (key x) then [] else x :: t_range k t
  end.
(** erase by key, used at Map.h:242-245, Set.h:192-195, MultiSet.h:198-205, MultiMap.h:203-206 *)
Fixpoint t_erase (k : K) (l : list E) : list E :=
  match l with
  | [] => []
  | x :: t => if lt (key x) k then x :: t_erase k t else if lt k (key x) then x :: t else t_erase k t
  end.
End Trees.

Section Maps.
Context {K V : Type} (lt : K -> K -> bool) (default : V).
(** the std::map of Map.h in key order *)
Definition map_state := list (K * V).
(** keyCheck and get, Map.h:205-215, 282-287 *)
Definition map_get (m : map_state) (k : K) : outcome V :=
  match t_find fst lt k m with
  | None => Err
  | Some (_, v) => Ok v
  end.
(** operator[], Map.h:222-225: creates a default value *)
Definition map_touch (m : map_state) (k : K) : map_state := t_insert fst lt (k, default) m.
(** assignment to the value of a present key, Map.h:217-220, 222-225 *)
Fixpoint t_assign (k : K) (v : V) (m : map_state) : map_state :=
  match m with
  | [] => []
  | (k', v') :: t => if lt k' k then (k', v') :: t_assign k v t else if lt k k' then (k', v') :: t else (k', v) :: t
  end.
(** set, Map.h:217-220: [privateMap[key] = value] *)
Definition map_set (m : map_state) (k : K) (v : V) : map_state := t_assign k v (map_touch m k).
(** contains, Map.h:247-250 *)
Definition map_contains (m : map_state) (k : K) : bool := match t_find fst lt k m with None => false | _ => true end.
(** one call on a Map, Map.h:205-250 *)
Inductive mop := MSet (k : K) (v : V) | MGet (k : K) | MIndex (k : K) | MErase (k : K) | MClear | MContains (k : K) | MSize.
(** Map.h: erase 242-245, clear 237-240, size 232-235, the others as above;
    [MIndex] reads through the reference returned by operator[] *)
Definition map_step (m : map_state) (o : mop) : outcome (map_state * result V) :=
  match o with
  | MSet k v => Ok (map_set m k v, RNone)
  | MGet k => v <- map_get m k ;; Ok (m, RVal v)
  | MIndex k =>
      let m := map_touch m k in
      match t_find fst lt k m with Some (_, v) => Ok (m, RVal v) | None => UB end
  | MErase k => Ok (t_erase fst lt k m, RNone)
  | MClear => Ok ([], RNone)
  | MContains k => Ok (m, RBool (map_contains m k))
  | MSize => Ok (m, RInt (size_int m))
  end.

(** Set.h: insert 187-190, erase 192-195, clear 197-200, contains 202-205, size 182-185 *)
Inductive setop := TInsert (k : K) | TErase (k : K) | TClear | TContains (k : K) | TSize.
(** one call on a Set, Set.h:182-205 *)
Definition set_step (s : list K) (o : setop) : outcome (list K * result K) :=
  match o with
  | TInsert k => Ok (t_insert (fun k => k) lt k s, RNone)
  | TErase k => Ok (t_erase (fun k => k) lt k s, RNone)
  | TClear => Ok ([], RNone)
  | TContains k => Ok (s, RBool (match t_find (fun k => k) lt k s with None => false | _ => true end))
  | TSize => Ok (s, RInt (size_int s))
  end.
(** MultiSet.h: insert 193-196, erase 198-205, count 207-210, clear 212-215,
    contains 217-220, size 188-191 *)
Inductive msop := MSInsert (k : K) | MSErase (k : K) | MSClear | MSContains (k : K) | MSCount (k : K) | MSSize.
(** one call on a MultiSet, MultiSet.h:188-220 *)
Definition ms_step (s : list K) (o : msop) : outcome (list K * result K) :=
  match o with
  | MSInsert k => Ok (t_insert_multi (fun k => k) lt k s, RNone)
  | MSErase k =>
      match t_find (fun k => k) lt k s with
      | None => Err
      | Some _ => Ok (t_erase (fun k => k) lt k s, RNone)
      end
  | MSClear => Ok ([], RNone)
  | MSContains k => Ok (s, RBool (match t_find (fun k => k) lt k s with None => false | _ => true end))
  | MSCount k => Ok (s, RInt (size_int (t_range (fun k => k) lt k s)))
  | MSSize => Ok (s, RInt (size_int s))
  end.

(** MultiMap.h: constructor from an initializer list 165-169, erase 203-206,
    count 208-211, find 213-221 (the values are compared by [ltv]) *)
Context (ltv : V -> V -> bool).
(** the constructor from a list, MultiMap.h:165-169 *)
Definition mm_build (init : list (K * V)) : list (K * V) :=
  fold_left (fun m e => t_insert_multi fst lt e m) init [].
(** erase, MultiMap.h:203-206 *)
Definition mm_erase (m : list (K * V)) (k : K) : list (K * V) := t_erase fst lt k m.
(** count, MultiMap.h:208-211 *)
Definition mm_count (m : list (K * V)) (k : K) : Z := size_int (t_range fst lt k m).
(** find, MultiMap.h:213-221 *)
Definition mm_find (m : list (K * V)) (k : K) : list V :=
  fold_left (fun s e => t_insert (fun v => v) ltv (snd e) s) (t_range fst lt k m) [].
End Maps.
Arguments mop : clear implicits.
Arguments setop : clear implicits.
Arguments msop : clear implicits.
