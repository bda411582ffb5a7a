(** Model of src/include/algorithm/Zip.h, Filter.h, Map.h.  Containers are lists;
    the user function is a pure function. *)
From Verif Require Import Base.

Section Zip.
Context {A : Type}.

(** Zip.h:30-34: [for (i = 0; i < min_; ++i) items[i].push_back(head_i)], [head_i] the i-th element of [head].
    [n] iterations from [i]; out-of-range access of [items] or [head] is UB. *)
Fixpoint push_loop (n i : nat) (head : list A) (items : list (list A)) : outcome (list (list A)) :=
  match n with
  | O => Ok items
  | S k =>
      match nth_error head i, nth_error items i with
      | Some x, Some it => push_loop k (S i) head (upd items i (it ++ [x]))
      | _, _ => UB
      end
  end.

(** [items.resize(min_)] (Zip.h:39) *)
Definition resize (n : nat) (items : list (list A)) : list (list A) :=
  firstn n items ++ repeat [] (n - length items).

(** Zip.h:26-39, [zip_]; the parameter pack is a list of containers. *)
Fixpoint zip_ (args : list (list A)) (min : nat) (items : list (list A)) : outcome (list (list A)) :=
  match args with
  | [] => Ok (resize min items)
  | head :: tail =>
      let min := if Nat.ltb (length head) min then length head else min in
      items <- push_loop min 0 head items ;;
      zip_ tail min items
  end.

(** Zip.h:16-20 and 64-67, [zip(head, tail...)]. *)
Definition zip (head : list A) (tail : list (list A)) : outcome (list (list A)) :=
  zip_ (head :: tail) (length head) (repeat [] (length head)).
End Zip.

(** src/include/algorithm/Filter.h:19-30, [filterContainer]: the loop with its accumulator. *)
Fixpoint filter_loop {A} (f : A -> bool) (cont ret : list A) : list A :=
  match cont with
  | [] => ret
  | v :: t => filter_loop f t (if f v then ret ++ [v] else ret)
  end.
(** [filterContainer], Filter.h:19-30 *)
Definition filterContainer {A} (f : A -> bool) (cont : list A) : list A := filter_loop f cont [].

(** src/include/algorithm/Map.h:19-31, [mapAll]. *)
Fixpoint map_loop {A B} (f : A -> B) (cont : list A) (ret : list B) : list B :=
  match cont with
  | [] => ret
  | v :: t => map_loop f t (ret ++ [f v])
  end.
(** [mapAll], Map.h:19-31 *)
Definition mapAll {A B} (f : A -> B) (cont : list A) : list B := map_loop f cont [].
