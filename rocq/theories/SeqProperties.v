(** Property theorems C12-C13 (zip, filterContainer, mapAll). *)
From Verif Require Import Base SeqModel SeqProofs.

(** C12: [zip] stays in bounds; its length is the minimum length; element [k] of
    row [i] is element [i] of argument [k]. *)
Theorem C12_zip :
  forall (A : Type) (head : list A) (tail : list (list A)),
    exists r, zip head tail = Ok r /\
      (forall c, In c (head :: tail) -> length r <= length c) /\
      (exists c, In c (head :: tail) /\ length r = length c) /\
      (forall i row k c, nth_error r i = Some row -> nth_error (head :: tail) k = Some c ->
         nth_error row k = nth_error c i) /\
      (forall i row, nth_error r i = Some row -> length row = S (length tail)).
Proof. exact (@zip_spec). Qed.
Print Assumptions C12_zip.
Example C12_example :
  zip [1; 2; 3; 4] [[5; 6; 7; 8]; [9; 10; 11]] = Ok [[1; 5; 9]; [2; 6; 10]; [3; 7; 11]].
Proof. reflexivity. Qed.

(** C13: [filterContainer] is the longest subsequence of elements satisfying the
    predicate, and contains exactly these elements; [mapAll] is pointwise. *)
Theorem C13_filterContainer :
  forall (A : Type) (f : A -> bool) (l : list A),
    subseq (filterContainer f l) l /\
    (forall x, In x (filterContainer f l) <-> In x l /\ f x = true) /\
    (forall s, subseq s l -> (forall x, In x s -> f x = true) ->
       length s <= length (filterContainer f l)).
Proof. exact (@filterContainer_spec). Qed.
Print Assumptions C13_filterContainer.
Theorem C13_mapAll :
  forall (A B : Type) (f : A -> B) (l : list A),
    length (mapAll f l) = length l /\
    forall i, nth_error (mapAll f l) i = option_map f (nth_error l i).
Proof. exact (@mapAll_spec). Qed.
Print Assumptions C13_mapAll.
Example C13_example :
  filterContainer Nat.even [1; 2; 2; 5; 4] = [2; 2; 4] /\ mapAll S [3; 1] = [4; 2].
Proof. split; reflexivity. Qed.
