(** What the printed text of a fraction, matrix or point has to look like. *)
From Verif Require Import Base VecIOSpec.

(** [c] does not occur in [s] *)
Definition without (c : ascii) (s : bytes) : Prop := ~ In c s.
(** the lines of a text, each ended by the character [nl] *)
Definition lines (nl : ascii) (l : list bytes) : bytes := flat_map (fun s => s ++ [nl]) l.
(** a number format that can be read back: distinct numbers have distinct texts, none with a comma or the character [nl] *)
Definition readable {A} (nl : ascii) (fmt : A -> bytes) : Prop :=
  (forall x y, fmt x = fmt y -> x = y) /\ (forall x, without ","%char (fmt x) /\ without nl (fmt x)).
