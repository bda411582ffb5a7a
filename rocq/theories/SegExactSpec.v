(** What a query of SegmentTree says after an arbitrary history: the pieces a
    range is cut into, and which updates reach a piece. *)
From Verif Require Import Base SegModel SegSpec.
Local Open Scope Z_scope.

(** the pieces of [lv, rv] inside a block [l, r]: a block inside the range is
    one piece, a block outside it gives none, any other block is halved *)
Inductive cut (lv rv : Z) : Z -> Z -> list (Z * Z) -> Prop :=
| cut_inside l r : lv <= l -> l <= r -> r <= rv -> cut lv rv l r [(l, r)]
| cut_outside l r : l <= r -> r < lv \/ rv < l -> cut lv rv l r []
| cut_halve l r ps qs : lv <= r -> l <= rv -> l < lv \/ rv < r ->
    cut lv rv l ((l + r) / 2) ps -> cut lv rv ((l + r) / 2 + 1) r qs -> cut lv rv l r (ps ++ qs).

(** an update moves the value of a piece only if its range contains the piece *)
Definition reach (k : kind) (a b : Z) (x : Z) (c : call) : Z :=
  match c with
  | CQuery _ _ _ => x
  | CUpdate u lv rv =>
      if (lv <=? a) && (b <=? rv) then
        match u with
        | Mul m => x * m
        | Add d => x + d * match k with QSum => b - a + 1 | _ => 1 end
        end
      else x
  end.
(** the value of a piece: its right answer in the initial list, moved by the
    updates that reach it *)
Definition piece_value (k : kind) (v : list Z) (cs : list call) (p : Z * Z) (x : Z) : Prop :=
  exists y, answers k (at_ v) (fst p) (snd p) y /\ x = fold_left (reach k (fst p) (snd p)) cs y.
(** the sum, the greatest or the least of the values of the pieces *)
Definition joined (k : kind) (xs : list Z) (x : Z) : Prop :=
  match k with
  | QSum => x = fold_right Z.add 0 xs
  | QMax => In x xs /\ Forall (fun y => y <= x) xs
  | QMin => In x xs /\ Forall (fun y => x <= y) xs
  end.
(** consecutive non-empty blocks from lo up to hi *)
Inductive tiles : Z -> Z -> list (Z * Z) -> Prop :=
| tiles_nil lo : tiles lo (lo - 1) []
| tiles_cons lo m hi ps : lo <= m -> tiles (m + 1) hi ps -> tiles lo hi ((lo, m) :: ps).
(** every update adds a positive number *)
Definition adds_positive (c : call) : Prop :=
  match c with CQuery _ _ _ => True | CUpdate (Add d) _ _ => 0 < d | CUpdate (Mul _) _ _ => False end.
