(** std::mt19937_64 as defined in the C++ standard ([rand.eng.mers], n = 312, m = 156,
    r = 31), the engine of src/include/random/Random.h:85.  Not project code: it
    only serves as a concrete instance of the engine parameter. *)
From Verif Require Import Base Float RandModel.
Local Open Scope Z_scope.

(** the words not yet returned of the current block and the block itself *)
Definition mt_state := (list Z * list Z)%type.
Fixpoint mt_init (fuel : nat) (i x : Z) : list Z :=
  match fuel with
  | O => []
  | S fuel => x :: mt_init fuel (i + 1) (wrapu64 (6364136223846793005 * Z.lxor x (Z.shiftr x 62) + i))
  end.
Definition mt_seed (s : Z) : mt_state := ([], mt_init 312 1 s).
Definition mt_mix (hi lo far : Z) : Z :=
  let y := Z.lor (Z.land hi 18446744071562067968) (Z.land lo 2147483647) in
  Z.lxor (Z.lxor far (Z.shiftr y 1)) (if Z.odd y then 13043109905998158313 else 0).
(** words i .. of the next block; [far] lists the words m positions ahead *)
Fixpoint mt_row (old far : list Z) (last : Z) : list Z :=
  match old, far with
  | x :: ((y :: _) as t), f :: far => mt_mix x y f :: mt_row t far last
  | [x], f :: _ => [mt_mix x last f]
  | _, _ => []
  end.
Definition mt_twist (b : list Z) : list Z :=
  let head := mt_row (firstn 157 b) (skipn 156 b) 0 in
  (* the first 156 new words only need old ones *)
  let low := firstn 156 head in
  low ++ mt_row (skipn 156 b) low (hd 0 low).
Definition mt_temper (x : Z) : Z :=
  let x := Z.lxor x (Z.land (Z.shiftr x 29) 6148914691236517205) in
  let x := Z.lxor x (Z.land (wrapu64 (Z.shiftl x 17)) 8202884508482404352) in
  let x := Z.lxor x (Z.land (wrapu64 (Z.shiftl x 37)) 18444473444759240704) in
  Z.lxor x (Z.shiftr x 43).
Definition mt_gen (s : mt_state) : Z * mt_state :=
  match s with
  | (x :: t, b) => (mt_temper x, (t, b))
  | ([], b) => match mt_twist b with x :: t => (mt_temper x, (t, x :: t)) | [] => (0, s) end
  end.
Definition mt19937_64 : engine mt_state := Engine mt_seed mt_gen.
Fixpoint mt_drop (n : nat) (s : mt_state) : mt_state := match n with O => s | S n => mt_drop n (snd (mt_gen s)) end.
(** the check value of the standard: the 10000th output after default seeding *)
Example mt_10000 : fst (mt_gen (mt_drop (Z.to_nat 9999) (mt_seed 5489))) = 9981545732273789042.
Proof. vm_compute. reflexivity. Qed.
