(** src/algorithm/kmp.cpp with a counter of character comparisons: the functions of
    KmpModel, returning also the counter [c], increased at each comparison of two
    characters (kmp.cpp:16, 19, 33). *)
From Verif Require Import Base KmpModel.
Local Open Scope Z_scope.

(** kmp.cpp:15-27 *)
Fixpoint gen_count (fuel : nat) (p : bytes) (psize : Z) (next : list (option Z)) (j k c : Z)
  : outcome (list (option Z) * Z) :=
  if j <? psize - 1 then
    match fuel with
    | O => Fuel
    | S f =>
        ' (t, c) <- (if k =? -1 then Ok (true, c)
              else pj <- aget p j ;; pk <- aget p k ;; Ok (Ascii.eqb pj pk, c + 1)) ;;
        if t : bool then
          let j := j + 1 in
          let k := k + 1 in
          pj <- aget p j ;;
          pk <- aget p k ;;
          if Ascii.eqb pj pk then
            v <- tget next k ;;
            next <- aset next j (Some v) ;;
            gen_count f p psize next j k (c + 1)
          else
            next <- aset next j (Some k) ;;
            gen_count f p psize next j k (c + 1)
        else
          k <- tget next k ;;
          gen_count f p psize next j k c
    end
  else Ok (next, c).
(** kmp.cpp:32-41 *)
Fixpoint search_count (fuel : nat) (b p : bytes) (bsize psize : Z) (next : list (option Z))
  (m i c : Z) : outcome (Z * Z) :=
  if (m <? bsize) && (i <? psize) then
    match fuel with
    | O => Fuel
    | S f =>
        ' (t, c) <- (if i =? -1 then Ok (true, c)
              else bm <- aget b m ;; pi <- aget p i ;; Ok (Ascii.eqb bm pi, c + 1)) ;;
        if t : bool then search_count f b p bsize psize next (m + 1) (i + 1) c
        else i <- tget next i ;; search_count f b p bsize psize next m i c
    end
  else if i =? psize then Ok (m - i, c) else Ok (-1, c).
(** kmp.cpp:7-42: the result, the comparisons made for the table and those made in the search *)
Definition kmpCount (fuel : nat) (b p : bytes) (start : Z) : outcome (Z * Z * Z) :=
  let psize := wrap32 (Z.of_nat (length p)) in
  if psize <? 0 then UB else
  next <- aset (repeat None (Z.to_nat psize)) 0 (Some (-1)) ;;
  ' (next, ct) <- gen_count fuel p psize next 0 (-1) 0 ;;
  ' (r, cs) <- search_count fuel b p (wrap32 (Z.of_nat (length b))) psize next (wrap32 start) 0 0 ;;
  Ok (r, ct, cs).
