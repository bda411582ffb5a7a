(** Model of src/algorithm/kmp.cpp. *)
From Verif Require Import Base.
Local Open Scope Z_scope.

(** Reading an element of [new int[psize]] (kmp.cpp:11): out of range or never
    written (uninitialised) is undefined behaviour. *)
Definition tget (next : list (option Z)) (i : Z) : outcome Z :=
  v <- aget next i ;; match v with Some z => Ok z | None => UB end.

(** kmp.cpp:15-27, the loop that fills the table.  Characters are read with a
    strict bounds check ([std::string] would also allow reading index [size()]). *)
Fixpoint gen_loop (fuel : nat) (p : bytes) (psize : Z) (next : list (option Z)) (j k : Z)
  : outcome (list (option Z)) :=
  if j <? psize - 1 then
    match fuel with
    | O => Fuel
    | S f =>
        c <- (if k =? -1 then Ok true
              else pj <- aget p j ;; pk <- aget p k ;; Ok (Ascii.eqb pj pk)) ;;
        if c : bool then
          let j := j + 1 in
          let k := k + 1 in
          pj <- aget p j ;;
          pk <- aget p k ;;
          if Ascii.eqb pj pk then
            v <- tget next k ;;
            next <- aset next j (Some v) ;;
            gen_loop f p psize next j k
          else
            next <- aset next j (Some k) ;;
            gen_loop f p psize next j k
        else
          k <- tget next k ;;
          gen_loop f p psize next j k
    end
  else Ok next.

(** kmp.cpp:32-41, the search loop and the result. *)
Fixpoint search_loop (fuel : nat) (b p : bytes) (bsize psize : Z) (next : list (option Z))
  (m i : Z) : outcome Z :=
  if (m <? bsize) && (i <? psize) then
    match fuel with
    | O => Fuel
    | S f =>
        c <- (if i =? -1 then Ok true
              else bm <- aget b m ;; pi <- aget p i ;; Ok (Ascii.eqb bm pi)) ;;
        if c : bool then search_loop f b p bsize psize next (m + 1) (i + 1)
        else i <- tget next i ;; search_loop f b p bsize psize next m i
    end
  else if i =? psize then Ok (m - i) else Ok (-1).

(** kmp.cpp:7-42, [kmpSearch(base, pattern, start)].  The sizes and [start] (a
    [std::size_t], given as a non-negative Z) are converted to int.  [new
    int[psize]] with a negative [psize] (kmp.cpp:11) throws; that case is merged
    into UB here (it needs a pattern of at least 2^31 characters). *)
Definition kmpSearch (fuel : nat) (b p : bytes) (start : Z) : outcome Z :=
  let psize := wrap32 (Z.of_nat (length p)) in
  if psize <? 0 then UB else
  next <- aset (repeat None (Z.to_nat psize)) 0 (Some (-1)) ;;
  next <- gen_loop fuel p psize next 0 (-1) ;;
  search_loop fuel b p (wrap32 (Z.of_nat (length b))) psize next (wrap32 start) 0.
