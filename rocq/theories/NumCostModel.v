(** gcd, binaryPow and genericBinaryPow of NumModel once more, counting the
    [%] operations and the multiplications.  NumCostProofs shows that
    forgetting the counters gives back NumModel. *)
From Verif Require Import Base NumModel.
Local Open Scope Z_scope.

(** math_functions.h:27, [while ((a %= b) && (b %= a)) {}], counting [%=] *)
Fixpoint gcd_loopC (fuel : nat) (t : ity) (a b : Z) : outcome (Z * Z * nat) :=
  match fuel with
  | O => Fuel
  | S k =>
      a <- imod t a b ;;
      if a =? 0 then Ok ((a, b), 1%nat)
      else
        b <- imod t b a ;;
        if b =? 0 then Ok ((a, b), 2%nat)
        else ' (p, n) <- gcd_loopC k t a b ;; Ok (p, (2 + n)%nat)
  end.
(** math_functions.h:23-30, [gcd], with the number of [%=] performed *)
Definition gcdC (t : ity) (a b : Z) : outcome (Z * nat) :=
  ' (p, n) <- (if negb (b =? 0) then gcd_loopC 65 t a b else Ok ((a, b), 0%nat)) ;;
  let (a, b) := p : Z * Z in
  g <- chk t (a + b) ;; Ok (g, n).

(** binary_pow.cpp:11-17, the loop of [binaryPow], counting multiplications *)
Fixpoint bpow_loopC (fuel : nat) (base exp result : Z) : outcome (Z * Z) :=
  match fuel with
  | O => Fuel
  | S k =>
      if exp =? 0 then Ok (result, 0)
      else
        ' (result, m) <- (if Z.odd exp then r <- chk64 (result * base) ;; Ok (r, 1) else Ok (result, 0)) ;;
        base <- chk64 (base * base) ;;
        ' (x, n) <- bpow_loopC k base (Z.shiftr exp 1) result ;; Ok (x, m + 1 + n)
  end.
(** binary_pow.cpp:4-19, [binaryPow], with the number of multiplications *)
Definition binaryPowC (base exp : Z) : outcome (Z * Z) :=
  if exp =? 0 then Ok (1, 0)
  else if exp <? 0 then Err
  else if base =? 1 then Ok (1, 0)
  else if base =? 2 then (if 64 <=? exp - 1 then UB else x <- chk64 (Z.shiftl base (exp - 1)) ;; Ok (x, 0))
  else bpow_loopC 33 base exp 1.

Section Generic.
Context {A : Type} (mul : A -> A -> A).
(** math_functions.h:421-427 and 442-448: the loop, counting [*=] *)
Fixpoint gpow_loopC (fuel : nat) (base : A) (exp : Z) (result : A) : outcome (A * Z) :=
  match fuel with
  | O => Fuel
  | S k =>
      if exp =? 0 then Ok (result, 0)
      else
        let (result, m) := if Z.rem exp 2 =? 1 then (mul result base, 1) else (result, 0) in
        ' (x, n) <- gpow_loopC k (mul base base) (Z.quot exp 2) result ;; Ok (x, m + 1 + n)
  end.
(** math_functions.h:409-429, with the number of [*=] *)
Definition genericBinaryPow1C (one base : A) (exp : Z) : outcome (A * Z) :=
  if exp =? 0 then Ok (one, 0)
  else if exp =? 1 then Ok (base, 0)
  else if exp <? 0 then Err
  else gpow_loopC 65 base (exp - 1) base.
(** math_functions.h:432-450, with the number of [*=] *)
Definition genericBinaryPowC (base : A) (exp : Z) : outcome (A * Z) :=
  if exp =? 1 then Ok (base, 0)
  else if exp <=? 0 then Err
  else gpow_loopC 65 base (exp - 1) base.
End Generic.
