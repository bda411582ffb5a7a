(** Specification of floats in JSON texts: real numbers and rounding to the nearest double. *)
From Coq Require Import Reals Floats.SpecFloat.
From Flocq Require Import Core IEEE754.BinarySingleNaN.
From Verif Require Import Base DecModel Float FloatProofs JsonModel.
Local Open Scope R_scope.

(** every double that is not infinite and not NaN *)
Definition proper (x : double) : Prop := dvalid x = true /\ dfinite x = true.
(** [x] is [r] rounded to the nearest double, with sign bit [s]; [r] within the range *)
Definition is_nearest (s : bool) (r : R) (x : double) : Prop :=
  proper x /\ real x = rnd r /\ sign_SF x = s.
(** the multiple of 10^-6 nearest to [r] (ties to the even one) *)
Definition to_micro (r : R) : R := IZR (ZnearestE (r * 1000000)) / 1000000.
(** the number denoted by a sign, the digits before and the digits after the point *)
Definition decimal (neg : bool) (a b : bytes) : R :=
  (if neg then -1 else 1) * (IZR (dec_value (a ++ b)) / 10 ^ length b).
(** every float of a value replaced *)
Fixpoint map_floats {F G} (h : F -> G) (v : json F) : json G :=
  match v with
  | JNull => JNull
  | JObj m => JObj (map (fun kv => (fst kv, map_floats h (snd kv))) m)
  | JArr l => JArr (map (map_floats h) l)
  | JStr s => JStr s
  | JFlt f => JFlt (h f)
  | JInt z => JInt z
  | JBool b => JBool b
  end.
