(** Property theorems C89 (stringCast). *)
From Verif Require Import Base DecModel DecProofs VecIOModel VecIOSpec VecIOProofs CastModel CastSpec CastProofs.
Local Open Scope Z_scope.

(** C89: the result for every text and type; UB: the uninitialised variable is returned *)
Theorem C89_result :
  forall ty t o, cast ty t = o <-> denotes ty t o.
Proof. exact cast_spec. Qed.
Print Assumptions C89_result.
(** printed ints are read back, whatever non-digit follows *)
Theorem C89_round_trip :
  forall z w u, - 2 ^ 31 <= z < 2 ^ 31 -> ws w -> no_digit u -> cast TInt (w ++ to_string_Z z ++ u) = Ok (VInt z).
Proof.
  intros z w u B W N. apply cast_spec. replace z with (clamped (- 2 ^ 31) (2 ^ 31 - 1) z) at 2 by (unfold clamped; lia). apply den_int; [exact W| |exact N]. apply numeral_signed, to_string_Z_numeral.
Qed.
Print Assumptions C89_round_trip.
(** a stringCast object: every history of string variables and stringCast objects; the result
    is that of the present text of the variable; there is none once the variable is gone, nor
    for an object constructed from a temporary *)
Theorem C89_object :
  forall os w rs c, crun (CWorld [] []) os = Ok (w, rs) ->
    cstep w (CCall c) = match nth_error (flat_map referred os) c with
                        | Some (ty, Some i) => match last_text i (rev os) with Some t => v <- cast ty t ;; Ok (w, Some v) | None => UB end
                        | _ => UB
                        end.
Proof. exact call_spec. Qed.
Print Assumptions C89_object.
(** the text given to the constructor is not what is converted *)
Theorem C89_keeps_text_refuted :
  omap snd (crun (CWorld [] []) [SNew (str "1"); CNew TInt 0; SAssign 0 (str "2"); CCall 0]) = Ok [None; None; None; Some (VInt 2)] /\
  crun (CWorld [] []) [CTemp TInt (str "1"); CCall 0] = UB /\
  omap snd (crun (CWorld [] []) [CDirect TInt (str "1")]) = Ok [Some (VInt 1)].
Proof. repeat split; vm_compute; reflexivity. Qed.
Print Assumptions C89_keeps_text_refuted.
(** failure cannot be told from 0: no text but a blank one is reported *)
Theorem C89_never_reports :
  forall ty t, cast ty t <> Err.
Proof.
  intros ty t H. apply cast_spec in H. inversion H.
Qed.
Print Assumptions C89_never_reports.
Example C89_example :
  cast TInt (str " -42abc") = Ok (VInt (-42)) /\ cast TInt (str "abc") = Ok (VInt 0) /\ cast TInt (str "99999999999") = Ok (VInt 2147483647) /\
  cast TInt (str "0x10") = Ok (VInt 0) /\ cast TUnsigned (str "-1") = Ok (VUnsigned 4294967295) /\ cast TBool (str "true") = Ok (VBool false) /\
  cast TBool (str "2") = Ok (VBool true) /\ cast TInt (str "  ") = UB /\ cast TChar (str " x y") = Ok (VChar "x"%char) /\
  cast TString (str "  two words") = Ok (VString (str "two")) /\ cast TString [] = Ok (VString []) /\ cast TInt (str "1 000") = Ok (VInt 1).
Proof. repeat split; vm_compute; reflexivity. Qed.
