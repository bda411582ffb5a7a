(** C126: the text of doubles on streams (Vector<double>, Point<double, N>, stringCast<double>). *)
From Coq Require Import Reals Lra Floats.SpecFloat.
From Flocq Require Import Core IEEE754.BinarySingleNaN.
From Verif Require Import Base DecModel Float FloatProofs VecIOModel VecIOSpec VecIOProofs JsonFloatModel JsonFloatSpec JsonFloatProofs NumTextModel NumTextSpec NumTextProofs NumTextIOProofs.
From Verif Require JsonSpec.
Local Open Scope R_scope.

(** every finite double is printed as the number with six significant digits nearest to it,
    in the shortest form, with an exponent exactly outside 10^-4 <= |r| < 10^6 *)
Theorem C126_text ns x : proper x -> six_text (show_double ns x) (sign_SF x) (to_six (real x)).
Proof. apply show_spec. Qed.
Print Assumptions C126_text.
(** two doubles are printed alike exactly if sign and six digits agree *)
Theorem C126_alike ns x y : proper x -> proper y ->
  (show_double ns x = show_double ns y <-> sign_SF x = sign_SF y /\ to_six (real x) = to_six (real y)).
Proof. apply show_alike. Qed.
Print Assumptions C126_alike.
(** reading a decimal number: the nearest double; beyond the range failbit and the greatest *)
Theorem C126_read b w t neg r u g : ws w -> number_text t neg r -> ends u ->
  exists y, get_double (Stream b (w ++ t ++ u) false false) g =
      (Stream (rev t ++ rev w ++ b) u (match u with [] => true | _ => false end) (negb (Rlt_bool (Rabs (rnd r)) big)), y) /\
    (Rabs (rnd r) < big -> is_nearest neg r y) /\ (big <= Rabs (rnd r) -> y = S754_finite neg 9007199254740991 971).
Proof. intros W T U. destruct (get_number b w t neg r u g W T U) as (y & E & _ & H). exists y. auto. Qed.
Print Assumptions C126_read.
(** stringCast<double> of a decimal number, whatever stands behind it *)
Theorem C126_cast w t neg r u : ws w -> number_text t neg r -> ends u -> exists y, cast_double (w ++ t ++ u) = Ok y /\
  (Rabs (rnd r) < big -> is_nearest neg r y) /\ (big <= Rabs (rnd r) -> y = S754_finite neg 9007199254740991 971).
Proof. apply cast_number. Qed.
Print Assumptions C126_cast.
(** ... of a printed double *)
Theorem C126_cast_back ns x w u : proper x -> ws w -> ends u -> exists y, cast_double (w ++ show_double ns x ++ u) = Ok y /\ back x y.
Proof. apply cast_shown. Qed.
Print Assumptions C126_cast_back.
(** ... undefined exactly for white space; 0 if the text does not start like a number *)
Theorem C126_cast_blank t : cast_double t = UB <-> ws t.
Proof. apply cast_blank. Qed.
Print Assumptions C126_cast_blank.
Theorem C126_cast_other w c u : ws w -> ~ blank c -> is_digit c = false -> ~ In c ["+"; "-"; "."]%char -> cast_double (w ++ c :: u) = Ok (S754_zero false).
Proof.
  intros W B D N. apply cast_other; try assumption.
  - unfold is_sign. destruct (Ascii.eqb_spec c "+") as [-> |_]; [elim N; cbn; tauto|]. destruct (Ascii.eqb_spec c "-") as [-> |_]; [elim N; cbn; tauto|reflexivity].
  - intros ->. elim N. cbn. tauto.
Qed.
Print Assumptions C126_cast_other.
(** the conversion that the model of the JSON reader (C125) uses is this one *)
Theorem C126_json s : s <> [] -> forallb JsonSpec.number_char s = true -> cast_double s = Ok (float_read s).
Proof. apply cast_json. Qed.
Print Assumptions C126_json.
(** a printed vector of finite doubles is read back element by element, whatever the
    uninitialised variables hold, whatever stands before and whatever follows *)
Theorem C126_vector ns v : Forall proper v -> (Z.of_nat (length v) < 2 ^ 31)%Z ->
  print_doubles ns v = Ok (vector_text (map (show_double ns) v)) /\
  exists w, Forall2 back v w /\ forall gd gc f b u, (length v <= f)%nat ->
    read_doubles gd gc f (Stream b (vector_text (map (show_double ns) v) ++ u) false false)
    = Ok (Stream (rev (vector_text (map (show_double ns) v)) ++ b) u false false, w).
Proof.
  intros P L. split; [now apply print_vector|]. destruct (back_exists v P) as [w R]. exists w. split; [exact R|]. intros. now apply read_back.
Qed.
Print Assumptions C126_vector.
(** what is read back differs by at most 5.01 millionths *)
Theorem C126_error x y : proper x -> ordinary x -> back x y -> Rabs (real y - real x) <= 501 / 100000000 * Rabs (real x).
Proof. apply back_error. Qed.
Print Assumptions C126_error.
(** exactly the doubles nearest to a number with at most six significant digits survive *)
Theorem C126_exact x y : proper x -> ordinary x -> back x y -> (y = x <-> exists r, of_six r /\ real x = rnd r).
Proof. apply back_same. Qed.
Print Assumptions C126_exact.
(** after one round the text and the value are settled *)
Theorem C126_settles ns x y : proper x -> ordinary x -> back x y -> show_double ns y = show_double ns x /\ forall z, back y z -> z = y.
Proof.
  intros P O B. pose proof (back_six x y O B) as S. split; [apply same_show; try assumption; apply B|]. intros z Z.
  unfold back in Z. rewrite S in Z. destruct B as (B1 & B2 & B3). rewrite B3 in Z. apply (nearest_one _ _ _ _ Z). now split.
Qed.
Print Assumptions C126_settles.
(** ... not for the smallest doubles: 1e-318 is read back as a double that is printed differently *)
Theorem C126_settles_refuted ns : exists x y, proper x /\ back x y /\ show_double ns y <> show_double ns x.
Proof.
  assert (P : proper (S754_finite false 202403 (-1074))) by (split; reflexivity).
  destruct (cast_shown ns _ [] [] P (Forall_nil _) I) as (y & E & B). exists (S754_finite false 202403 (-1074)), y. split; [exact P|]. split; [exact B|].
  assert (X : show_double ns (S754_finite false 202403 (-1074)) = str "1e-318") by (vm_compute; reflexivity). rewrite X in *.
  assert (Y : cast_double ([] ++ str "1e-318" ++ []) = Ok (S754_finite false 202402 (-1074))) by (vm_compute; reflexivity).
  rewrite Y in E. injection E as <-. assert (Z : show_double ns (S754_finite false 202402 (-1074)) = str "9.99999e-319") by (vm_compute; reflexivity).
  rewrite Z. discriminate.
Qed.
Print Assumptions C126_settles_refuted.
(** every finite double is read back unchanged: false; 1234567 becomes 1234570 *)
Theorem C126_survive_refuted : exists x y, proper x /\ back x y /\ real x = 1234567 /\ real y = 1234570.
Proof.
  assert (P : proper (S754_finite false 5302424889720832 (-32))) by (split; reflexivity).
  destruct (cast_shown false _ [] [] P (Forall_nil _) I) as (y & E & B). exists (S754_finite false 5302424889720832 (-32)), y. split; [exact P|]. split; [exact B|].
  assert (Y : cast_double ([] ++ show_double false (S754_finite false 5302424889720832 (-32)) ++ []) = Ok (S754_finite false 5302437774622720 (-32))) by (vm_compute; reflexivity).
  rewrite Y in E. injection E as <-. rewrite !real_split. unfold mag_of, F2R, sgn. cbn [Fnum Fexp bpow]. change (Z.pow_pos radix2 32) with 4294967296%Z. split; field.
Qed.
Print Assumptions C126_survive_refuted.
(** infinities and NaN: in front the program stops with an error message, later on the
    operator never comes back *)
Theorem C126_nonfinite ns gd gc p x t f b u : dfinite x = false -> Forall proper p ->
  read_doubles gd gc (S f) (Stream b (vector_text (map (show_double ns) (p ++ x :: t)) ++ u) false false) = match p with [] => Err | _ => Fuel end.
Proof. apply read_nonfinite. Qed.
Print Assumptions C126_nonfinite.
(** two points are printed alike exactly if their coordinates are *)
Theorem C126_points ns p q : p <> [] -> q <> [] -> Forall proper p -> Forall proper q ->
  (print_coordinates ns p = print_coordinates ns q <-> Forall2 (fun x y => sign_SF x = sign_SF y /\ to_six (real x) = to_six (real y)) p q).
Proof. apply points_alike. Qed.
Print Assumptions C126_points.
Example C126_example :
  let third := S754_finite false 6004799503160661 (-54) in let big := S754_finite true 5302424889720832 (-32) in
  proper third /\ proper big /\ ordinary big /\
  show_double false third = str "0.333333" /\ show_double false big = str "-1.23457e+06" /\
  print_doubles false [third; big; S754_zero true; S754_infinity true] = Ok (str "{0.333333, -1.23457e+06, -0, -inf}") /\
  read_doubles (fun _ => S754_nan) "x" 9 (Stream [] (str " { .5 ,-1.5E+1, 1e-400}rest") false false) =
    Ok (Stream (rev (str " { .5 ,-1.5E+1, 1e-400}")) (str "rest") false false, [S754_finite false 4503599627370496 (-53); S754_finite true 8444249301319680 (-49); S754_zero false]) /\
  read_doubles (fun _ => S754_nan) "x" 9 (Stream [] (str "{1, inf}") false false) = Fuel /\
  read_doubles (fun _ => S754_nan) "x" 9 (Stream [] (str "{inf, 1}") false false) = Err /\
  cast_double (str "2.5 kg") = Ok (S754_finite false 5629499534213120 (-51)) /\ cast_double (str "-1e999") = Ok (S754_finite true 9007199254740991 971) /\
  cast_double (str "abc") = Ok (S754_zero false) /\ cast_double (str "1e") = Ok (S754_zero false) /\ cast_double (str " ") = UB /\
  print_coordinates false [third; big] = Ok (str "(0.333333, -1.23457e+06)").
Proof.
  cbv zeta. split; [split; reflexivity|]. split; [split; reflexivity|]. split; [|repeat split; vm_compute; reflexivity].
  right. rewrite abs_real. apply Rle_trans with 1; [change 1 with (bpow radix10 0); apply bpow_le; discriminate|].
  unfold mag_of, F2R. cbn [Fnum Fexp bpow]. change (Z.pow_pos radix2 32) with 4294967296%Z. lra.
Qed.
