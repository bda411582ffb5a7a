(** Property theorems C05-C07 (URL encoding). *)
From Verif Require Import Base UrlModel UrlSpec UrlProofs.

(** C05: [urlEncode] is percent-encoding; the relation determines its output. *)
Theorem C05_urlEncode_is_percent_encoding :
  forall s : bytes,
    pct_encoded s (urlEncode s) /\ (forall t, pct_encoded s t -> t = urlEncode s).
Proof.
  exact (fun s => conj (encode_spec s)
           (fun t H => pct_functional s t (urlEncode s) H (encode_spec s))).
Qed.
Print Assumptions C05_urlEncode_is_percent_encoding.
Example C05_example : urlEncode (str "a b/~%") = str "a%20b%2F~%25".
Proof. reflexivity. Qed.

(** C06: round trip for every byte string. *)
Theorem C06_url_round_trip : forall s : bytes, urlDecode (urlEncode s) = Ok s.
Proof. exact decode_encode. Qed.
Print Assumptions C06_url_round_trip.
Example C06_example :
  urlDecode (urlEncode ["a"; "+"; ascii_of_nat 200; NUL; "%"]%char)
  = Ok ["a"; "+"; ascii_of_nat 200; NUL; "%"]%char.
Proof. vm_compute. reflexivity. Qed.

(** C07: exactly the scannable inputs are decoded without undefined behaviour. *)
Theorem C07_urlDecode_safe_iff :
  forall t : bytes,
    (scannable t <-> exists r, urlDecode t = Ok r /\ length r <= length t) /\
    (~ scannable t <-> urlDecode t = UB).
Proof. exact urlDecode_safe_iff. Qed.
Print Assumptions C07_urlDecode_safe_iff.
(** Safety for all inputs is false. *)
Theorem C07_urlDecode_safe_refuted : exists t : bytes, urlDecode t = UB.
Proof. exists (str "100%"). vm_compute. reflexivity. Qed.
Print Assumptions C07_urlDecode_safe_refuted.
Example C07_example :
  scannable (str "a%2Fb+%4") /\ urlDecode (str "a%2Fb+%4") = Ok (str "a/b @").
Proof.
  split; [|vm_compute; reflexivity].
  apply sc_char; [discriminate|]. apply sc_escape; [vm_compute; reflexivity..|].
  apply sc_char; [discriminate|]. apply sc_char; [discriminate|].
  apply sc_last. vm_compute. reflexivity.
Qed.

(** C74: form decoding.  With hexadecimal digits of either case behind every percent
    sign the result is the standard one. *)
Theorem C74_urlDecode_form_decoding :
  forall t s : bytes, decoded hex_digit t s -> urlDecode t = Ok s.
Proof.
  exact (fun t s H => decoded_lenient t s (decoded_mono _ _ t s (fun c v P => or_introl P) H)).
Qed.
Print Assumptions C74_urlDecode_form_decoding.
(** and what the lenient decoder does on every text that it reads safely, except for
    an escape cut off after its first digit, whose second digit counts as 0 *)
Theorem C74_urlDecode_lenient :
  forall t : bytes, scannable t ->
    (exists s, decoded lenient_digit t s /\ urlDecode t = Ok s) \/
    (exists t' h s v b, t = t' ++ ["%"%char; h] /\ decoded lenient_digit t' s /\ lenient_digit h v /\
       byteZ b = ((16 * v) mod 256)%Z /\ urlDecode t = Ok (s ++ [b])).
Proof.
  intros t H. destruct (scannable_decoded t H) as [[s D]|D]; [|now right].
  left. exists s. split; [assumption|]. now apply decoded_lenient.
Qed.
Print Assumptions C74_urlDecode_lenient.
Example C74_example :
  decoded hex_digit (str "x+%c3%A9") ["x"; " "; "195"; "169"]%char /\
  urlDecode (str "x+%c3%A9") = Ok ["x"; " "; "195"; "169"]%char /\
  urlDecode (str "%zz+%?1%7") = Ok ["083"; " "; "001"; "112"]%char /\ lenient_digit "z" 35.
Proof.
  split; [|split; [vm_compute; reflexivity|split; [vm_compute; reflexivity|]]].
  - apply de_plain; [discriminate..|]. apply de_plus.
    apply de_escape with (vh := 12%Z) (vl := 3%Z); [right; vm_compute; auto; intuition discriminate|left; left; vm_compute; intuition discriminate|reflexivity|].
    apply de_escape with (vh := 10%Z) (vl := 9%Z); [left; right; vm_compute; intuition discriminate|left; left; vm_compute; intuition discriminate|reflexivity|constructor].
  - right. right. left. vm_compute. intuition discriminate.
Qed.
