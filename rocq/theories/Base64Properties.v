(** Property theorems C01-C04 (base64). *)
From Verif Require Import Base Base64Model Base64Spec Base64Proofs.

(** C01: [base64Encode(s)] is the RFC 4648 encoding of [s]. *)
Theorem C01_base64Encode_is_rfc4648 :
  forall s : bytes, base64Encode s (-1) = rfc_encode s.
Proof. exact encode_default. Qed.
Print Assumptions C01_base64Encode_is_rfc4648.
Example C01_example :
  base64Encode (str "light w") (-1) = str "bGlnaHQgdw=="
  /\ rfc_encode (str "light w") = str "bGlnaHQgdw==".
Proof. split; reflexivity. Qed.

(** C02: the [length] parameter, for every int [len] and every string whose
    unpadded encoding has at most INT_MAX characters. *)
Theorem C02_base64Encode_length :
  forall (s : bytes) (len : Z),
    (Z.of_nat (length (rfc_body s)) <= int32_max)%Z ->
    (int32_min <= len <= int32_max)%Z ->
    (len < -1 -> base64Encode s len = [])%Z /\
    (0 <= len < Z.of_nat (length (rfc_body s)) -> base64Encode s len = [])%Z /\
    (0 <= len -> Z.of_nat (length (rfc_body s)) <= len ->
      base64Encode s len
      = rfc_body s ++ repeat "="%char (Z.to_nat len - length (rfc_body s)))%Z.
Proof. exact encode_len_cases. Qed.
Print Assumptions C02_base64Encode_length.
Theorem C02_unpadded_length :
  forall s : bytes, length (rfc_body s) = (8 * length s + 5) / 6.
Proof. exact rfc_body_length. Qed.
Print Assumptions C02_unpadded_length.
Example C02_example :
  base64Encode (str "ab") 2 = [] /\ base64Encode (str "ab") 3 = str "YWI"
  /\ base64Encode (str "ab") 6 = str "YWI===" /\ base64Encode (str "ab") (-2) = []
  /\ (Z.of_nat (length (rfc_body (str "ab"))) <= int32_max)%Z.
Proof. repeat split. discriminate. Qed.

(** C03: the round trip drops exactly the NUL bytes. *)
Theorem C03_base64_round_trip :
  forall s : bytes,
    base64Decode (base64Encode s (-1)) = filter (fun c => negb (Ascii.eqb c NUL)) s.
Proof. exact decode_encode. Qed.
Print Assumptions C03_base64_round_trip.
Theorem C03_base64_round_trip_exact_iff :
  forall s : bytes, base64Decode (base64Encode s (-1)) = s <-> ~ In NUL s.
Proof.
  exact (fun s => eq_ind_r (fun x => x = s <-> ~ In NUL s)
    (iff_trans (filter_id_iff nonzero s) (nonzero_iff s)) (decode_encode s)).
Qed.
Print Assumptions C03_base64_round_trip_exact_iff.
(** The unrestricted round trip is false. *)
Theorem C03_round_trip_all_bytes_refuted :
  exists s : bytes, base64Decode (base64Encode s (-1)) <> s.
Proof.
  exists ["a"%char; NUL; "b"%char]. vm_compute. discriminate.
Qed.
Print Assumptions C03_round_trip_all_bytes_refuted.
Example C03_example :
  base64Decode (base64Encode (str "any carnal pleas") (-1)) = str "any carnal pleas"
  /\ base64Decode (base64Encode ["a"%char; NUL; "b"%char] (-1)) = str "ab".
Proof. split; vm_compute; reflexivity. Qed.

(** C04: decoding ignores '=' wherever it occurs, and decodes a character outside
    the alphabet like '/'. *)
Theorem C04_decode_ignores_padding :
  forall t u : bytes,
    filter (fun c => negb (Ascii.eqb c "="%char)) t
    = filter (fun c => negb (Ascii.eqb c "="%char)) u ->
    base64Decode t = base64Decode u.
Proof. exact decode_filter. Qed.
Print Assumptions C04_decode_ignores_padding.
Theorem C04_decode_any_length :
  forall (s : bytes) (len : Z),
    (0 <= len < 2147483648)%Z -> (Z.of_nat (length (rfc_body s)) <= len)%Z ->
    base64Decode (base64Encode s len) = filter (fun c => negb (Ascii.eqb c NUL)) s.
Proof. exact decode_encode_len. Qed.
Print Assumptions C04_decode_any_length.
Theorem C04_decode_foreign_as_slash :
  forall t : bytes,
    base64Decode (map (fun c => if existsb (Ascii.eqb c)
       (str "ABCDEFGHIJKLMNOPQRSTUVWXYZabcdefghijklmnopqrstuvwxyz0123456789+/=")
       then c else "/"%char) t)
    = base64Decode t.
Proof. exact decode_foreign. Qed.
Print Assumptions C04_decode_foreign_as_slash.
Example C04_example :
  base64Decode (str "Y=WI") = base64Decode (str "YWI===")
  /\ base64Decode (str "YW*I") = base64Decode (str "YW/I")
  /\ base64Decode (base64Encode (str "ab") 7) = str "ab".
Proof. repeat split; vm_compute; reflexivity. Qed.
