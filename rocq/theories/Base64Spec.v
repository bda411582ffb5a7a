(** RFC 4648 section 4, stated arithmetically and independently of the code. *)
From Verif Require Import Base.
Local Open Scope Z_scope.

(** The base64 alphabet by ranges. *)
Definition rfc_symbol (v : Z) : ascii :=
  ascii_of_nat (Z.to_nat
    (if v <? 26 then 65 + v                (* A-Z *)
     else if v <? 52 then 97 + (v - 26)    (* a-z *)
     else if v <? 62 then 48 + (v - 52)    (* 0-9 *)
     else if v =? 62 then 43               (* + *)
     else 47)).                            (* / *)

(** Unpadded encoding: three bytes form a 24-bit value that is cut into four
    6-bit symbols; one or two remaining bytes are filled up with zero bits. *)
Fixpoint rfc_body (s : bytes) : bytes :=
  match s with
  | [] => []
  | [a] =>
      let v := byteZ a * 65536 in
      [rfc_symbol (v / 262144); rfc_symbol (v / 4096 mod 64)]
  | [a; b] =>
      let v := byteZ a * 65536 + byteZ b * 256 in
      [rfc_symbol (v / 262144); rfc_symbol (v / 4096 mod 64); rfc_symbol (v / 64 mod 64)]
  | a :: b :: c :: r =>
      let v := byteZ a * 65536 + byteZ b * 256 + byteZ c in
      rfc_symbol (v / 262144) :: rfc_symbol (v / 4096 mod 64)
        :: rfc_symbol (v / 64 mod 64) :: rfc_symbol (v mod 64) :: rfc_body r
  end.

(** Number of '=' that complete the last group of four. *)
Definition rfc_pad (n : nat) : bytes :=
  match (n mod 3)%nat with 1%nat => ["="; "="]%char | 2%nat => ["="]%char | _ => [] end.

Definition rfc_encode (s : bytes) : bytes := rfc_body s ++ rfc_pad (length s).
