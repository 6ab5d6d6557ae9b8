(** C37: base64 encoding. *)
From Coq Require Import List NArith String Ascii Arith.
From Verif Require Import Base64_model Base64_spec Base64_proofs.
Import ListNotations.

(** For every byte string, [toBase64] never indexes outside its table and the
    result decodes (with the RFC decoder) to the original bytes; its length is
    4*ceil(n/3). *)
Theorem C37_base64_roundtrip : forall raw : list N,
  Forall is_byte raw ->
  exists s, toBase64 raw = Some s /\ rfc_decode s = Some raw /\
            List.length s = 4 * ((List.length raw + 2) / 3).
Proof. exact toBase64_roundtrip. Qed.
Print Assumptions C37_base64_roundtrip.

(** The output is the RFC 4648 encoding itself. *)
Theorem C37_base64_is_rfc4648 : forall raw : list N, toBase64 raw = Some (rfc_encode raw).
Proof. exact toBase64_rfc. Qed.
Print Assumptions C37_base64_is_rfc4648.

Example C37_base64_roundtrip_nonvacuous :
  Forall is_byte [104; 112; 71; 69; 255]%N /\
  toBase64 [104; 112; 71; 69; 255]%N = Some (list_ascii_of_string "aHBHRf8="%string).
Proof. split; [repeat constructor|reflexivity]. Qed.
