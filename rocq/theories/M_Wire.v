(** The protobuf wire format (external library), as far as it decides what the Fiat-Shamir challenges hash: the messages of
    crypto/proto/*.proto and crypto/dodis_yampolskiy_prf/*.proto are encoded field by field in the order of their numbers
    (crypto/proto/proto_util.cc 82-86 SerializeAsStringInOrder).  A varint is not cut at 64 bits: lengths never reach 2^64, and integer
    fields are reduced modulo 2^64 first.  Sub-messages are always written, as the code only hashes messages whose sub-messages it set. *)
From Verif Require Import Base M_RecordIO.
From Coq Require Import String List. Import ListNotations. Open Scope list_scope. Open Scope Z_scope.


(** CodedOutputStream::WriteVarint64. *)
Definition varint (v : Z) : bytes := varint_groups (S (Z.to_nat (Z.log2 v))) v.

(** One encoded field: number, then an integer or a length-delimited payload. *)
Inductive entry := EVarint (num v : Z) | ELen (num : Z) (payload : bytes).
Definition enc_entry (e : entry) : bytes :=
  match e with
  | EVarint k v => varint (8 * k) ++ varint v
  | ELen k b => varint (8 * k + 2) ++ varint (Z.of_nat (length b)) ++ b
  end.
Definition enc_msg (es : list entry) : bytes := concat (map enc_entry es).

(** proto3 fields: a bytes field is skipped when empty, an integer field when zero. *)
Definition f_bytes (k : Z) (b : bytes) : list entry := match b with [] => [] | _ => [ELen k b] end.
Definition f_int64 (k v : Z) : list entry := if v =? 0 then [] else [EVarint k (v mod 2 ^ 64)].
Definition f_msg (k : Z) (m : list entry) : list entry := [ELen k (enc_msg m)].
Definition f_rep (k : Z) (bs : list bytes) : list entry := map (ELen k) bs.
Definition f_rep_msg (k : Z) (ms : list (list entry)) : list entry := map (fun m => ELen k (enc_msg m)) ms.

(** dy_verifiable_random_function.cc 223-246, 543-566; bb_oblivious_signature.cc 1514-1540, 1564-1590: a domain string, then statement
    and first message, each preceded by its length. *)
Definition framed (domain : String.string) (statement message_1 : list entry) : bytes :=
  String.list_byte_of_string domain ++
  varint (Z.of_nat (length (enc_msg statement))) ++ enc_msg statement ++
  varint (Z.of_nat (length (enc_msg message_1))) ++ enc_msg message_1.
