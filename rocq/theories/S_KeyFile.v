(** Specification side of message and key files. *)
From Verif Require Import Base M_Shard M_EC M_ElGamal M_KeyFile.

(** Only the named file may differ. *)
Definition only_changed (d d' : fs) (name : bytes) : Prop := forall n, n <> name -> d' n = d n.

(** A share holder: the entropy of the key, the two file names, and what goes wrong while the files are written. *)
Record holder := { h_raw : Z; h_pub : bytes; h_prv : bytes; h_f1 : fault; h_f2 : fault }.
(** The holders generate their keys one after the other; the first failure ends the sequence. *)
Fixpoint generate_all (C : ec) (d : fs) (hs : list holder) : fs * outcome unit :=
  match hs with
  | [] => (d, Ok tt)
  | h :: hs =>
      match generate_elgamal_key_pair C (h_f1 h) (h_f2 h) d (h_raw h) (h_pub h) (h_prv h) with
      | (d', Ok _) => generate_all C d' hs
      | (d', r) => (d', r)
      end
  end.
(** Loading keys from files. *)
Definition load_secret (d : fs) (name : bytes) : outcome Z := let* b := read_secret d name in Ok (eg_private_of_proto b).
Definition load_public (C : ec) (d : fs) (name : bytes) : outcome (eg_public C) := let* p := read_public d name in eg_public_of_proto C p.
(** Sizes of real curves: point encodings and scalars are far below 2^20 bytes. *)
Definition small_curve (C : ec) : Prop := 
  (forall P, Z.of_nat (length (ec_enc C P)) < 2 ^ 20) /\ exists n, 0 <= n < 2 ^ 20 /\ ec_order C < 256 ^ n.
