(** Specification side of C59: messages of the oblivious signature that carry everything the other side will look at.
    [len] is the number of components of a ciphertext (the length of the issuer's encryption key). *)
From Verif Require Import Base M_CS M_BB.

Definition complete_ct (len : nat) (c : cs_ct_proto) : Prop := (len <= length (cp_es c))%nat.
(** A public key with one entry per slot. *)
Definition complete_key (len : nat) (pk : bb_public) : Prop :=
  (len <= length (bpk_k pk))%nat /\ (len <= length (bpk_y pk))%nat /\ Forall (complete_ct len) (bpk_k pk) /\ Forall (complete_ct len) (bpk_y pk).
(** A request with as many ciphertexts as its messages need: len (k-1) < messages <= len k for k > 0 ciphertexts. *)
Definition complete_request (len : nat) (rq : bb_request) : Prop :=
  (rq_num rq <= length (rq_cts rq) * len)%nat /\ (length (rq_cts rq) * len < rq_num rq + len)%nat /\ Forall (complete_ct len) (rq_cts rq).
