(** Specification of the obliviously evaluated function: the value of key (k, y) at message m and nonce r is the point P with
    (m + k + y r) P = g, defined when m + k + y r is not a multiple of the group order. *)
From Verif Require Import Base M_EC.

Definition bb_value (C : ec) (base : pt C) (k y m r : Z) (P : pt C) : Prop :=
  (m + k + y * r) mod ec_order C <> 0 /\ pmul C (m + k + y * r) P = base.

(** Encryption randomness the Camenisch-Shoup layer accepts. *)
Definition usable (n r : Z) : Prop := r = 0 \/ Z.gcd r n = 1.
