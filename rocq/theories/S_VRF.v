(** Specification of the Dodis-Yampolskiy function: the value of key k at message m is the point P with (k + m) P = g, defined when
    k + m is not a multiple of the group order. *)
From Verif Require Import Base M_EC.

Definition vrf_value (C : ec) (base : pt C) (key m : Z) (P : pt C) : Prop :=
  (key + m) mod ec_order C <> 0 /\ pmul C (key + m) P = base.
