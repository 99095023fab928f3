(** How the sharding writer is to cut a session into shards (C102). *)
From Verif Require Import Base.

(** The number of bytes of some records. *)
Definition volume (l : list bytes) : Z := fold_right (fun r a => Z.of_nat (length r) + a) 0 l.
(** A group that went above the limit with its last record. *)
Definition overfull (limit : Z) (g : list bytes) : Prop := volume (removelast g) <= limit < volume g.
(** The records, in the order written, cut into groups: each takes records until it is above the limit; the last takes what is left. *)
Inductive cut (limit : Z) : list bytes -> list (list bytes) -> Prop :=
| cut_none : cut limit [] []
| cut_last g : g <> [] -> volume (removelast g) <= limit -> cut limit g [g]
| cut_more g rest gs : overfull limit g -> rest <> [] -> cut limit rest gs -> cut limit (g ++ rest) (g :: gs).
