(** Which files a history of a sharding writer created (C103). *)
From Verif Require Import Base M_Shard S_Shard.

(** The files opened for writing, in order, by the file operations of some calls. *)
Definition created (tr : list (sw_op * sw_res * list event)) : list bytes :=
  flat_map (fun x => flat_map (fun e => match e with EvOpen n true => [n] | _ => [] end) (snd x)) tr.
(** A history without Close. *)
Definition no_close (ops : list sw_op) : Prop := Forall (fun op => ~ is_close op) ops.
