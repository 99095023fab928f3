(** What can go wrong with the files during one ProcessRecordFile call (C84). *)
From Verif Require Import Base M_Shard M_ProcessFault.

(** Some fclose reports a failure: of the input, of a shard after writing, of a shard after reading, of the output. *)
Definition close_failure (dv : device) : Prop :=
  dv_in_close dv = true \/ (exists n c, fl_close (dv_shard dv n) = Some c) \/ (exists i, dv_sh_close dv i = true) \/
  (exists c, dv_empty_close dv = Some c) \/ (exists c, dv_out_close dv = Some c).
(** The very first access to some shard that is read back fails. *)
Definition first_peek_failure (dv : device) : Prop := exists i, dv_sh dv i 0 = true.
(** Some other open, peek, read, write or delete fails. *)
Definition other_failure (dv : device) : Prop :=
  dv_in_open dv = true \/ (exists n, dv_in dv n = true) \/
  (exists n, fl_open (dv_shard dv n) = true) \/ (exists n x, fl_write (dv_shard dv n) = Some x) \/
  (exists i, dv_sh_open dv i = true) \/ (exists i n, dv_sh dv i n = true) \/
  dv_empty_open dv = true \/ dv_out_open dv = true \/ (exists i, dv_out_write dv i = true) \/ (exists i, dv_delete dv i = true).
