(** Specification side of file objects: what a caller can tell about an object from the calls made and their results. *)
From Verif Require Import Base M_RecordIO M_Shard M_File.

(** Is a file open on the object?  Decided by the successful Open and Close calls. *)
Fixpoint is_open (b : bool) (ops : list pop) (rs : list (outcome pres)) : bool :=
  match ops, rs with
  | OpOpen _ _ _ :: ops, Ok _ :: rs => is_open true ops rs
  | OpCloseF _ :: ops, Ok _ :: rs => is_open false ops rs
  | OpDestroy :: ops, Ok _ :: rs => is_open false ops rs
  | _ :: ops, _ :: rs => is_open b ops rs
  | _, _ => b
  end.
(** Calls that cannot go wrong by themselves: fclose does not fail and Write is given all the bytes it is told to write. *)
Definition benign (op : pop) : Prop :=
  match op with OpCloseF f => f = None | OpWriteF c n _ => (n <= length c)%nat | _ => True end.
Definition is_ok_res (r : outcome pres) : Prop := exists x, r = Ok x.
(** Calls that look at data of an open file. *)
Definition is_data (op : pop) : Prop := match op with OpHasMore _ | OpRead _ _ | OpReadLine _ | OpWriteF _ _ _ => True | _ => False end.
Definition is_reading (op : pop) : Prop := match op with OpHasMore _ | OpRead _ _ => True | _ => False end.
Definition is_writing (op : pop) : Prop := match op with OpWriteF _ _ _ => True | _ => False end.
(** The bytes handed over by successful Read calls; the bytes passed to Write calls. *)
Fixpoint bytes_read (rs : list (outcome pres)) : bytes :=
  match rs with Ok (RBytes s) :: rs => s ++ bytes_read rs | _ :: rs => bytes_read rs | [] => [] end.
Fixpoint bytes_given (ops : list pop) : bytes :=
  match ops with OpWriteF c n _ :: ops => firstn n c ++ bytes_given ops | _ :: ops => bytes_given ops | [] => [] end.
Definition prefix_of {A} (a b : list A) : Prop := exists c, b = a ++ c.
