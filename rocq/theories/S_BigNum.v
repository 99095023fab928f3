(** Independent specification for BigNum serialization and modular arithmetic. *)
From Verif Require Import Base.

(** Positional value of a big-endian byte string. *)
Fixpoint be_value (s : bytes) : Z :=
  match s with
  | [] => 0
  | b :: s' => bz b * 256 ^ Z.of_nat (length s') + be_value s'
  end.

(** Leading zero bytes removed. *)
Fixpoint strip_zeros (s : bytes) : bytes :=
  match s with
  | b :: s' => if bz b =? 0 then strip_zeros s' else s
  | [] => []
  end.

(** The canonical strings: no leading zero byte. *)
Definition canonical (s : bytes) : Prop :=
  match s with [] => True | b :: _ => bz b <> 0 end.

(** [r] is the representative of [v] modulo [m]. *)
Definition is_residue (v m r : Z) : Prop := 0 <= r < m /\ exists k, v = k * m + r.
