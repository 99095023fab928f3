(** Specifications for sharding, sorted reading and merging. *)
From Coq Require Export Sorting.Permutation Sorting.Sorted.
From Verif Require Import Base M_RecordIO M_Dec M_Shard.

(** A strict total order given by a boolean "less than" (int64_t and std::string have one). *)
Definition strict_total {K} (ltb : K -> K -> bool) : Prop :=
  (forall a, ltb a a = false) /\
  (forall a b c, ltb a b = true -> ltb b c = true -> ltb a c = true) /\
  (forall a b, ltb a b = false -> ltb b a = false -> a = b).

(** Non-decreasing key order. *)
Definition key_sorted {K} (key : bytes -> K) (ltb : K -> K -> bool) (l : list bytes) : Prop :=
  StronglySorted (fun a b => ltb (key b) (key a) = false) l.

(** [session p ops rs]: a session with shard prefix p (possibly set again, to the same value, in between) in which the
    records rs are written in this order; the Close is not included. *)
Inductive session_body (p : bytes) : list sw_op -> list bytes -> Prop :=
| sb_nil : session_body p [] []
| sb_prefix ops rs : session_body p ops rs -> session_body p (OpPrefix p :: ops) rs
| sb_write r fl ops rs : session_body p ops rs -> session_body p (OpWrite r fl :: ops) (r :: rs).
Definition session (p : bytes) (ops : list sw_op) (rs : list bytes) : Prop :=
  exists ops', ops = OpPrefix p :: ops' /\ session_body p ops' rs.

(** Histories after which no session is under way. *)
Definition between_sessions (hist : list sw_op) : Prop :=
  hist = [] \/ exists h fl, hist = h ++ [OpClose fl].

Definition op_fault (op : sw_op) : fault :=
  match op with OpPrefix _ => no_fault | OpWrite _ fl => fl | OpClose fl => fl end.
Definition no_close_failure (ops : list sw_op) : Prop := Forall (fun op => fl_close (op_fault op) = None) ops.
Definition fault_free (ops : list sw_op) : Prop := Forall (fun op => op_fault op = no_fault) ops.

Definition res_ok (r : sw_res) : Prop :=
  match r with RUnit => True | RWrite o => o = Ok tt | RClose o => exists ns, o = Ok ns end.
Definition res_err (r : sw_res) : Prop :=
  match r with RUnit => False | RWrite o => exists c, o = Err c | RClose o => exists c, o = Err c end.
Definition all_ok (tr : list (sw_op * sw_res * list event)) : Prop := Forall (fun x => res_ok (snd (fst x))) tr.

Definition is_close (op : sw_op) : Prop := match op with OpClose _ => True | _ => False end.
Definition is_prefix_op (op : sw_op) : Prop := match op with OpPrefix _ => True | _ => False end.

(** An open or a write failed. *)
Definition failed_io (ev : event) : Prop :=
  match ev with EvOpen _ ok => ok = false | EvWrite _ _ ok => ok = false | EvClose _ _ => False end.
(** Any file operation failed. *)
Definition failed_any (ev : event) : Prop :=
  match ev with EvOpen _ ok => ok = false | EvWrite _ _ ok => ok = false | EvClose _ ok => ok = false end.

(** Interleavings of several threads. *)
Inductive interleave {A} : list (list A) -> list A -> Prop :=
| il_nil ts : Forall (fun t => t = []) ts -> interleave ts []
| il_step ts1 x t ts2 l : interleave (ts1 ++ t :: ts2) l -> interleave (ts1 ++ (x :: t) :: ts2) (x :: l).

(** The records that came from file i, in the order delivered. *)
Definition from_file (i : nat) (out : list (bytes * nat)) : list bytes :=
  map fst (filter (fun x => Nat.eqb (snd x) i) out).
