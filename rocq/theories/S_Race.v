(** Specification side of C98: what a race is. *)
From Verif Require Import Base M_Protocol M_Conc M_Race.

(** Two steps conflict if they touch the same memory and one of them writes it. *)
Definition conflict (xs ys : list (cell * bool)) : Prop := exists c w1 w2, In (c, w1) xs /\ In (c, w2) ys /\ (w1 = true \/ w2 = true).
Definition next_touches (s : msystem) (c : mcall) : list (cell * bool) := touches (ms_memory s) (mc_msg c) (mc_at c).
(** Two calls race if the next steps of both conflict, so that nothing orders them. *)
Definition calls_race (s : msystem) (i j : nat) : Prop := i <> j /\ exists c d, nth_error (ms_calls s) i = Some c /\ nth_error (ms_calls s) j = Some d /\ conflict (next_touches s c) (next_touches s d).
Definition main_races (s : msystem) (i : nat) : Prop := exists c, nth_error (ms_calls s) i = Some c /\ conflict (main_touches (ms_memory s)) (next_touches s c).
(** With the lock only calls that may take a step count. *)
Definition calls_race_locked (s : msystem) (i j : nat) : Prop := i <> j /\ exists c d, nth_error (ms_calls s) i = Some c /\ nth_error (ms_calls s) j = Some d /\
  may_step s c = true /\ may_step s d = true /\ conflict (next_touches s c) (next_touches s d).

Definition none_begun (calls : list mcall) : Prop := forall c, In c calls -> mc_at c = At Waiting.
Definition no_use_after_free (calls : list mcall) : Prop := forall c, In c calls -> mc_at c <> UsedFreed.
(** The pointer is empty or points to a key. *)
Definition sound (me : memory) : Prop := forall a, me_ptr me = Some a -> key_at (me_heap me) a <> None.
Definition is_start (m : client_message) : bool := match m with Some CStart => true | _ => false end.
Definition start_requests (calls : list mcall) : nat := length (filter (fun c => is_start (mc_msg c)) calls).
(** What [M_Conc] sees of a call and of a system. *)
Definition plain (c : mcall) : call := {| ca_msg := mc_msg c; ca_rand := mc_rand c; ca_at := match mc_at c with At p | Using _ p => p | UsedFreed => Done None UB end |}.
Definition plain_system (s : msystem) : system := {| sy_server := view (ms_memory s); sy_calls := map plain (ms_calls s) |}.
Definition gave_result (p : mprogress) : Prop := exists size sum, p = At (Done (Some (Some (SRoundTwo size sum))) (Ok tt)).
