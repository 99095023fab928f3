(** Refines [M_Conc]: the key of the server lives in memory of its own, behind the pointer ec_cipher_ (server_impl.h 79), and using it takes two steps: the
    pointer is read, then the key behind it is used. Also says which memory each step touches.
    Simplification: memory that was freed is never handed out again, and one use of a key is one step. *)
From Verif Require Import Base M_BigNum M_Num M_EC M_Group M_Cipher M_Paillier M_Protocol M_Conc.

(** server_impl.h 78-84: the members, with every key that was ever made; [None] stands for a key that was freed. *)
Record memory := { me_inputs : list bytes; me_ptr : option nat; me_heap : list (option cipher); me_finished : bool }.
(** server_impl.h 40-43: the constructor. *)
Definition memory_init (inputs : list bytes) : memory := {| me_inputs := inputs; me_ptr := None; me_heap := []; me_finished := false |}.
(** The key at an address, if it is still there. *)
Definition key_at (h : list (option cipher)) (a : nat) : option cipher := match nth_error h a with Some o => o | None => None end.
(** The members as [M_Conc] sees them. *)
Definition view (me : memory) : server :=
  {| sv_inputs := me_inputs me; sv_cipher := match me_ptr me with Some a => key_at (me_heap me) a | None => None end; sv_finished := me_finished me |}.
(** server_impl.cc 46: the assignment to the unique_ptr frees the key it held and points to the new one. *)
Definition replace_key (me : memory) (c : cipher) : memory :=
  {| me_inputs := me_inputs me; me_ptr := Some (length (me_heap me));
     me_heap := match me_ptr me with Some a => set_nth a None (me_heap me) | None => me_heap me end ++ [Some c]; me_finished := me_finished me |}.

(** How far a call has come: as in [M_Conc], or with the pointer already read, or having used a key that was freed. *)
Inductive mprogress := At (p : progress) | Using (a : nat) (p : progress) | UsedFreed.
Record mcall := { mc_msg : client_message; mc_rand : server_rand; mc_at : mprogress }.
Definition marrive (m : client_message) (r : server_rand) : mcall := {| mc_msg := m; mc_rand := r; mc_at := At Waiting |}.
(** server_impl.cc 52 and 81: the places where the key is used. *)
Definition uses_key (p : progress) : bool := match p with Encrypting (_ :: _) _ | Reencrypting _ (_ :: _) _ => true | _ => false end.

Section Race.
Variable C : ec.
Variable X : externals.
Variable sqrt_p : Z -> Z.
Variable fuel : nat.
Variable flag : bool.
Variable srt : list elem -> list elem.

(** One step of a call of server_impl.cc 127-175 Handle. *)
Definition mem_call_step (me : memory) (m : client_message) (r : server_rand) (p : mprogress) : memory * mprogress :=
  match p with
  | At KeyAbsent =>
      match cipher_new C (sr_key r) 0 with
      | Ok c => (replace_key me c, At (Encrypting (me_inputs me) []))
      | o => (me, At (Done None (failed o)))
      end
  | At q =>
      if uses_key q then (me, match me_ptr me with Some a => Using a q | None => At (Done None UB) end)
      else let (st, q') := call_step C X sqrt_p fuel flag srt (view me) m r q in
           ({| me_inputs := me_inputs me; me_ptr := me_ptr me; me_heap := me_heap me; me_finished := sv_finished st |}, At q')
  | Using a q =>
      match key_at (me_heap me) a with
      | Some c => (me, At (snd (call_step C X sqrt_p fuel flag srt {| sv_inputs := me_inputs me; sv_cipher := Some c; sv_finished := me_finished me |} m r q)))
      | None => (me, UsedFreed)
      end
  | UsedFreed => (me, UsedFreed)
  end.

Record msystem := { ms_memory : memory; ms_calls : list mcall }.
(** The scheduler lets call [i] take a step. *)
Definition mem_step (s : msystem) (i : nat) : msystem :=
  match nth_error (ms_calls s) i with
  | None => s
  | Some c =>
      let (me, p) := mem_call_step (ms_memory s) (mc_msg c) (mc_rand c) (mc_at c) in
      {| ms_memory := me; ms_calls := set_nth i {| mc_msg := mc_msg c; mc_rand := mc_rand c; mc_at := p |} (ms_calls s) |}
  end.
Definition mem_run (s : msystem) (schedule : list nat) : msystem := fold_left mem_step schedule s.

(** The same server with a lock around Handle, which it does not have. *)
Definition under_way (c : mcall) : bool := match mc_at c with At Waiting | At (Done _ _) | UsedFreed => false | _ => true end.
Definition may_step (s : msystem) (c : mcall) : bool := under_way c || forallb (fun c => negb (under_way c)) (ms_calls s).
Definition mem_locked_step (s : msystem) (i : nat) : msystem :=
  match nth_error (ms_calls s) i with
  | None => s
  | Some c => if may_step s c then mem_step s i else s
  end.
Definition mem_locked_run (s : msystem) (schedule : list nat) : msystem := fold_left mem_locked_step schedule s.
End Race.

(** The memory that several calls may touch: protocol_finished_, ec_cipher_, each key with the Context inside it (ec_commutative_cipher.h 221), and the
    Context of the server (server_impl.h 78). context.h 42 says that a Context must not be shared by threads: all arithmetic writes to it. *)
Inductive cell := Finished | KeyPtr | Key (a : nat) | SharedContext.
(** What the next step of a call touches; [true] for writing. *)
Definition touches (me : memory) (m : client_message) (p : mprogress) : list (cell * bool) :=
  match p with
  | At Waiting => [(Finished, false)]                                                     (* server_impl.cc 130 *)
  | At Begun => (KeyPtr, false) :: match m, me_ptr me with                                (* 37, 65 *)
                                   | Some (CRoundOne _ _ _), Some _ => [(SharedContext, true)] (* 70-71 *)
                                   | _, _ => [] end
  | At KeyAbsent => (KeyPtr, true) :: match me_ptr me with Some a => [(Key a, true)] | None => [] end (* 46 *)
  | At (Encrypting (_ :: _) _) | At (Reencrypting _ (_ :: _) _) => [(KeyPtr, false)]      (* 52, 81 *)
  | Using a _ => [(Key a, true)]                                                          (* 52, 81 *)
  | At (Reencrypting _ [] _) => [(SharedContext, true)]                                   (* 111-121 *)
  | At (Finishing _ _) => [(Finished, true)]                                              (* 167 *)
  | At (Encrypting [] _) | At (Done _ _) | UsedFreed => []
  end.
(** server.cc 77-79: the main thread reads protocol_finished_ again and again until it is set. *)
Definition main_touches (me : memory) : list (cell * bool) := if me_finished me then [] else [(Finished, false)].
