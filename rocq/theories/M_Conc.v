(** Models requests that the gRPC server of server.cc 60-83 hands to one PrivateIntersectionSumProtocolServerImpl at the same time, on several threads and
    without a lock (private_join_and_compute_rpc_impl.cc 65-71). Every access to a member that calls share (ec_cipher_, protocol_finished_) is one step.
    Simplification: accesses are atomic and take effect in one order, and one Encrypt or ReEncrypt is one access; in C++ the accesses are data races, so
    the real program may do worse than any schedule here. The sink of a call accepts the one message the call sends (SingleMessageSink). *)
From Verif Require Import Base M_BigNum M_Num M_EC M_Group M_Cipher M_Paillier M_Protocol.

(** How far a call of Handle has come. *)
Inductive progress :=
| Waiting                                                              (* not begun: before server_impl.cc 130 *)
| Begun                                                                (* past the test of protocol_finished_, 130-134 *)
| KeyAbsent                                                            (* EncryptSet has seen no key, 37-39 *)
| Encrypting (todo : list bytes) (done : list elem)                    (* in the loop 49-57 *)
| Reencrypting (pk : public_paillier) (todo done : list elem)          (* in the loop 77-87 *)
| Finishing (size : Z) (sum : bytes)                                   (* the result is ready, 166-167 comes next *)
| Done (reply : option server_message) (status : outcome unit).
Record call := { ca_msg : client_message; ca_rand : server_rand; ca_at : progress }.
Definition arrive (m : client_message) (r : server_rand) : call := {| ca_msg := m; ca_rand := r; ca_at := Waiting |}.

(** The status of a call that fails with [o]. *)
Definition failed {A} (o : outcome A) : outcome unit := match o with Ok _ => Ok tt | Err e => Err e | Crash => Crash | UB => UB | Diverge => Diverge end.

Section Conc.
Variable C : ec.
Variable X : externals.
Variable sqrt_p : Z -> Z.
Variable fuel : nat.
Variable flag : bool.
Variable srt : list elem -> list elem.

(** server_impl.cc 88-124: the rest of ComputeIntersection, which uses no shared member. *)
Definition rest_of_intersection (r : server_rand) (pk : public_paillier) (client_set reencrypted : list elem) : outcome (Z * bytes) :=
  let a := srt client_set in
  let b := srt reencrypted in
  let inter := set_intersection (length a + length b) a b in
  let* zero := pub_encrypt flag pk 0 (sr_zero r) in
  let* sum := add_all pk zero inter in
  let* sb := to_bytes sum in
  Ok (Z.of_nat (length inter), sb).

(** One step of a call of server_impl.cc 127-175 Handle. *)
Definition call_step (st : server) (m : client_message) (r : server_rand) (at_ : progress) : server * progress :=
  match at_ with
  | Waiting => (st, if sv_finished st then Done None (Err InvalidArgument)
                    else match m with Some CStart | Some (CRoundOne _ _ _) => Begun | _ => Done None (Err InvalidArgument) end)
  | Begun =>
      match m with
      | Some CStart => (st, match sv_cipher st with Some _ => Done None (Err InvalidArgument) | None => KeyAbsent end)
      | Some (CRoundOne key es _) =>
          (st, match sv_cipher st with
               | None => Done None (Err InvalidArgument)
               | Some _ => match public_create flag (of_bytes key) 2 (sr_gen r) with Ok pk => Reencrypting pk es [] | o => Done None (failed o) end
               end)
      | _ => (st, Done None (Err InvalidArgument))
      end
  | KeyAbsent =>
      match cipher_new C (sr_key r) 0 with
      | Ok c => ({| sv_inputs := sv_inputs st; sv_cipher := Some c; sv_finished := sv_finished st |}, Encrypting (sv_inputs st) [])
      | o => (st, Done None (failed o))
      end
  | Encrypting [] done => (st, Done (Some (Some (SRoundOne done))) (Ok tt))
  | Encrypting (x :: todo) done =>
      (st, match sv_cipher st with
           | None => Done None UB
           | Some c => match enc C X sqrt_p fuel c x with Ok e => Encrypting todo (done ++ [{| el := e; ad := [] |}]) | o => Done None (failed o) end
           end)
  | Reencrypting pk (e :: todo) done =>
      (st, match sv_cipher st with
           | None => Done None UB
           | Some c => match cipher_reencrypt C c (el e) with Ok x => Reencrypting pk todo (done ++ [{| el := x; ad := ad e |}]) | o => Done None (failed o) end
           end)
  | Reencrypting pk [] done =>
      (st, match m with
           | Some (CRoundOne _ _ rs) => match rest_of_intersection r pk done rs with Ok (size, sb) => Finishing size sb | o => Done None (failed o) end
           | _ => Done None UB
           end)
  | Finishing size sb =>
      ({| sv_inputs := sv_inputs st; sv_cipher := sv_cipher st; sv_finished := true |}, Done (Some (Some (SRoundTwo size sb))) (Ok tt))
  | Done reply status => (st, Done reply status)
  end.

(** The server and the calls it was given. *)
Record system := { sy_server : server; sy_calls : list call }.
Fixpoint set_nth {A} (n : nat) (x : A) (l : list A) : list A :=
  match l, n with
  | [], _ => []
  | _ :: r, O => x :: r
  | y :: r, S k => y :: set_nth k x r
  end.
(** The scheduler lets call [i] take a step. *)
Definition sys_step (s : system) (i : nat) : system :=
  match nth_error (sy_calls s) i with
  | None => s
  | Some c =>
      let (st, a) := call_step (sy_server s) (ca_msg c) (ca_rand c) (ca_at c) in
      {| sy_server := st; sy_calls := set_nth i {| ca_msg := ca_msg c; ca_rand := ca_rand c; ca_at := a |} (sy_calls s) |}
  end.
Definition sys_run (s : system) (schedule : list nat) : system := fold_left sys_step schedule s.

(** The same server with a lock around Handle, which it does not have: a call cannot begin while another one is on its way. *)
Definition on_its_way (c : call) : bool := match ca_at c with Waiting | Done _ _ => false | _ => true end.
Definition locked_step (s : system) (i : nat) : system :=
  match nth_error (sy_calls s) i with
  | None => s
  | Some c => if on_its_way c || forallb (fun c => negb (on_its_way c)) (sy_calls s) then sys_step s i else s
  end.
Definition locked_run (s : system) (schedule : list nat) : system := fold_left locked_step schedule s.
End Conc.
