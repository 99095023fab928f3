(** Models the private intersection-sum protocol: client_impl.{h,cc}, server_impl.{h,cc}, private_join_and_compute_rpc_impl.cc and the driver in
    client.cc. Messages are the records of their proto fields; the wire format and gRPC itself are external. Randomness is an argument of every
    call. The curve is P-256 in the code; here any curve. *)
From Verif Require Import Base M_BigNum M_Num M_EC M_Group M_Cipher M_Paillier M_Csv.

(** match.proto EncryptedElement. *)
Record elem := { el : bytes; ad : bytes }.

(** private_intersection_sum.proto: the client's and server's message_content oneof; [CUnset]/[SUnset] is an unset oneof. *)
Inductive client_content := CStart | CRoundOne (public_key : bytes) (encrypted reencrypted : list elem) | CUnset.
Inductive server_content := SRoundOne (encrypted : list elem) | SRoundTwo (size : Z) (encrypted_sum : bytes) | SUnset.
(** private_join_and_compute.proto: [None] when the message is not for this protocol. *)
Definition client_message := option client_content.
Definition server_message := option server_content.

(** A message sink's answer to a Send; the sink is code of the caller. *)
Definition sink (M : Type) := M -> outcome unit.

Section Protocol.
Variable C : ec.
Variable X : externals.
Variable sqrt_p : Z -> Z.
Variable fuel : nat.
Variable is_safe_prime : Z -> bool.
Variable flag : bool.
(** std::sort by [el]. *)
Variable srt : list elem -> list elem.

Definition enc (c : cipher) (m : bytes) : outcome bytes := cipher_encrypt C X sqrt_p None fuel c m.

(** std::set_intersection with the comparison of server_impl.cc 104-106. *)
Fixpoint set_intersection (fuel : nat) (a b : list elem) : list elem :=
  match fuel with
  | O => []
  | S k =>
      match a, b with
      | x :: a', y :: b' =>
          if bytes_ltb (el x) (el y) then set_intersection k a' b
          else if bytes_ltb (el y) (el x) then set_intersection k a b'
          else x :: set_intersection k a' b'
      | _, _ => []
      end
  end.

(** ** Server *)

(** server_impl.h, the members. *)
Record server := { sv_inputs : list bytes; sv_cipher : option cipher; sv_finished : bool }.
Definition server_init (inputs : list bytes) : server := {| sv_inputs := inputs; sv_cipher := None; sv_finished := false |}.
(** Entropy of one server call: EC key, draws for the Paillier generator, and the encryption of zero. *)
Record server_rand := { sr_key : Z; sr_gen : list Z; sr_zero : Z }.

(** server_impl.cc 35-60 EncryptSet; the cipher stays set when a later encryption fails. *)
Definition encrypt_set (r : server_rand) (st : server) : server * outcome (list elem) :=
  match sv_cipher st with
  | Some _ => (st, Err InvalidArgument)
  | None =>
      match cipher_new C (sr_key r) 0 with
      | Ok c => ({| sv_inputs := sv_inputs st; sv_cipher := Some c; sv_finished := sv_finished st |},
                 mapM (fun x => let* e := enc c x in Ok {| el := e; ad := [] |}) (sv_inputs st))
      | Err e => (st, Err e)
      | Crash => (st, Crash)
      | UB => (st, UB)
      | Diverge => (st, Diverge)
      end
  end.

(** server_impl.cc 117-120: adding up the associated data. *)
Fixpoint add_all (pk : public_paillier) (sum : Z) (es : list elem) : outcome Z :=
  match es with
  | [] => Ok sum
  | e :: r => let* s := pub_add pk sum (of_bytes (ad e)) in add_all pk s r
  end.
(** server_impl.cc 62-125 ComputeIntersection. *)
Definition compute_intersection (r : server_rand) (st : server) (public_key : bytes) (encrypted reencrypted : list elem) : outcome (Z * bytes) :=
  match sv_cipher st with
  | None => Err InvalidArgument
  | Some c =>
      let* pk := public_create flag (of_bytes public_key) 2 (sr_gen r) in
      let* client_set := mapM (fun e => let* x := cipher_reencrypt C c (el e) in Ok {| el := x; ad := ad e |}) encrypted in
      let a := srt client_set in
      let b := srt reencrypted in
      let inter := set_intersection (length a + length b) a b in
      let* zero := pub_encrypt flag pk 0 (sr_zero r) in
      let* sum := add_all pk zero inter in
      let* sb := to_bytes sum in
      Ok (Z.of_nat (length inter), sb)
  end.

(** server_impl.cc 127-175 Handle: new state, the message handed to the sink if any, and the status. *)
Definition server_handle (r : server_rand) (send : sink server_message) (st : server) (m : client_message) : server * option server_message * outcome unit :=
  if sv_finished st then (st, None, Err InvalidArgument)
  else match m with
  | None => (st, None, Err InvalidArgument)
  | Some CStart =>
      let (st', o) := encrypt_set r st in
      match o with
      | Ok es => let reply := Some (SRoundOne es) in (st', Some reply, send reply)
      | Err e => (st', None, Err e)
      | Crash => (st', None, Crash)
      | UB => (st', None, UB)
      | Diverge => (st', None, Diverge)
      end
  | Some (CRoundOne pkb es rs) =>
      match compute_intersection r st pkb es rs with
      | Ok (size, sb) =>
          let reply := Some (SRoundTwo size sb) in
          ({| sv_inputs := sv_inputs st; sv_cipher := sv_cipher st; sv_finished := true |}, Some reply, send reply)
      | Err e => (st, None, Err e)
      | Crash => (st, None, Crash)
      | UB => (st, None, UB)
      | Diverge => (st, None, Diverge)
      end
  | Some CUnset => (st, None, Err InvalidArgument)
  end.

(** ** Client *)

(** client_impl.h, the members; [cl_sum] starts as zero and [cl_size] as 0. *)
Record client := {
  cl_elements : list bytes; cl_values : list Z; cl_p : Z; cl_q : Z; cl_cipher : cipher;
  cl_paillier : option private_paillier; cl_finished : bool; cl_size : Z; cl_sum : Z }.
(** client_impl.cc 32-45, the constructor, from the two primes drawn and the entropy of the EC key. *)
Definition client_create (elements : list bytes) (values : list Z) (p q key_raw : Z) : outcome client :=
  let* c := value_or_crash (cipher_new C key_raw 0) in
  Ok {| cl_elements := elements; cl_values := values; cl_p := p; cl_q := q; cl_cipher := c;
        cl_paillier := None; cl_finished := false; cl_size := 0; cl_sum := 0 |}.

(** client_impl.cc 54-66: element and value of every row; reading past the values is undefined. [rp], [rq] are the entropy per row. *)
Fixpoint client_rows (c : cipher) (sk : private_paillier) (rp rq : nat -> Z) (i : nat) (xs : list bytes) (vs : list Z) : outcome (list elem) :=
  match xs with
  | [] => Ok []
  | x :: xs' =>
      let* e := enc c x in
      match vs with
      | [] => UB
      | v :: vs' =>
          let* ct := priv_encrypt flag sk v (rp i) (rq i) in
          let* cb := to_bytes ct in
          let* rest := client_rows c sk rp rq (S i) xs' vs' in
          Ok ({| el := e; ad := cb |} :: rest)
      end
  end.
(** client_impl.cc 47-87 ReEncryptSet. *)
Definition reencrypt_set (rp rq : nat -> Z) (st : client) (encrypted : list elem) : client * outcome (bytes * list elem * list elem) :=
  match private_create is_safe_prime flag (cl_p st) (cl_q st) 2 with
  | Ok sk =>
      let st' := {| cl_elements := cl_elements st; cl_values := cl_values st; cl_p := cl_p st; cl_q := cl_q st; cl_cipher := cl_cipher st;
                    cl_paillier := Some sk; cl_finished := cl_finished st; cl_size := cl_size st; cl_sum := cl_sum st |} in
      (st',
       let* pkb := to_bytes (cl_p st * cl_q st) in
       let* rows := client_rows (cl_cipher st) sk rp rq 0 (cl_elements st) (cl_values st) in
       let* re := mapM (fun e => let* x := cipher_reencrypt C (cl_cipher st) (el e) in Ok {| el := x; ad := [] |}) encrypted in
       Ok (pkb, rows, srt re))
  | Err e => (st, Err e)
  | Crash => (st, Crash)
  | UB => (st, UB)
  | Diverge => (st, Diverge)
  end.
(** client_impl.cc 89-102 DecryptSum. *)
Definition decrypt_sum (st : client) (size : Z) (sb : bytes) : outcome (Z * Z) :=
  match cl_paillier st with
  | None => Err InvalidArgument
  | Some sk => let* sum := priv_decrypt sk (of_bytes sb) in Ok (size, sum)
  end.
(** client_impl.cc 104-111 StartProtocol. *)
Definition start_protocol : client_message := Some CStart.
(** client_impl.cc 113-164 Handle. *)
Definition client_handle (rp rq : nat -> Z) (send : sink client_message) (st : client) (m : server_message) : client * option client_message * outcome unit :=
  if cl_finished st then (st, None, Err InvalidArgument)
  else match m with
  | None => (st, None, Err InvalidArgument)
  | Some (SRoundOne es) =>
      let (st', o) := reencrypt_set rp rq st es in
      match o with
      | Ok (pkb, rows, re) => let msg := Some (CRoundOne pkb rows re) in (st', Some msg, send msg)
      | Err e => (st', None, Err e)
      | Crash => (st', None, Crash)
      | UB => (st', None, UB)
      | Diverge => (st', None, Diverge)
      end
  | Some (SRoundTwo size sb) =>
      match decrypt_sum st size sb with
      | Ok (size, sum) =>
          ({| cl_elements := cl_elements st; cl_values := cl_values st; cl_p := cl_p st; cl_q := cl_q st; cl_cipher := cl_cipher st;
              cl_paillier := cl_paillier st; cl_finished := true; cl_size := size; cl_sum := sum |}, None, Ok tt)
      | Err e => (st, None, Err e)
      | Crash => (st, None, Crash)
      | UB => (st, None, UB)
      | Diverge => (st, None, Diverge)
      end
  | Some SUnset => (st, None, Err InvalidArgument)
  end.
(** client_impl.cc 166-180 PrintOutput: the two numbers printed. *)
Definition print_output (st : client) : outcome (Z * Z) :=
  if negb (cl_finished st) then Err InvalidArgument
  else let* v := to_int_value (cl_sum st) in Ok (cl_size st, v).

(** ** RPC layer *)

(** gRPC status codes used. *)
Inductive grpc := GOk | GInvalidArgument | GInternal | GUnknown.
(** private_join_and_compute_rpc_impl.cc 24-38 ConvertStatus. *)
Definition convert_status (s : option code) : grpc :=
  match s with
  | None => GOk
  | Some InvalidArgument => GInvalidArgument
  | Some Internal => GInternal
  | Some _ => GUnknown
  end.
(** private_join_and_compute_rpc_impl.cc 40-61 SingleMessageSink: the response slot and whether it was written. *)
Definition single_sink {M} (slot : option M) (m : M) : option M * option code :=
  match slot with None => (Some m, None) | Some _ => (slot, Some InvalidArgument) end.
(** Any handler: a program that sends messages, sees the answers, and finally returns a status. *)
Inductive handler (M : Type) := HReturn (s : option code) | HSend (m : M) (k : option code -> handler M).
Arguments HReturn {M}. Arguments HSend {M}.
Fixpoint run_handler {M} (h : handler M) (slot : option M) : option M * option code :=
  match h with
  | HReturn s => (slot, s)
  | HSend m k => let (slot', a) := single_sink slot m in run_handler (k a) slot'
  end.
(** private_join_and_compute_rpc_impl.cc 65-71 Handle: the response (its default value if nothing was sent) and the gRPC status. *)
Definition rpc_handle {M} (h : handler M) : option M * grpc :=
  let (slot, s) := run_handler h None in (slot, convert_status s).

(** server_impl.cc Handle as a handler run by the RPC layer: it sends at most one message, and then its status is the sink's. A request that kills
    the server process has no answer. *)
Definition serve (r : server_rand) (st : server) (m : client_message) : server * outcome (option server_message * grpc) :=
  let '(st', reply, s) := server_handle r (fun _ => Ok tt) st m in
  match s with
  | Ok _ => (st', Ok (rpc_handle (match reply with Some rep => HSend rep (fun a => HReturn a) | None => HReturn None end)))
  | Err e => (st', Ok (rpc_handle (match reply with Some rep => HSend rep (fun _ => HReturn (Some e)) | None => HReturn (Some e) end)))
  | Crash => (st', Crash)
  | UB => (st', UB)
  | Diverge => (st', Diverge)
  end.

(** ** The client program *)

(** What can go wrong with one remote call: nothing, the request does not arrive, the reply is lost. *)
Inductive fault := NoFault | LostRequest | LostReply.
(** client.cc 60-72 Send with the server behind it. Every gRPC failure, including the death of the server, is an INTERNAL error; a response that
    was not written by the server is the default message. [last] is last_server_response_; a failed call leaves it unchanged. *)
Definition remote_call (r : server_rand) (f : fault) (sv : server) (last : server_message) (m : client_message) : server * server_message * outcome unit :=
  match f with
  | LostRequest => (sv, last, Err Internal)
  | LostReply => (fst (serve r sv m), last, Err Internal)
  | NoFault =>
      match serve r sv m with
      | (sv', Ok (Some rep, GOk)) => (sv', rep, Ok tt)
      | (sv', Ok (None, GOk)) => (sv', None, Ok tt)
      | (sv', _) => (sv', last, Err Internal)
      end
  end.

(** client.cc 104-160 ExecuteProtocol, from the loaded data to the last Handle; [Err] is exit code 1. [r1], [r2] are the server's entropy in its two
    calls, [f1], [f2] the faults of the two remote calls. The client's Handle sends its message as its last action, so the remote call is written after it. *)
Definition run_protocol (elements : list bytes) (values : list Z) (p q key_raw : Z) (rp rq : nat -> Z) (sv : server) (r1 r2 : server_rand) (f1 f2 : fault) : outcome client :=
  let* cl := client_create elements values p q key_raw in
  let '(sv1, round_one, s1) := remote_call r1 f1 sv None start_protocol in
  let* _ := s1 in
  let '(cl1, msg, s2) := client_handle rp rq (fun _ => Ok tt) cl round_one in
  let* _ := s2 in
  let '(sv2, round_two, s3) := match msg with Some m => remote_call r2 f2 sv1 round_one m | None => (sv1, round_one, Ok tt) end in
  let* _ := s3 in
  let '(cl2, _, s4) := client_handle rp rq (fun _ => Ok tt) cl1 round_two in
  let* _ := s4 in
  Ok cl2.
(** client.cc 81-173 ExecuteProtocol: [Ok] is exit code 0 with the two numbers printed. [client_file] and [server_file] are the contents of the two data
    files; the server loads its file before serving (server.cc 41-56) and exits if that fails, so every call to it then fails. *)
Definition execute (client_file server_file : option bytes) (p q key_raw : Z) (rp rq : nat -> Z) (r1 r2 : server_rand) (f1 f2 : fault) : outcome (Z * Z) :=
  let* data := read_client_dataset client_file in
  let f1' := match read_server_dataset server_file with Ok _ => f1 | _ => LostRequest end in
  let inputs := match read_server_dataset server_file with Ok xs => xs | _ => [] end in
  let* cl := run_protocol (fst data) (snd data) p q key_raw rp rq (server_init inputs) r1 r2 f1' f2 in
  print_output cl.
End Protocol.
Arguments HReturn {M}. Arguments HSend {M}.
