(** What the client can read off the server's last message: vocabulary for C67. *)
From Verif Require Import Base M_Num M_Protocol S_Protocol.

(** Euler's criterion: whether c is a square modulo the odd prime p (for c not divisible by p). *)
Definition residue (p c : Z) : bool := c ^ ((p - 1) / 2) mod p =? 1.
(** The Jacobi symbol (c / pq) is 1: c is a square modulo both primes or modulo neither. *)
Definition jacobi_one (p q c : Z) : bool := Bool.eqb (residue p c) (residue q c).

(** The i-th of the client's two exponents when it encrypts its value: uniform between 1 and p - 1 (paillier.cc 255-257). *)
Definition exponent (p raw : Z) : Z := 1 + raw mod (p - 1).

(** The same entropy, but for the last draw. *)
Definition with_zero (r : server_rand) (d : Z) : server_rand := {| sr_key := sr_key r; sr_gen := sr_gen r; sr_zero := d |}.

(** The server's second message (intersection size and encrypted sum) in a run between a client on (elements, values) and a server on inputs. *)
Definition second_reply C X sqrt_p fuel isp flag srt (elements : list bytes) (values : list Z) (p q key_raw : Z) (rp rq : nat -> Z) (inputs : list bytes) (r1 r2 : server_rand) : outcome (Z * bytes) :=
  let* cl := client_create C elements values p q key_raw in
  match server_handle C X sqrt_p fuel flag srt r1 (fun _ => Ok tt) (server_init inputs) start_protocol with
  | (sv, Some m1, Ok _) =>
      match client_handle C X sqrt_p fuel isp flag srt rp rq (fun _ => Ok tt) cl m1 with
      | (_, Some m2, Ok _) =>
          match server_handle C X sqrt_p fuel flag srt r2 (fun _ => Ok tt) sv m2 with
          | (_, Some (Some (SRoundTwo size sb)), Ok _) => Ok (size, sb)
          | _ => Err Internal
          end
      | _ => Err Internal
      end
  | _ => Err Internal
  end.
