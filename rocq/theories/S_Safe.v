(** Specification side of C58: handling a message must not end the process. *)
From Verif Require Import Base M_BigNum M_Protocol.

(** The process is still there: neither an abort (failed CHECK) nor undefined behaviour. *)
Definition survives {A} (o : outcome A) : Prop := o <> Crash /\ o <> UB.

(** A message to the server whose Paillier modulus, if it carries one, is odd, and not 1 where the 2^k-ary exponentiation is selected. *)
Definition odd_modulus (two_k_ary_flag : bool) (m : client_message) : Prop :=
  match m with Some (CRoundOne key _ _) => Z.odd (of_bytes key) = true /\ (two_k_ary_flag = true -> of_bytes key <> 1) | _ => True end.
(** A message to the client whose encrypted sum, if it carries one, is either out of range or coprime to the client's modulus. *)
Definition decryptable (n : Z) (m : server_message) : Prop :=
  match m with Some (SRoundTwo _ sum) => n ^ 3 <= of_bytes sum \/ Z.gcd (of_bytes sum) n = 1 | _ => True end.
