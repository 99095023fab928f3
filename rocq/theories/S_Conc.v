(** Specification side of requests that arrive at the same time. *)
From Verif Require Import Base M_Protocol M_Conc.

(** The replies handed over so far. *)
Definition answers (calls : list call) : list server_message := flat_map (fun c => match ca_at c with Done (Some m) _ => [m] | _ => [] end) calls.
Definition starts (ms : list server_message) : list server_message := filter (fun m => match m with Some (SRoundOne _) => true | _ => false end) ms.
Definition results (ms : list server_message) : list server_message := filter (fun m => match m with Some (SRoundTwo _ _) => true | _ => false end) ms.
(** The process is still there: no call aborted it, did something undefined or runs for ever. *)
Definition all_alive (calls : list call) : Prop := forall c reply status, In c calls -> ca_at c = Done reply status -> status = Ok tt \/ exists e, status = Err e.
Definition not_begun (calls : list call) : Prop := forall c, In c calls -> ca_at c = Waiting.
