(** Specification side of the intersection-sum protocol. *)
From Coq Require Import Permutation Sorted.
From Verif Require Import Base M_Group M_Protocol.

Definition bytes_dec : forall a b : bytes, {a = b} + {a <> b} := list_eq_dec Byte.byte_eq_dec.
(** Number of occurrences. *)
Definition count (x : bytes) (l : list bytes) : nat := count_occ bytes_dec l x.
Fixpoint zsum (l : list Z) : Z := match l with [] => 0 | x :: r => x + zsum r end.

(** What std::sort guarantees: a rearrangement in which no later element is smaller. Elements that compare equal may come in any order. *)
Definition sorts (srt : list elem -> list elem) : Prop :=
  forall l, Permutation l (srt l) /\ StronglySorted (fun a b => bytes_ltb (el b) (el a) = false) (srt l).

(** [chosen] is a multiset intersection: some of the client's rows, as many of each identifier as both sides have. *)
Definition multi_intersection (rows : list (bytes * Z)) (server : list bytes) (chosen : list (bytes * Z)) : Prop :=
  (exists rest, Permutation rows (chosen ++ rest)) /\
  forall x, count x (map fst chosen) = Nat.min (count x (map fst rows)) (count x server).
(** The rows whose identifier the server has. *)
Definition common (rows : list (bytes * Z)) (server : list bytes) : list (bytes * Z) :=
  filter (fun r => if in_dec bytes_dec (fst r) server then true else false) rows.

(** ** Histories *)
(** A process that died (abort, undefined behaviour, endless loop) handles no further messages. *)
Definition alive (o : outcome unit) : Prop := o = Ok tt \/ exists e, o = Err e.
(** One message handled by a server: the state before, the message, the reply handed to the sink, the status, the state after. *)
Record server_event := { se_rand : server_rand; se_sink : sink server_message; se_msg : client_message; se_reply : option server_message; se_status : outcome unit }.
Record client_event := { ce_rp : nat -> Z; ce_rq : nat -> Z; ce_sink : sink client_message; ce_msg : server_message; ce_reply : option client_message; ce_status : outcome unit }.

(** All histories of a server started on [inputs]: any messages, entropy and sinks. *)
Inductive server_history C X sqrt_p fuel flag srt (inputs : list bytes) : list server_event -> server -> Prop :=
| sh_init : server_history C X sqrt_p fuel flag srt inputs [] (server_init inputs)
| sh_step h st r snd m st' reply status : server_history C X sqrt_p fuel flag srt inputs h st ->
    server_handle C X sqrt_p fuel flag srt r snd st m = (st', reply, status) -> alive status ->
    server_history C X sqrt_p fuel flag srt inputs (h ++ [{| se_rand := r; se_sink := snd; se_msg := m; se_reply := reply; se_status := status |}]) st'.
Definition replies (h : list server_event) : list server_message := flat_map (fun e => match se_reply e with Some m => [m] | None => [] end) h.

(** All histories of a client. *)
Inductive client_history C X sqrt_p fuel isp flag srt (cl0 : client) : list client_event -> client -> Prop :=
| ch_init : client_history C X sqrt_p fuel isp flag srt cl0 [] cl0
| ch_step h st rp rq snd m st' reply status : client_history C X sqrt_p fuel isp flag srt cl0 h st ->
    client_handle C X sqrt_p fuel isp flag srt rp rq snd st m = (st', reply, status) -> alive status ->
    client_history C X sqrt_p fuel isp flag srt cl0 (h ++ [{| ce_rp := rp; ce_rq := rq; ce_sink := snd; ce_msg := m; ce_reply := reply; ce_status := status |}]) st'.
