(** Vocabulary of the claims about the dummy data tool. *)
From Verif Require Import Base S_Csv.

(** The number of different identifiers in a list. *)
Definition distinct (ids : list bytes) : nat := length (nodup bytes_eq_dec ids).

(** Two datasets as requested on the command line: the sizes, at least [inter] shared identifiers, values in range. *)
Definition as_requested (server_size client_size inter max_value : Z) (server client : list bytes) (vals : list Z) : Prop :=
  length server = Z.to_nat server_size /\ length client = Z.to_nat client_size /\ length vals = Z.to_nat client_size /\
  share_at_least (Z.to_nat inter) server client /\ Forall (fun v => 0 <= v < max_value) vals /\ Forall random_id (server ++ client).
