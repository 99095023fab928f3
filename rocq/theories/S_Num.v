(** Specifications for the numeric helpers. *)
From Verif Require Import Base S_BigNum.

(** [counter_blocks H x i n s]: s is H(ctr i ++ x) ++ H(ctr (i+1) ++ x) ++ ... for n blocks, where ctr i is the shortest
    big-endian encoding of i. *)
Inductive counter_blocks (H : bytes -> bytes) (x : bytes) : Z -> nat -> bytes -> Prop :=
| cb_nil i : counter_blocks H x i 0 []
| cb_cons i n ctr s : canonical ctr -> be_value ctr = i -> counter_blocks H x (i + 1) n s ->
    counter_blocks H x i (S n) (H (ctr ++ x) ++ s).

(** The messages that PRF authenticates in turn: the data, then each rejected tag without leading zero bytes. *)
Fixpoint prf_message (mac : bytes -> bytes -> bytes) (key data : bytes) (k : nat) : bytes :=
  match k with
  | O => data
  | S k' => strip_zeros (mac key (prf_message mac key data k'))
  end.
(** The k-th candidate: the low [bits] bits of the tag. *)
Definition prf_candidate mac key data (bits : Z) (k : nat) : Z := be_value (mac key (prf_message mac key data k)) mod 2 ^ bits.
(** [v] is the first candidate below [max_value]. *)
Definition prf_first mac key data bits max_value (k : nat) (v : Z) : Prop :=
  v = prf_candidate mac key data bits k /\ v < max_value /\
  forall j, (j < k)%nat -> max_value <= prf_candidate mac key data bits j.
