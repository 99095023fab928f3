(** Models the PRNG class of py/crypto_util/ssl_util.py 569-636. ValueError is [Err InvalidArgument], AssertionError is [Err Internal]. *)
From Verif Require Import Base M_BigNum M_Python.

Section Prng.
(** hashlib.sha512. *)
Variable H : bytes -> bytes.

(** 588-599: the attributes seed, cur_pad, cur_bytes and cur_byte_len; limit is 1 << (cur_byte_len * 8). *)
Record prng := { g_seed : bytes; g_pad : Z; g_bytes : bytes; g_len : nat }.
Definition g_limit (g : prng) : Z := Z.shiftl 1 (Z.of_nat (g_len g) * 8).
(** 576-599 __init__. *)
Definition prng_new (seed : message) (counter_byte_len : nat) : outcome prng :=
  let* s := message_bytes seed in
  if Nat.ltb (length s) 32 then Err InvalidArgument else Ok {| g_seed := s; g_pad := 0; g_bytes := []; g_len := counter_byte_len |}.
(** 611-615 _PaddedCountBytes; b'\000' times a negative number is empty. *)
Definition padded_count (g : prng) : outcome bytes :=
  let* c := long_to_bytes (g_pad g) 0 in Ok (repeat x00 (g_len g - length c) ++ c).
(** 601-609 _GetMore. *)
Definition get_more (g : prng) : prng * outcome unit :=
  if g_pad g <? g_limit g then
    match padded_count g with
    | Ok c => ({| g_seed := g_seed g; g_pad := g_pad g + 1; g_bytes := g_bytes g ++ H (c ++ g_seed g); g_len := g_len g |}, Ok tt)
    | Err e => (g, Err e) | Crash => (g, Crash) | UB => (g, UB) | Diverge => (g, Diverge)
    end
  else (g, Err Internal).
(** 621-622: the loop of _GetNBitRand. *)
Fixpoint fill (fuel : nat) (g : prng) (byte_len : nat) : prng * outcome unit :=
  if Nat.ltb (length (g_bytes g)) byte_len then
    match fuel with
    | O => (g, Diverge)
    | S k => match get_more g with (g', Ok _) => fill k g' byte_len | other => other end
    end
  else (g, Ok tt).
(** 617-628 _GetNBitRand. Every round of the loop adds a digest, so that [byte_len] rounds are enough unless the digest is empty. *)
Definition n_bit_rand (g : prng) (n : Z) : prng * outcome Z :=
  let byte_len := Z.to_nat (Z.shiftr (n + 7) 3) in
  let excess_len := (8 - n mod 8) mod 8 in
  match fill byte_len g byte_len with
  | (g', Ok _) =>
      ({| g_seed := g_seed g'; g_pad := g_pad g'; g_bytes := skipn byte_len (g_bytes g'); g_len := g_len g' |},
       Ok (Z.shiftr (bytes_to_long (firstn byte_len (g_bytes g'))) excess_len))
  | (g', Err c) => (g', Err c) | (g', Crash) => (g', Crash) | (g', UB) => (g', UB) | (g', Diverge) => (g', Diverge)
  end.
(** 630-636 GetRand; int.bit_length is that of the magnitude. *)
Fixpoint get_rand_loop (fuel : nat) (g : prng) (bit_len upper : Z) : prng * outcome Z :=
  match fuel with
  | O => (g, Diverge)
  | S k =>
      match n_bit_rand g bit_len with
      | (g', Ok r) => if upper <=? r then get_rand_loop k g' bit_len upper else (g', Ok r)
      | other => other
      end
  end.
Definition get_rand (fuel : nat) (g : prng) (upper : Z) : prng * outcome Z := get_rand_loop fuel g (bit_length (upper - 1)) upper.
(** A sequence of calls on one generator. *)
Fixpoint get_rands (fuel : nat) (g : prng) (uppers : list Z) : list (outcome Z) :=
  match uppers with [] => [] | u :: rest => let (g', r) := get_rand fuel g u in r :: get_rands fuel g' rest end.
End Prng.
