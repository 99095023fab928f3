(** Specification of the Python PRNG: numbers are cut one after the other from a fixed stream of bytes. *)
From Verif Require Import Base M_BigNum.

Section Stream.
Variable H : bytes -> bytes.
Variable seed : bytes.
Variable len : nat.
(** The counter has a fixed width: [len] bytes, or one byte if [len] is 0. Block i of the stream hashes the counter i and the seed. *)
Definition counter (i : Z) : bytes := bn2bin (Nat.max 1 len) i.
Definition block (i : Z) : bytes := H (counter i ++ seed).
(** Byte number [p] of the stream of 64-byte blocks, and how many bytes there are. *)
Definition stream (p : Z) : byte := nth (Z.to_nat (p mod 64)) (block (p / 64)) x00.
Definition available : Z := 64 * 256 ^ Z.of_nat len.
Definition slice (p : Z) (n : nat) : bytes := map (fun i => stream (p + Z.of_nat i)) (seq 0 n).

(** How many bits and whole bytes a number below [upper] takes, and the candidate found at position [p]: the first bits of those bytes. *)
Definition bits (upper : Z) : Z := bit_length (upper - 1).
Definition width (upper : Z) : Z := (bits upper + 7) / 8.
Definition candidate_at (upper p : Z) : Z := of_bytes (slice p (Z.to_nat (width upper))) / 2 ^ (8 * width upper - bits upper).
(** [draw upper p answer p']: a call at position [p] gives this answer and leaves the generator at position [p']. *)
Inductive draw (upper : Z) : Z -> outcome Z -> Z -> Prop :=
| draw_accept p : p + width upper <= available -> candidate_at upper p < upper -> draw upper p (Ok (candidate_at upper p)) (p + width upper)
| draw_retry p answer p' : p + width upper <= available -> upper <= candidate_at upper p -> draw upper (p + width upper) answer p' -> draw upper p answer p'
| draw_exhausted p : available < p + width upper -> draw upper p (Err Internal) p.
Inductive draws : list Z -> Z -> list (outcome Z) -> Prop :=
| draws_nil p : draws [] p []
| draws_cons u rest p answer p' answers : draw u p answer p' -> draws rest p' answers -> draws (u :: rest) p (answer :: answers).
End Stream.
