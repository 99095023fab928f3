(** The decisional composite residuosity game (in the form Damgard and Jurik use), and players in it.  Everything is counted over independent uniform draws, as in [S_Hide]. *)
From Verif Require Import Base S_Hide S_Ddh.

Section Dcr.
(** The public modulus, and the exponent s of the cryptosystem. *)
Variable n : Z.
Variable s : nat.

(** An encryption of v with the random number x; those with v = 0 are the n^s-th powers. *)
Definition sealed (v x : Z) : Z := ((1 + n) ^ v * x ^ (n ^ Z.of_nat s)) mod n ^ (Z.of_nat s + 1).

(** The game.  A player with some coins is shown the n^s-th power of a random unit x, or the same times a random power of 1 + n, and says yes or no.  Draws below n that are not units
    do not count.  The gap is the difference between the numbers of draws for which it says yes. *)
Definition dcr_gap (coins : list Z) (player : list Z -> Z -> bool) : Z :=
  let world (c : Z -> Z -> Z) := count ([n; n ^ Z.of_nat s] ++ coins) (fun ds => match ds with
    | x :: u :: cs => (Z.gcd x n =? 1) && player cs (c u x)
    | _ => false end) in
  Z.abs (world (fun _ => sealed 0) - world sealed).

(** For each of [l] rows two draws. *)
Definition row_draws (l : nat) : list Z := concat (repeat [n; n ^ Z.of_nat s] l).

(** The player number [j] for an observer who sees other coins ([k] of them) and one ciphertext for each of the values: the ciphertexts before place [j] encrypt the values, the one at place
    [j] is the challenge times an encryption of the value, the ones after encrypt random numbers.  It knows the values and the public key, and runs the observer once. *)
Definition dcr_player (k : nat) (values : list Z) (j : nat) (observer : list Z -> list Z -> bool) (cs : list Z) (c : Z) : bool :=
  let rows := pairs (length values - 1) (skipn k cs) in
  forallb (fun r => Z.gcd (fst r) n =? 1) rows &&
  observer (firstn k cs)
    (map (fun vr => sealed (fst vr) (fst (snd vr))) (combine (firstn j values) (firstn j rows)) ++
     ((1 + n) ^ nth j values 0 * c) mod n ^ (Z.of_nat s + 1) ::
     map (fun r => sealed (snd r) (fst r)) (skipn j rows)).
(** The sum of the gaps of all players. *)
Definition dcr_total (extra : list Z) (values : list Z) (observer : list Z -> list Z -> bool) : Z :=
  zsum (length values) (fun j => dcr_gap (extra ++ row_draws (length values - 1)) (dcr_player (length extra) values (Z.to_nat j) observer)).
End Dcr.
