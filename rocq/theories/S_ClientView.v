(** What the client's message is made of, and the made-up message that shows only which rows are common. *)
From Verif Require Import Base M_BigNum M_EC M_Paillier M_Protocol S_Ddh.

(** What a row encrypts: a given value, or the random number drawn for it. *)
Definition plain (o : option Z) (u : Z) : Z := match o with Some v => v | None => u end.
(** One ciphertext for every row, each from three draws: the randomness modulo the two primes, and the random number. *)
Fixpoint row_ciphertexts (flag : bool) (sk : private_paillier) (os : list (option Z)) (ds : list Z) : list Z :=
  match os, ds with
  | o :: os', rp :: rq :: u :: r => match priv_encrypt flag sk (plain o u) rp rq with Ok c => c | _ => 0 end :: row_ciphertexts flag sk os' r
  | _, _ => []
  end.
Definition key_draws (p q : Z) (s : nat) (l : nat) : list Z := concat (repeat [p - 1; q - 1; (p * q) ^ Z.of_nat s] l).

(** For each of the client's rows: whether the server has its identifier. *)
Definition common_rows (xs ys : list bytes) : list bool := map (fun x => existsb (bytes_eqb x) ys) xs.
(** The server's identifiers that the client does not have. *)
Definition only_server (xs ys : list bytes) : list bytes := filter (fun y => negb (existsb (bytes_eqb y) xs)) ys.
Fixpoint chosen {A} (mask : list bool) (l : list A) : list A :=
  match mask, l with b :: mask', x :: l' => if b then x :: chosen mask' l' else chosen mask' l' | _, _ => [] end.

(** A number on the wire. *)
Definition wire (z : Z) : bytes := match to_bytes z with Ok b => b | _ => [] end.
(** The message made from the public modulus, the server's key [ks], the mask of common rows, one point for every row and every further identifier of the server, and the ciphertexts. *)
Definition message_from (C : ec) (srt : list elem -> list elem) (modulus ks : Z) (mask : list bool) (points : list (pt C)) (cts : list Z) : client_message :=
  let rows := firstn (length mask) points in
  let further := skipn (length mask) points in
  Some (CRoundOne (wire modulus)
    (map (fun Pc => {| el := ec_enc C (fst Pc); ad := wire (snd Pc) |}) (combine rows cts))
    (srt (map (fun P => {| el := ec_enc C (pmul C ks P); ad := [] |}) (chosen mask rows ++ further)))).
