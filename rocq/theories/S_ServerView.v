(** What the server's two messages are made of. *)
From Verif Require Import Base M_BigNum M_EC S_HideSum S_ClientView.

(** The last message, from the public modulus, the base of the encryptions of zero, the server's draw, and the ciphertexts of the common rows: their number, and the product times an encryption of zero. *)
Definition reply_from (modulus base d : Z) (cts : list Z) : Z * bytes := (Z.of_nat (length cts), wire ((base ^ d * fold_right Z.mul 1 cts) mod modulus ^ 3)).
(** Whether two points of a list are the same. *)
Fixpoint repeated (l : list bytes) : bool := match l with [] => false | x :: r => existsb (bytes_eqb x) r || repeated r end.
Definition points_repeated (C : ec) (l : list (pt C)) : bool := repeated (map (ec_enc C) l).

(** The table of [ids'] in the order of [ids]. *)
Fixpoint lookup {A} (other : A) (x : bytes) (l : list (bytes * A)) : A := match l with [] => other | (y, a) :: r => if bytes_eqb x y then a else lookup other x r end.
Definition in_order {A} (other : A) (ids ids' : list bytes) (table : list A) : list A := map (fun x => lookup other x (combine ids' table)) ids.
(** The sum of the two exponents the client uses to encrypt the value of each row. *)
Fixpoint row_exponents (p q : Z) (vd : list Z) (l : nat) {struct l} : list Z :=
  match l, vd with
  | S l', rp :: rq :: _ :: r => exponent p rp + exponent q rq :: row_exponents p q r l'
  | _, _ => []
  end.
