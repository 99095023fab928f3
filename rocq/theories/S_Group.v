(** Specification of hashing to the curve and of message padding. *)
From Verif Require Import Base M_BigNum M_EC.

(** What is assumed of BN_mod_sqrt: it returns a reduced square root of every quadratic residue. *)
Definition sqrt_ok (p : Z) (sqrt_p : Z -> Z) : Prop :=
  forall a, 0 <= a < p -> (exists r, (p | r * r - a)) -> 0 <= sqrt_p a < p /\ (p | sqrt_p a * sqrt_p a - a).

(** x is the abscissa of a curve point with non-zero ordinate. *)
Definition has_point (C : ec) (x : Z) : Prop :=
  exists y, 0 < y < ec_p C /\ (ec_p C | y * y - (x * x * x + ec_a C * x + ec_b C)).

(** P is the point above x with even ordinate. *)
Definition even_lift (C : ec) (x : Z) (P : pt C) : Prop :=
  exists y, ec_xy C P = Some (x mod ec_p C, y) /\ Z.even y = true /\ 0 < y < ec_p C.

(** The sequence of candidates derived from an input by repeated hashing. *)
Inductive candidate (ro : bytes -> outcome Z) (m : bytes) : nat -> Z -> Prop :=
| cand_first x : ro m = Ok x -> candidate ro m 0 x
| cand_next i x b x' : candidate ro m i x -> to_bytes x = Ok b -> ro b = Ok x' -> candidate ro m (S i) x'.

(** The P-256 field and curve coefficients (FIPS 186-4). *)
Definition p256_p : Z := 2 ^ 256 - 2 ^ 224 + 2 ^ 192 + 2 ^ 96 - 1.
Definition p256_b : Z := 41058363725152142129326129780047268409114441015993725554835256314039467401291.
