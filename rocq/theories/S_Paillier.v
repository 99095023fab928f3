(** Specification of Damgard-Jurik encryption, independent of the implementation. *)
From Coq Require Import Znumtheory.
From Verif Require Import Base.

(** p is a safe prime. *)
Definition safe_prime (p : Z) : Prop := prime p /\ exists q, prime q /\ p = 2 * q + 1.

(** [c] is an encryption of [m] under the public key (n, s): c = (1+n)^m r^(n^s) mod n^(s+1) for some unit r. *)
Definition encrypts_with (n : Z) (s : nat) (c m r : Z) : Prop :=
  Z.gcd r n = 1 /\ (n ^ (Z.of_nat s + 1) | c - (1 + n) ^ m * r ^ (n ^ Z.of_nat s)).
Definition encrypts (n : Z) (s : nat) (c m : Z) : Prop := exists r, encrypts_with n s c m r.

(** Ciphertexts as the API produces and accepts them: reduced modulo n^(s+1). *)
Definition in_range (n : Z) (s : nat) (c : Z) : Prop := 0 <= c < n ^ (Z.of_nat s + 1).

(** Expressions over ciphertexts and their plaintext meaning. *)
Inductive pexpr :=
| PLeaf (i : nat)
| PAdd (a b : pexpr)
| PMul (a : pexpr) (k : Z)
| PShl (a : pexpr) (k : Z).

Fixpoint plain_eval (env : nat -> Z) (e : pexpr) : Z :=
  match e with
  | PLeaf i => env i
  | PAdd a b => plain_eval env a + plain_eval env b
  | PMul a k => plain_eval env a * k
  | PShl a k => plain_eval env a * 2 ^ k
  end.

(** Scalars and shift amounts are non-negative. *)
Fixpoint scalars_ok (e : pexpr) : Prop :=
  match e with
  | PLeaf _ => True
  | PAdd a b => scalars_ok a /\ scalars_ok b
  | PMul a k | PShl a k => scalars_ok a /\ 0 <= k
  end.
