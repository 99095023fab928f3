(** Specification of Camenisch-Shoup encryption, independent of the implementation. *)
From Verif Require Import Base.

(** The component (u, e) opens to m under the secret exponent x: u^x is a unit and e = u^x (1+n)^m modulo n^(s+1). *)
Definition cs_opens (n : Z) (s : nat) (x u e m : Z) : Prop :=
  Z.gcd (u ^ x) n = 1 /\ (n ^ (Z.of_nat s + 1) | e - u ^ x * (1 + n) ^ m).
(** A whole ciphertext opens to a message vector. *)
Inductive cs_opens_all (n : Z) (s : nat) (u : Z) : list Z -> list Z -> list Z -> Prop :=
| opens_nil : cs_opens_all n s u [] [] []
| opens_cons x xs e es m ms : cs_opens n s x u e m -> cs_opens_all n s u xs es ms -> cs_opens_all n s u (x :: xs) (e :: es) (m :: ms).

(** A message vector completed with zeros to the given length, reduced modulo n^s. *)
Definition padded (n : Z) (s : nat) (len : nat) (ms : list Z) : list Z :=
  map (fun m => m mod n ^ Z.of_nat s) (ms ++ repeat 0 (len - length ms)).

(** Expressions over ciphertexts, and their meaning on one message component. *)
Inductive cexpr := CLeaf (i : nat) | CAdd (a b : cexpr) | CMul (a : cexpr) (k : Z).
Fixpoint cexpr_value (env : nat -> Z) (e : cexpr) : Z :=
  match e with
  | CLeaf i => env i
  | CAdd a b => cexpr_value env a + cexpr_value env b
  | CMul a k => cexpr_value env a * k
  end.
Fixpoint cexpr_scalars_ok (e : cexpr) : Prop :=
  match e with CLeaf _ => True | CAdd a b => cexpr_scalars_ok a /\ cexpr_scalars_ok b | CMul a k => cexpr_scalars_ok a /\ 0 <= k end.

(** A Camenisch-Shoup key: an odd modulus, a unit g, and one public value per secret exponent. The last condition is what makes the
    division by s! in the implementation possible; it holds when the prime factors of n exceed s. *)
Record cs_keypair (n : Z) (s : nat) (g : Z) (xs ys : list Z) : Prop := {
  ck_odd : Z.odd n = true; ck_gt : 1 < n; ck_g : 0 <= g < n ^ (Z.of_nat s + 1); ck_unit : Z.gcd g n = 1;
  ck_match : Forall2 (fun x y => 0 <= x /\ y = g ^ x mod n ^ (Z.of_nat s + 1)) xs ys;
  ck_small : forall i, 1 <= i <= Z.of_nat s -> Z.gcd i n = 1
}.
