(** Specification of Pedersen commitments. *)
From Verif Require Import Base S_Exp.

(** prod g_i^m_i * h^r mod n. *)
Definition commitment (gs : list Z) (h n : Z) (ms : list Z) (r : Z) : Z := (multi_exp gs ms * h ^ r) mod n.

(** Component-wise sum; the shorter vector is extended with zeros. *)
Fixpoint vadd (xs ys : list Z) : list Z :=
  match xs, ys with
  | x :: xs', y :: ys' => (x + y) :: vadd xs' ys'
  | [], _ => ys
  | _, [] => xs
  end.
Definition vscale (k : Z) (xs : list Z) : list Z := map (Z.mul k) xs.

(** What an arbitrary combination of commitments should commit to. *)
Inductive cexp := CLeaf (ms : list Z) (r : Z) | CAdd (a b : cexp) | CMul (a : cexp) (k : Z).
Fixpoint messages (e : cexp) : list Z :=
  match e with CLeaf ms _ => ms | CAdd a b => vadd (messages a) (messages b) | CMul a k => vscale k (messages a) end.
Fixpoint opening (e : cexp) : Z :=
  match e with CLeaf _ r => r | CAdd a b => opening a + opening b | CMul a k => k * opening a end.
Fixpoint admissible (k : nat) (e : cexp) : Prop :=
  match e with
  | CLeaf ms r => (length ms <= k)%nat /\ Forall (fun m => 0 <= m) ms /\ 0 <= r
  | CAdd a b => admissible k a /\ admissible k b
  | CMul a c => admissible k a /\ 0 <= c
  end.

(** x, possibly negative, is a discrete logarithm of g to the base h in the units modulo n. *)
Definition discrete_log (n h g x : Z) : Prop :=
  if 0 <=? x then h ^ x mod n = g mod n else (g * h ^ (- x)) mod n = 1 mod n.
