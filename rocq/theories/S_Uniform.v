(** What it means that a random process has no bias: over independent uniform draws (as in [S_Hide]), every good result comes about for the same number of draws, and no other result ever does. *)
From Verif Require Import Base S_Hide.

Section Uniform.
Context {A : Type}.
Variable same : A -> A -> bool.
Definition gives (o : outcome A) (a : A) : bool := match o with Ok x => same x a | _ => false end.
(** For how many draws the process gives [a]. *)
Definition frequency (bounds : list Z) (process : list Z -> outcome A) (a : A) : Z := count bounds (fun ds => gives (process ds) a).
Definition unbiased (bounds : list Z) (process : list Z -> outcome A) (good : A -> Prop) : Prop :=
  exists k, 0 < k /\ (forall a, good a -> frequency bounds process a = k) /\ (forall a, ~ good a -> frequency bounds process a = 0).
End Uniform.

Definition same_list (xs ys : list Z) : bool := if list_eq_dec Z.eq_dec xs ys then true else false.
Definition same_pair (x y : Z * list Z) : bool := (fst x =? fst y) && same_list (snd x) (snd y).
(** A list of draws cut into [l] parts of the same length. *)
Fixpoint cut (len l : nat) (ds : list Z) : list (list Z) := match l with O => [] | S k => firstn len ds :: cut len k (skipn len ds) end.
Definition unit_below (n x : Z) : Prop := 0 <= x < n /\ Z.gcd x n = 1.
