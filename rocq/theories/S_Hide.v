(** What it means that a random process hides something: counting over independent uniform draws. *)
From Verif Require Import Base M_BigNum M_Num.

(** Sum of f 0 ... f (n-1). *)
Fixpoint zsum (n : nat) (f : Z -> Z) : Z := match n with O => 0 | S k => zsum k f + f (Z.of_nat k) end.

(** [count bounds test]: for how many tuples (d_1, ..., d_k), each d_i ranging over 0 <= d_i < bound_i, the test is true. *)
Fixpoint count (bounds : list Z) (test : list Z -> bool) : Z :=
  match bounds with
  | [] => if test [] then 1 else 0
  | b :: bs => zsum (Z.to_nat b) (fun d => count bs (fun ds => test (d :: ds)))
  end.
(** Number of all tuples. *)
Definition tuples (bounds : list Z) : Z := fold_right Z.mul 1 bounds.

(** Two processes driven by the same uniform draws differ by at most [num / 2^k]: whatever test is applied to the result, the numbers of draws for which it
    succeeds differ by at most that fraction of all draws.  (Statistical distance at most num / 2^k.) *)
Definition within_distance {R} (num k : Z) (bounds : list Z) (f g : list Z -> R) : Prop :=
  forall test : R -> bool, 2 ^ k * Z.abs (count bounds (fun ds => test (f ds)) - count bounds (fun ds => test (g ds))) <= num * tuples bounds.

(** The hash function answers c to every question with 2^k possible answers. *)
Definition oracle_says (sha512 : bytes -> bytes) (k c : Z) : Prop := forall x, random_oracle 512 sha512 x (2 ^ k) = Ok c.
(** A part of a list of draws. *)
Definition part (start len : nat) (ds : list Z) : list Z := map (fun i => nth (start + i) ds 0) (seq 0 len).
(** The same, apart from draws for which something went wrong ([bad]): these are counted in addition. *)
Definition within_distance_but {R} (num k : Z) (bounds : list Z) (bad : list Z -> bool) (f g : list Z -> R) : Prop :=
  forall test : R -> bool, 2 ^ k * Z.abs (count bounds (fun ds => test (f ds)) - count bounds (fun ds => test (g ds))) <= num * tuples bounds + 2 ^ k * count bounds bad.
