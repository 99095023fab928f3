(** Running a prover twice with the same answers up to some question, and different answers from there on. *)
From Verif Require Import Base M_BigNum M_Num S_Hide S_Oracle.

(** The prover succeeds for more than the fraction (q + 1) / 2^k of all answers: on some set of tapes (given by its test) of that size. *)
Definition succeeds_often {A} (k : Z) (query : A -> outcome bytes) (accepts : (bytes -> bytes) -> A -> Prop) (p : prover A) (q : nat) : Prop :=
  exists test, (forall tape, length tape = (q + 1)%nat -> Forall (fun c => 0 <= c < 2 ^ k) tape -> test tape = true -> fools k query accepts p tape) /\
    Z.of_nat (q + 1) * tuples (repeat (2 ^ k) (q + 1)) < 2 ^ k * count (repeat (2 ^ k) (q + 1)) test.

(** Two runs that agree in the answers [before], receive different answers c1 and c2 to the next new question, and end with two accepted messages for which the verifier asks that very
    question: the same string x, answered c1 in one run and c2 in the other. *)
Definition forks {A} (k : Z) (query : A -> outcome bytes) (accepts : (bytes -> bytes) -> A -> Prop) (p : prover A) : Prop :=
  exists before c1 rest1 c2 rest2 a1 t1 sha1 a2 t2 sha2 x, c1 <> c2 /\ 0 <= c1 < 2 ^ k /\ 0 <= c2 < 2 ^ k /\
    play (then_checked query p) [] (before ++ c1 :: rest1) = Some (a1, t1) /\ play (then_checked query p) [] (before ++ c2 :: rest2) = Some (a2, t2) /\
    query a1 = Ok x /\ query a2 = Ok x /\ agrees sha1 k t1 /\ agrees sha2 k t2 /\ In (x, c1) t1 /\ In (x, c2) t2 /\ accepts sha1 a1 /\ accepts sha2 a2.
