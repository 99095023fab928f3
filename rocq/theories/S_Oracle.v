(** Dishonest provers who may put questions to the hash function before they send a proof. The hash function is random: every new question gets a fresh uniform answer. *)
From Verif Require Import Base M_BigNum M_Num S_Hide.

(** A prover, as a decision tree: it sends something, or asks the hash function about a string and goes on in a way that depends on the answer. It may know all secrets. *)
Inductive prover (A : Type) := Give (a : A) | Ask (x : bytes) (next : Z -> prover A).
Arguments Give {A} _. Arguments Ask {A} _ _.
(** At most [q] questions on every path. *)
Fixpoint asks {A} (p : prover A) (q : nat) : Prop :=
  match p with
  | Give _ => True
  | Ask _ next => match q with O => False | S q' => forall c, asks (next c) q' end
  end.

(** The answers given so far. *)
Definition answers := list (bytes * Z).
Fixpoint answer_to (t : answers) (x : bytes) : option Z :=
  match t with [] => None | (y, c) :: r => if bytes_eqb y x then Some c else answer_to r x end.
(** Running a prover: a question asked before gets the same answer again, a new one the next value on the tape. Result: what it sends, and all answers. *)
Fixpoint play {A} (p : prover A) (t : answers) (tape : list Z) : option (A * answers) :=
  match p with
  | Give a => Some (a, t)
  | Ask x next =>
      match answer_to t x with
      | Some c => play (next c) t tape
      | None => match tape with [] => None | c :: rest => play (next c) ((x, c) :: t) rest end
      end
  end.
(** The verifier's own question [query a], asked last. *)
Fixpoint then_checked {A} (query : A -> outcome bytes) (p : prover A) : prover A :=
  match p with
  | Give a => match query a with Ok x => Ask x (fun _ => Give a) | _ => Give a end
  | Ask x next => Ask x (fun c => then_checked query (next c))
  end.

(** A hash function that gives these answers to questions with 2^k possible answers. *)
Definition agrees (sha512 : bytes -> bytes) (k : Z) (t : answers) : Prop := forall x c, In (x, c) t -> random_oracle 512 sha512 x (2 ^ k) = Ok c.
(** With these random values the prover sends something that [accepts] takes. *)
Definition fools {A} (k : Z) (query : A -> outcome bytes) (accepts : (bytes -> bytes) -> A -> Prop) (p : prover A) (tape : list Z) : Prop :=
  exists a t sha512, play (then_checked query p) [] tape = Some (a, t) /\ agrees sha512 k t /\ accepts sha512 a.

(** A prover with [q] questions succeeds for at most the fraction (q + 1) / 2^k of all answers: any set of tapes (given by its test) on which it succeeds is that small. *)
Definition rarely_fools {A} (k : Z) (query : A -> outcome bytes) (accepts : (bytes -> bytes) -> A -> Prop) : Prop :=
  forall p q test, asks p q -> (forall tape, length tape = (q + 1)%nat -> Forall (fun c => 0 <= c < 2 ^ k) tape -> test tape = true -> fools k query accepts p tape) ->
  2 ^ k * count (repeat (2 ^ k) (q + 1)) test <= Z.of_nat (q + 1) * tuples (repeat (2 ^ k) (q + 1)).
