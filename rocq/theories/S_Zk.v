(** Observers who may put questions to the random hash function before and after they see a proof: what they can tell apart. *)
From Verif Require Import Base M_BigNum M_Num S_Hide S_Oracle.

(** ** The code that makes the proof, as something that questions the hash function *)
(** What a decision tree sends when a fixed hash function answers its questions, each with 2^k possible answers. *)
Fixpoint answered {A} (sha512 : bytes -> bytes) (k : Z) (p : prover (outcome A)) : outcome A :=
  match p with
  | Give a => a
  | Ask x next => let* c := random_oracle 512 sha512 x (2 ^ k) in answered sha512 k (next c)
  end.
(** [tree] is the code [run]: they send the same whatever the hash function is. *)
Definition is_code {A} (k : Z) (run : (bytes -> bytes) -> outcome A) (tree : prover (outcome A)) : Prop := forall sha512, answered sha512 k tree = run sha512.

(** ** The two games *)
(** First one, then the other. *)
Fixpoint followed_by {A B} (p : prover A) (f : A -> prover B) : prover B :=
  match p with Give a => f a | Ask x next => Ask x (fun c => followed_by (next c) f) end.
(** An observer asks questions, sees what the prover sends, asks more questions, and says yes or no. *)
Definition observer (A : Type) := prover (outcome A -> prover bool).
Definition says_yes (r : option (bool * answers)) : bool := match r with Some (true, _) => true | _ => false end.
(** The observer and the prover share the random function whose answers are on the tape. *)
Definition sees_real {A} (o : observer A) (tree : prover (outcome A)) (tape : list Z) : bool :=
  says_yes (play (followed_by o (fun look => followed_by tree look)) [] tape).
(** Instead of the prover there is a simulator, who draws a challenge c, makes [sim c] and decrees that c is the answer to the question that the verifier
    will ask about it. *)
Definition decree {A} (query : A -> outcome bytes) (r : outcome A) (c : Z) (t : answers) : answers :=
  match r with Ok a => match query a with Ok x => (x, c) :: t | _ => t end | _ => t end.
Definition sees_simulated {A} (o : observer A) (query : A -> outcome bytes) (sim : Z -> outcome A) (tape : list Z) : bool :=
  match play o [] tape with
  | None => false
  | Some (look, t) => match skipn (length t) tape with
                      | [] => false
                      | c :: rest => says_yes (play (look (sim c)) (decree query (sim c) c t) rest)
                      end
  end.
(** The observer asked the prover's question before the prover did. *)
Definition asked_before {A} (o : observer A) (tree : prover (outcome A)) (tape : list Z) : bool :=
  match play o [] tape, tree with
  | Some (_, t), Ask x _ => match answer_to t x with Some _ => true | None => false end
  | _, _ => false
  end.

(** The draws do not suit the challenge that comes next. *)
Definition goes_wrong {A} (o : observer A) (bad : Z -> bool) (tape : list Z) : bool :=
  match play o [] tape with Some (_, t) => bad (hd 0 (skipn (length t) tape)) | None => false end.

(** The code asks one question, and what it sends when the answer is c makes the verifier ask the same one. *)
Definition one_question {A} (query : A -> outcome bytes) (tree : prover (outcome A)) (c : Z) : Prop :=
  exists x next a, tree = Ask x next /\ next c = Give (Ok a) /\ query a = Ok x.

(** With the draws of [bounds] and a tape of any length, no observer tells the code [run] from the simulator [sim], who does not know the secret, with more
    than the advantage num / 2^s, apart from draws with which the prover fails ([bad]) and from those where the observer guessed the prover's question. *)
Definition shows_nothing {A} (k num s : Z) (bounds : list Z) (bad : Z -> list Z -> bool) (run : (bytes -> bytes) -> list Z -> outcome A)
    (query : A -> outcome bytes) (sim : Z -> list Z -> outcome A) : Prop :=
  exists tree : list Z -> prover (outcome A),
    (forall ds, Forall2 (fun b d => 0 <= d < b) bounds ds -> asks (tree ds) 1 /\ is_code k (fun sha512 => run sha512 ds) (tree ds)) /\
    (forall ds c, Forall2 (fun b d => 0 <= d < b) bounds ds -> 0 <= c < 2 ^ k -> bad c ds = false -> one_question query (tree ds) c) /\
    forall (o : observer A) n,
      let all := repeat (2 ^ k) n ++ bounds in
      let yes_real := count all (fun v => sees_real o (tree (skipn n v)) (firstn n v)) in
      let yes_simulated := count all (fun v => sees_simulated o query (fun c => sim c (skipn n v)) (firstn n v)) in
      let guessed := count all (fun v => asked_before o (tree (skipn n v)) (firstn n v)) in
      let wrong := count all (fun v => goes_wrong o (fun c => bad c (skipn n v)) (firstn n v)) in
      2 ^ s * Z.abs (yes_real - yes_simulated) <= num * tuples all + 2 ^ s * (guessed + 2 * wrong).
Definition never : Z -> list Z -> bool := fun _ _ => false.

(** The same with the guesses counted: of the draws, no question that an observer may think of before it sees the proof is the prover's with more than [share]
    of them, and an observer has thought of at most q questions by then. Afterwards it may ask as many as it likes. *)
Definition shows_little {A} (k num s : Z) (bounds : list Z) (bad : Z -> list Z -> bool) (share : Z) (run : (bytes -> bytes) -> list Z -> outcome A)
    (query : A -> outcome bytes) (sim : Z -> list Z -> outcome A) : Prop :=
  exists tree : list Z -> prover (outcome A),
    (forall ds, Forall2 (fun b d => 0 <= d < b) bounds ds -> asks (tree ds) 1 /\ is_code k (fun sha512 => run sha512 ds) (tree ds)) /\
    forall (o : observer A) q n, asks o q ->
      let all := repeat (2 ^ k) n ++ bounds in
      let yes_real := count all (fun v => sees_real o (tree (skipn n v)) (firstn n v)) in
      let yes_simulated := count all (fun v => sees_simulated o query (fun c => sim c (skipn n v)) (firstn n v)) in
      let no_proof := count all (fun v => bad 0 (skipn n v)) in
      let wrong := count all (fun v => goes_wrong o (fun c => bad c (skipn n v)) (firstn n v)) in
      2 ^ s * Z.abs (yes_real - yes_simulated) <= num * tuples all + 2 ^ s * (Z.of_nat q * share * tuples (repeat (2 ^ k) n) + no_proof + 2 * wrong).
