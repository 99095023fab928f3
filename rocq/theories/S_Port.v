(** Specification of the agreement of the C++, Java and Python ciphers. *)
From Verif Require Import Base M_BigNum M_Num M_EC M_Group S_Group M_Cipher M_Java M_Python.

(** ECFieldElement.sqrt returns a reduced square root, or null when there is none. *)
Definition root_ok (p : Z) (root : Z -> option Z) : Prop := forall a, 0 <= a < p ->
  match root a with
  | Some r => 0 <= r < p /\ (p | r * r - a)
  | None => forall r, ~ (p | r * r - a)
  end.
(** A decoder of points understands the compressed encodings. *)
Definition decodes (C : ec) (decode : bytes -> option (pt C)) : Prop := forall P, P <> pinf C -> decode (ec_enc C P) = Some P.
(** The lengths of the three digests. *)
Definition digest_lengths (X : externals) : Prop :=
  forall s, length (sha256 X s) = 32%nat /\ length (sha384 X s) = 48%nat /\ length (sha512 X s) = 64%nat.
(** No point lies on the x-axis (true of every curve of odd order). *)
Definition off_axis (C : ec) : Prop := forall P x y, ec_xy C P = Some (x, y) -> y <> 0.
(** A curve on which the hash types can be used in all three languages: the field prime has at most 254 * 256 bits. *)
Definition usable (C : ec) : Prop := ec_laws C /\ off_axis C /\ bit_length (ec_p C) <= 65024.

(** The candidates that the C++ library derives from a message with hash type [h]. *)
Definition cpp_oracle (C : ec) (X : externals) (h : Z) (s : bytes) : outcome Z :=
  if h =? 0 then random_oracle 256 (sha256 X) s (ec_p C)
  else if h =? 1 then random_oracle 384 (sha384 X) s (ec_p C)
  else random_oracle 512 (sha512 X) s (ec_p C).
(** Zero is never a rejected candidate. *)
Definition no_rejected_zero (C : ec) (X : externals) (h : Z) (m : bytes) : Prop :=
  has_point C 0 \/ forall i, ~ candidate (cpp_oracle C X h) m i 0.

(** The three implementations behind one interface: create a cipher from key bytes and apply one operation. *)
Inductive language := Cpp | Java | Python.
Inductive operation := AddLayer | TakeLayer.
Section Mix.
Variable C : ec.
Variable X : externals.
Variable sqrt_p : Z -> Z.
Variable sswu : option (bytes -> bytes -> option (pt C)).
Variable root : Z -> option Z.
Variable java_decode python_decode : bytes -> option (pt C).
Variable fuel : nat.
Definition first_layer (l : language) (key : bytes) (h : Z) (m : bytes) : outcome bytes :=
  match l with
  | Cpp => let* c := cipher_from_key C key h in cipher_encrypt C X sqrt_p sswu fuel c m
  | Java => let* c := java_from_key C key h in java_encrypt C X root fuel c m
  | Python => let* c := py_new C (Some key) 0 (Some h) in py_encrypt C X sqrt_p fuel c m
  end.
Definition next_layer (l : language) (key : bytes) (h : Z) (op : operation) (s : bytes) : outcome bytes :=
  match l, op with
  | Cpp, AddLayer => let* c := cipher_from_key C key h in cipher_reencrypt C c s
  | Cpp, TakeLayer => let* c := cipher_from_key C key h in cipher_decrypt C c s
  | Java, AddLayer => let* c := java_from_key C key h in java_reencrypt C java_decode c s
  | Java, TakeLayer => let* c := java_from_key C key h in java_decrypt C java_decode c s
  | Python, AddLayer => let* c := py_new C (Some key) 0 (Some h) in py_reencrypt C python_decode c s
  | Python, TakeLayer => let* c := py_new C (Some key) 0 (Some h) in py_decrypt C python_decode c s
  end.
(** A message is encrypted by one party and then handled by any number of others, each with its own language and key. *)
Fixpoint relay (steps : list (language * bytes * operation)) (h : Z) (s : bytes) : outcome bytes :=
  match steps with
  | [] => Ok s
  | (l, key, op) :: rest => let* s' := next_layer l key h op s in relay rest h s'
  end.
(** The same, everybody using C++. *)
Definition in_cpp (steps : list (language * bytes * operation)) : list (language * bytes * operation) := map (fun x => match x with (_, key, op) => (Cpp, key, op) end) steps.
End Mix.

(** The fields of P-224 and P-384 and their coefficients b (FIPS 186-4). *)
Definition p224_p : Z := 2 ^ 224 - 2 ^ 96 + 1.
Definition p224_b : Z := 18958286285566608000408668544493926415504680968679321075787234672564.
Definition p384_p : Z := 2 ^ 384 - 2 ^ 128 - 2 ^ 96 + 2 ^ 32 - 1.
Definition p384_b : Z := 27580193559959705877849011840389048093056905856361568521428707301988689241309860865136260764883745107765439761230575.
