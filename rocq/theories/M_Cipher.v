(** Models crypto/ec_commutative_cipher.{h,cc}, the deterministic cipher whose layers commute, and the hashing entry point of
    crypto/ec_point_util.cc. *)
From Coq Require Import String.
From Verif Require Import Base M_BigNum M_Num M_EC M_Group.

(** The external functions: three digests, the keyed hash of the PRF, and per curve the square root and the SSWU map. *)
Record externals := {
  sha256 : bytes -> bytes; sha384 : bytes -> bytes; sha512 : bytes -> bytes; hmac512 : bytes -> bytes -> bytes }.

Section Cipher.
Variable C : ec.
Variable X : externals.
Variable sqrt_p : Z -> Z.
Variable sswu : option (bytes -> bytes -> option (pt C)).
(** Bound on the rejections in hashing to the curve and in the PRF; exceeding it is the outcome [Diverge]. *)
Variable fuel : nat.

(** The members of ECCommutativeCipher; hash types are the enum values SHA256 = 0, SHA384 = 1, SHA512 = 2, SSWU_RO = 3
    (ec_commutative_cipher.h 92-97). *)
Record cipher := { ci_key : Z; ci_inv : Z; ci_hash : Z }.

(** ec_commutative_cipher.cc 32, kEcCommutativeCipherDst. *)
Definition cipher_dst : bytes := list_byte_of_string "ECCommutativeCipher".

(** ec_commutative_cipher.cc 38-42 InvertPrivateScalar. *)
Definition invert_private_scalar (k : Z) : outcome Z := bn_mod_exp k (ec_order C - 2) (ec_order C).
(** ec_commutative_cipher.cc 46-54, the constructor. *)
Definition cipher_make (k hash_type : Z) : outcome cipher :=
  let* inv := invert_private_scalar k in Ok {| ci_key := k; ci_inv := inv; ci_hash := hash_type |}.
(** ec_commutative_cipher.cc 56-63 ValidateHashType (both overloads). *)
Definition validate_hash_type (h : Z) : bool := (h =? 0) || (h =? 1) || (h =? 2) || (h =? 3).
Definition validate_hash_type_int (h : Z) : bool := (0 <=? h) && (h <=? 3).

(** ec_commutative_cipher.cc 65-79 CreateWithNewKey, for a curve whose group was created; [raw] is the entropy of the key. *)
Definition cipher_new (raw hash_type : Z) : outcome cipher :=
  if negb (validate_hash_type hash_type) then Err InvalidArgument
  else cipher_make (generate_private_key C raw) hash_type.
(** ec_commutative_cipher.cc 81-100 CreateFromKey. *)
Definition cipher_from_key (key_bytes : bytes) (hash_type : Z) : outcome cipher :=
  if negb (validate_hash_type hash_type) then Err InvalidArgument
  else
    let k := of_bytes key_bytes in
    let* _ := check_private_key C k in
    cipher_make k hash_type.
(** ec_commutative_cipher.cc 102-122 CreateWithKeyFromSeed. *)
Definition cipher_from_seed (seed tag : bytes) (hash_type : Z) : outcome cipher :=
  if Z.of_nat (length seed) <? 16 then Err InvalidArgument
  else if negb (validate_hash_type hash_type) then Err InvalidArgument
  else
    let* k := prf (hmac512 X) fuel seed tag (ec_order C) in
    cipher_make k hash_type.

(** ec_commutative_cipher.cc 201-217 HashToTheCurveInternal. *)
Definition hash_internal (hash_type : Z) (m : bytes) : outcome (pt C) :=
  if hash_type =? 2 then hash_to_curve C sqrt_p 512 (sha512 X) fuel m
  else if hash_type =? 1 then hash_to_curve C sqrt_p 384 (sha384 X) fuel m
  else if hash_type =? 0 then hash_to_curve C sqrt_p 256 (sha256 X) fuel m
  else if hash_type =? 3 then sswu_to_curve C sswu m cipher_dst
  else Err InvalidArgument.
(** ec_commutative_cipher.cc 219-226 HashToTheCurve. *)
Definition cipher_hash (c : cipher) (m : bytes) : outcome bytes :=
  let* P := hash_internal (ci_hash c) m in point_to_bytes C P.

(** ec_commutative_cipher.cc 124-135 Encrypt(string) with 150-152 Encrypt(point). *)
Definition cipher_encrypt (c : cipher) (m : bytes) : outcome bytes :=
  let* P := hash_internal (ci_hash c) m in point_to_bytes C (point_mul C P (ci_key c)).
(** ec_commutative_cipher.cc 137-148 ReEncrypt. *)
Definition cipher_reencrypt (c : cipher) (s : bytes) : outcome bytes :=
  let* P := point_of_bytes C s in point_to_bytes C (point_mul C P (ci_key c)).
(** ec_commutative_cipher.cc 188-199 Decrypt. *)
Definition cipher_decrypt (c : cipher) (s : bytes) : outcome bytes :=
  let* P := point_of_bytes C s in point_to_bytes C (point_mul C P (ci_inv c)).
(** ec_commutative_cipher.cc 154-186 ReEncryptElGamalCiphertext: decode both components, elgamal::Exp (elgamal.cc 95-106), encode. *)
Definition cipher_reencrypt_elgamal (c : cipher) (ct : bytes * bytes) : outcome (bytes * bytes) :=
  let* u := point_of_bytes C (fst ct) in
  let* e := point_of_bytes C (snd ct) in
  let* ub := point_to_bytes C (point_mul C u (ci_key c)) in
  let* eb := point_to_bytes C (point_mul C e (ci_key c)) in
  Ok (ub, eb).
(** ec_commutative_cipher.cc 228-230 GetPrivateKeyBytes. *)
Definition cipher_key_bytes (c : cipher) : outcome bytes := to_bytes (ci_key c).

(** ec_point_util.cc 47-63 ECPointUtil::HashToCurve: only SHA512 and SHA256. *)
Definition point_util_hash (m : bytes) (hash_type : Z) : outcome bytes :=
  if hash_type =? 2 then let* P := hash_to_curve C sqrt_p 512 (sha512 X) fuel m in point_to_bytes C P
  else if hash_type =? 0 then let* P := hash_to_curve C sqrt_p 256 (sha256 X) fuel m in point_to_bytes C P
  else Err InvalidArgument.
End Cipher.

(** ec_group.cc 132-153 ECGroup::Create: BoringSSL knows a fixed set of named curves; everything else is an error ([curves] is external). The
    creation functions of the cipher first create the group. *)
Definition with_curve {A : ec -> Type} (curves : Z -> outcome ec) (id : Z) (f : forall C, outcome (A C)) : outcome {C : ec & A C} :=
  let* C := curves id in let* a := f C in Ok (existT A C a).
