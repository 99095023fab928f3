(** Models the Java cipher: java/com/google/privacy/private_join_and_compute/encryption/commutative/EcCommutativeCipherBase.java ("Base") and
    EcCommutativeCipher.java. A thrown IllegalArgumentException is [Err InvalidArgument], an exception the documentation does not announce is
    [Crash]. External: the digests (Guava), the square root of field elements, point arithmetic, and the decoder of points (BouncyCastle).
    Lengths are not bounded by the range of int. *)
From Verif Require Import Base M_BigNum M_Num M_EC M_Group M_Cipher.

(** java.math.BigInteger.toByteArray of a non-negative number: big-endian two's complement, of bitLength / 8 + 1 bytes. *)
Definition to_byte_array (z : Z) : bytes := bn2bin (Z.to_nat (bit_length z / 8 + 1)) z.
(** new java.math.BigInteger(bytes): big-endian two's complement of a non-empty array. *)
Definition of_byte_array (s : bytes) : Z :=
  of_bytes s - match s with b :: _ => if 128 <=? bz b then 256 ^ Z.of_nat (length s) else 0 | [] => 0 end.

(** Base 274-280: skip leading zeros; the loop of line 275 has no bound, so it runs off the end of an array of zeros and
    ArrayIndexOutOfBoundsException is thrown. *)
Fixpoint skip_zeros (s : bytes) : outcome bytes :=
  match s with
  | [] => Crash
  | b :: rest => if bz b =? 0 then skip_zeros rest else Ok s
  end.
(** Base 272-281 bigIntegerToByteArrayCppCompatible. *)
Definition java_bytes (z : Z) : outcome bytes := skip_zeros (to_byte_array z).
(** Base 291-296 byteArrayToBigIntegerCppCompatible. *)
Definition java_number (s : bytes) : Z := of_byte_array (x00 :: s).

Section Oracle.
Variable hash_len : Z.
Variable H : bytes -> bytes.
(** Base 227-245, the loop of randomOracle with its two variables. *)
Fixpoint java_ro_loop (n : nat) (counter : Z) (x : bytes) (hash_output : Z) : outcome Z :=
  match n with
  | O => Ok hash_output
  | S k =>
      let shifted := hash_output * 2 ^ hash_len in
      let* cb := java_bytes counter in
      java_ro_loop k (counter + 1) x (shifted + java_number (H (cb ++ x)))
  end.
(** Base 220-246 randomOracle. BigInteger.mod throws ArithmeticException for a modulus that is not positive. *)
Definition java_random_oracle (x : bytes) (max_value : Z) : outcome Z :=
  let output_bits := bit_length max_value + hash_len in
  let iter := (output_bits + hash_len - 1) / hash_len in
  let excess := iter * hash_len - output_bits in
  let* out := java_ro_loop (Z.to_nat iter) 1 x 0 in
  if max_value <=? 0 then Crash else Ok ((out / 2 ^ excess) mod max_value).
End Oracle.

Section Java.
Variable C : ec.
Variable X : externals.
(** ECFieldElement.sqrt: null when there is no root. *)
Variable root : Z -> option Z.
(** ECCurve.decodePoint followed by isValid: None when either rejects the bytes. *)
Variable decode : bytes -> option (pt C).
Variable fuel : nat.

(** Base 45-71, HashType: the index is that of the C++ enum; the switch of lines 232-241 has SHA512 as its default. *)
Definition java_hash_len (h : Z) : Z := if h =? 0 then 256 else if h =? 1 then 384 else 512.
Definition java_digest (h : Z) : bytes -> bytes := if h =? 0 then sha256 X else if h =? 1 then sha384 X else sha512 X.
(** EcCommutativeCipher 93-95 and 132-134: the hash type when none is given. *)
Definition java_default_hash : Z := 0.

(** Base 86-90, the members of the class that a call reads. *)
Record java_cipher := { jc_key : Z; jc_hash : Z }.

(** Base 249-253 checkPrivateKey. *)
Definition java_check_key (k : Z) : outcome unit := if (k <=? 1) || (ec_order C <=? k) then Err InvalidArgument else Ok tt.
(** EcCommutativeCipher 110-118 createFromKey with Base 113-123 decodePrivateKey; the key factory of the platform accepts any key that passes
    the check. *)
Definition java_from_key (key_bytes : bytes) (h : Z) : outcome java_cipher :=
  let k := java_number key_bytes in
  let* _ := java_check_key k in
  Ok {| jc_key := k; jc_hash := h |}.
(** EcCommutativeCipher 80-82 createWithNewKey with Base 131-139: the generator of the platform draws a key in [1, order). *)
Definition java_new (raw h : Z) : java_cipher := {| jc_key := 1 + raw mod (ec_order C - 1); jc_hash := h |}.
(** Base 260-262 getPrivateKeyBytes. *)
Definition java_key_bytes (c : java_cipher) : outcome bytes := java_bytes (jc_key c).

(** ECPoint.getEncoded(true): the compressed form, and one zero byte for the point at infinity. *)
Definition encoded (P : pt C) : bytes := if is_inf C P then [x00] else ec_enc C P.

(** EcCommutativeCipher 164-180: the loop of hashIntoTheCurveInternal from candidate [x], with 305-307 convertECPoint (createPoint accepts any
    coordinates; only pairs on the curve are a point of the model, the others are [UB]). fromBigInteger takes 0 <= x < p. *)
Fixpoint java_hash_loop (ro : bytes -> outcome Z) (n : nat) (x : Z) : outcome (pt C) :=
  match n with
  | O => Diverge
  | S k =>
      let y2 := (x * ((x * x) mod ec_p C + ec_a C) + ec_b C) mod ec_p C in
      match root y2 with
      | Some y =>
          let y' := if Z.odd y then (- y) mod ec_p C else y in
          match ec_of_xy C x y' with Some P => Ok P | None => UB end
      | None => let* b := java_bytes x in let* x' := ro b in java_hash_loop ro k x'
      end
  end.
(** EcCommutativeCipher 158-181 hashIntoTheCurveInternal. *)
Definition java_hash_point (h : Z) (m : bytes) : outcome (pt C) :=
  let ro b := java_random_oracle (java_hash_len h) (java_digest h) b (ec_p C) in
  let* x := ro m in java_hash_loop ro fuel x.
(** EcCommutativeCipher 200-202 hashIntoTheCurve. *)
Definition java_hash (c : java_cipher) (m : bytes) : outcome bytes := let* P := java_hash_point (jc_hash c) m in Ok (encoded P).
(** EcCommutativeCipher 210-212 and 221-224 encrypt. *)
Definition java_encrypt (c : java_cipher) (m : bytes) : outcome bytes :=
  let* P := java_hash_point (jc_hash c) m in Ok (encoded (point_mul C P (jc_key c))).
(** EcCommutativeCipher 264-269 checkPointOnCurve. *)
Definition java_point (s : bytes) : outcome (pt C) :=
  match decode s with
  | None => Err InvalidArgument
  | Some P => if is_inf C P then Err InvalidArgument else Ok P
  end.
(** EcCommutativeCipher 143-150 validateCiphertext. *)
Definition java_validate (s : bytes) : bool := match decode s with None => false | Some P => negb (is_inf C P) end.
(** EcCommutativeCipher 235-238 reEncrypt. *)
Definition java_reencrypt (c : java_cipher) (s : bytes) : outcome bytes := let* P := java_point s in Ok (encoded (point_mul C P (jc_key c))).
(** EcCommutativeCipher 250-254 decrypt; BigInteger.modInverse throws ArithmeticException when there is no inverse. *)
Definition java_decrypt (c : java_cipher) (s : bytes) : outcome bytes :=
  let* P := java_point s in
  let* inv := value_or_crash (bn_mod_inverse (jc_key c) (ec_order C)) in
  Ok (encoded (point_mul C P inv)).
End Java.
