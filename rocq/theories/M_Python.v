(** Models the Python cipher: py/crypto_util/converters.py, the random oracle and number conversions of py/crypto_util/ssl_util.py,
    py/crypto_util/elliptic_curve.py, supported_hashes.py and py/ciphers/ec_cipher.py. ValueError is [Err InvalidArgument]; the AssertionError
    with which SSLProxy (ssl_util.py 380-397) answers a failed OpenSSL call is [Err Internal]. External: hashlib's digests, OpenSSL's BN_mod_sqrt,
    point arithmetic and decoder of points. *)
From Verif Require Import Base M_BigNum M_Num M_EC M_Group M_Cipher.

(** ** converters.py *)

(** converters.py 24-37 _PadZeroBytes, for a positive block size. *)
Definition pad_zero_bytes (s : bytes) (blocksize : nat) : bytes :=
  if Nat.eqb (Nat.modulo (length s) blocksize) 0 then s else repeat x00 (blocksize - Nat.modulo (length s) blocksize) ++ s.

(** converters.py 55-58: the components of 32 bits, the most significant first; one component per round, so the number of bits bounds the
    number of rounds. *)
Fixpoint components (n : nat) (number : Z) (acc : list Z) : list Z :=
  match n with
  | O => acc
  | S k => if number =? 0 then acc else components k (Z.shiftr number 32) (Z.land number 4294967295 :: acc)
  end.
(** struct.pack('>nI', ...). *)
Definition pack (l : list Z) : bytes := flat_map (bn2bin 4) l.
(** struct.unpack('>nI', ...) of a string whose length is a multiple of four. *)
Fixpoint unpack (s : bytes) : list Z :=
  match s with
  | a :: b :: c :: d :: rest => of_bytes [a; b; c; d] :: unpack rest
  | _ => []
  end.
(** converters.py 61-67: from the first byte that is not zero on; the string of one zero byte when there is none. *)
Fixpoint from_first_nonzero (s : bytes) : bytes :=
  match s with
  | [] => [x00]
  | b :: rest => if negb (bz b =? 0) then s else from_first_nonzero rest
  end.
(** converters.py 40-71 LongToBytes. *)
Definition long_to_bytes (number : Z) (blocksize : nat) : outcome bytes :=
  if number <? 0 then Err InvalidArgument
  else
    let n_bytes := from_first_nonzero (pack (components (Z.to_nat (bit_length number)) number [])) in
    Ok (if Nat.ltb 0 blocksize then pad_zero_bytes n_bytes blocksize else n_bytes).
(** converters.py 80-83: component i shifted by 32 * (number of components - i - 1). *)
Fixpoint sum_components (l : list Z) : Z :=
  match l with [] => 0 | c :: rest => Z.shiftl c (32 * Z.of_nat (length rest)) + sum_components rest end.
(** converters.py 74-84 BytesToLong. *)
Definition bytes_to_long (s : bytes) : Z := sum_components (unpack (pad_zero_bytes s 4)).

(** ssl_util.py 403-431 and 714-724, 1056-1066: a number handed to OpenSSL and back. BN_bn2bin writes the magnitude. *)
Definition long_to_bn (a : Z) : outcome Z := let* s := long_to_bytes a 0 in Ok (of_bytes s).
Definition bn_to_bytes (a : Z) : bytes := bn2bin (num_bytes a) (Z.abs a).
Definition bn_to_long (a : Z) : Z := bytes_to_long (bn_to_bytes a).

(** A message is a number or bytes. *)
Inductive message := MInt (z : Z) | MBytes (s : bytes).
Definition message_bytes (m : message) : outcome bytes := match m with MInt z => long_to_bytes z 0 | MBytes s => Ok s end.

Section Oracle.
Variable hash_len : Z.
Variable H : bytes -> bytes.
(** ssl_util.py 561-565, the loop of RandomOracle from counter [i] on; supported_hashes.py 28-32: the digest read as a hexadecimal number. *)
Fixpoint py_ro_loop (n : nat) (i : Z) (x : bytes) (hash_output : Z) : outcome Z :=
  match n with
  | O => Ok hash_output
  | S k =>
      let* ib := long_to_bytes i 0 in
      py_ro_loop k (i + 1) x (Z.lor (Z.shiftl hash_output hash_len) (of_bytes (H (ib ++ x))))
  end.
(** ssl_util.py 514-566 RandomOracle; the ceiling is computed in floating point, exactly for the lengths that pass the test of line 551. Line
    559 converts the input after that test. Python's % raises ZeroDivisionError for modulus 0. *)
Definition py_random_oracle (m : message) (max_value : Z) : outcome Z :=
  let output_bits := bit_length max_value + hash_len in
  let iter := (output_bits + hash_len - 1) / hash_len in
  if 255 <? iter then Err InvalidArgument
  else
    let excess := iter * hash_len - output_bits in
    let* x := message_bytes m in
    let* out := py_ro_loop (Z.to_nat iter) 1 x 0 in
    if max_value =? 0 then Crash else Ok ((Z.shiftr out excess) mod max_value).
End Oracle.

Section Python.
Variable C : ec.
Variable X : externals.
Variable sqrt_p : Z -> Z.
(** EC_POINT_oct2point. *)
Variable decode : bytes -> option (pt C).
(** Bound on the depth of the recursion of HashToCurve. *)
Variable fuel : nat.

(** supported_hashes.py 35-37, indexed as the C++ enum. *)
Definition py_hash_len (h : Z) : Z := if h =? 0 then 256 else if h =? 1 then 384 else 512.
Definition py_digest (h : Z) : bytes -> bytes := if h =? 0 then sha256 X else if h =? 1 then sha384 X else sha512 X.
(** elliptic_curve.py 227-228: the hash type when none is given. *)
Definition py_default_hash : Z := 2.

(** elliptic_curve.py 43-65 FromPoint: EC_POINT_set_affine_coordinates_GFp refuses coordinates off the curve; line 64 asks again. The
    coordinates are numbers that Python hands to OpenSSL. *)
Definition py_from_point (x y : Z) : outcome (pt C) :=
  let* bx := long_to_bn x in
  let* by_ := long_to_bn y in
  match ec_of_xy C bx by_ with
  | None => Err Internal
  | Some P => if is_inf C P then Err InvalidArgument else Ok P
  end.

(** elliptic_curve.py 282-310 HashToCurve, with 278-280 ComputeYSquare and ssl_util.py 1002-1003 ModNegate (the modulus minus the residue). *)
Fixpoint py_hash_to_curve (h : Z) (n : nat) (m : message) : outcome (Z * Z) :=
  match n with
  | O => Diverge
  | S k =>
      let* x := py_random_oracle (py_hash_len h) (py_digest h) m (ec_p C) in
      let y2 := (x ^ 3 + ec_a C * x + ec_b C) mod ec_p C in
      let* e := bn_mod_exp y2 (Z.shiftr (ec_p C - 1) 1) (ec_p C) in
      if bn_to_long e =? 1 then
        let* n2 := long_to_bn y2 in
        let r := sqrt_p n2 in
        if is_bit_set r 0 then Ok (x, bn_to_long (ec_p C - r mod ec_p C)) else Ok (x, bn_to_long r)
      else py_hash_to_curve h k (MInt x)
  end.
(** elliptic_curve.py 252-254 GetPointByHashingToCurve. *)
Definition py_hash_point (h : Z) (m : message) : outcome (pt C) :=
  let* xy := py_hash_to_curve h fuel m in py_from_point (fst xy) (snd xy).
(** elliptic_curve.py 68-95 FromLongOrBytes: line 84 asserts that OpenSSL decodes the bytes, line 94 refuses infinity. *)
Definition py_point (m : message) : outcome (pt C) :=
  let* s := message_bytes m in
  match decode s with
  | None => Err Internal
  | Some P => if is_inf C P then Err InvalidArgument else Ok P
  end.
(** elliptic_curve.py 186-199 GetAsBytes: OpenSSL writes one zero byte for the point at infinity. *)
Definition py_encoded (P : pt C) : bytes := if is_inf C P then [x00] else ec_enc C P.

(** elliptic_curve.py 330-359, ECKey. *)
Record py_cipher := { pc_key : Z; pc_inv : Z; pc_hash : Z }.
(** elliptic_curve.py 333-359 with ec_cipher.py 31-53: key bytes that are empty count as not given (line 343), and a key is drawn by OpenSSL
    from [1, order); given bytes are not checked. ModInverse (ssl_util.py 942-952) raises ValueError when there is no inverse. The hash type is
    the default when not given. EC_KEY_set_private_key stores any number. *)
Definition py_new (key_bytes : option bytes) (raw : Z) (hash_type : option Z) : outcome py_cipher :=
  let given := match key_bytes with Some (b :: s) => Some (b :: s) | _ => None end in
  let k := match given with Some s => of_bytes s | None => 1 + raw mod (ec_order C - 1) end in
  let* inv := bn_mod_inverse (of_bytes (bn_to_bytes k)) (ec_order C) in
  Ok {| pc_key := k; pc_inv := inv; pc_hash := match hash_type with Some h => h | None => py_default_hash end |}.
(** elliptic_curve.py 368-370 priv_key_bytes. *)
Definition py_key_bytes (c : py_cipher) : bytes := bn_to_bytes (pc_key c).

(** ec_cipher.py 72-82 EncryptPoint with elliptic_curve.py 145-156: the multiplication is in place. Returns the new value of the caller's point
    and the bytes. *)
Definition py_encrypt_point (c : py_cipher) (P : pt C) : pt C * bytes :=
  let Q := point_mul C P (pc_key c) in (Q, py_encoded Q).
(** ec_cipher.py 55-70 Encrypt. *)
Definition py_encrypt (c : py_cipher) (m : bytes) : outcome bytes :=
  let* P := py_hash_point (pc_hash c) (MBytes m) in Ok (snd (py_encrypt_point c P)).
(** ec_cipher.py 84-97 ReEncrypt. *)
Definition py_reencrypt (c : py_cipher) (s : bytes) : outcome bytes :=
  let* P := py_point (MBytes s) in Ok (snd (py_encrypt_point c P)).
(** ec_cipher.py 107-128 DecryptReEncryptedId. *)
Definition py_decrypt (c : py_cipher) (s : bytes) : outcome bytes :=
  let* P := py_point (MBytes s) in Ok (py_encoded (point_mul C P (pc_inv c))).
End Python.
