(** Numeric helpers: models crypto/context.cc (random oracle, PRF, random numbers), crypto/two_modulus_crt.cc,
    crypto/mont_mul.{h,cc}, crypto/fixed_base_exp.cc. *)
From Verif Require Import Base M_BigNum.

(** ** context.cc *)

Section Hash.
(** [H] is the digest function selected by the hash type (Sha256String, Sha384String or Sha512String), of
    [hash_len] bits. External (BoringSSL EVP). *)
Variable hash_len : Z.
Variable H : bytes -> bytes.

(** context.cc 104-106: iteration count, ceil(output_bits / hash_len). Simplification: the division is done in float;
    operands are below 2^24, the divisors are 256, 384 and 512, and the result is exact or at least 1/384 away from an
    integer, so the float computation gives the exact ceiling whenever the CHECK of line 107 passes. *)
Definition ro_iterations (output_bits : Z) : Z := (output_bits + hash_len - 1) / hash_len.

(** context.cc 113-126, the loop body from counter [i] on. *)
Fixpoint ro_loop (n : nat) (i : Z) (x : bytes) (acc : Z) : outcome Z :=
  match n with
  | O => Ok acc
  | S k =>
      let* acc1 := bn_lshift acc hash_len in
      let* ib := to_bytes i in
      ro_loop k (i + 1) x (acc1 + of_bytes (H (ib ++ x)))
  end.

(** context.cc 96-128 RandomOracle. *)
Definition random_oracle (x : bytes) (max_value : Z) : outcome Z :=
  let output_bits := bit_length max_value + hash_len in
  let iter := ro_iterations output_bits in
  if negb (iter * hash_len <? 130048) then Crash
  else
    let excess := iter * hash_len - output_bits in
    let* out := ro_loop (Z.to_nat iter) 1 x 0 in
    let* r := bn_rshift out excess in
    bn_mod r max_value.
End Hash.

Section Prf.
(** [mac key data]: HMAC-SHA512 (BoringSSL), 64 bytes. *)
Variable mac : bytes -> bytes -> bytes.

(** context.cc 144-167 PRF; the recursion is unbounded, [fuel] bounds the number of rejections. *)
Fixpoint prf (fuel : nat) (key data : bytes) (max_value : Z) : outcome Z :=
  match fuel with
  | O => Diverge
  | S k =>
      if Z.of_nat (length key) * 8 <? 80 then Crash
      else if 512 <? bit_length max_value then Crash
      else
        let hash_bn := of_bytes (mac key data) in
        let reduced := get_last_n_bits hash_bn (bit_length max_value) in
        if reduced <? max_value then Ok reduced
        else let* d := to_bytes hash_bn in prf k key d max_value
  end.
End Prf.

(** context.cc 183-187 GenerateRandLessThan: BN_rand_range fails for a non-positive range; otherwise a value in
    [0,max), selected by the entropy [raw]. *)
Definition generate_rand_less_than (max_value raw : Z) : outcome Z :=
  if max_value <=? 0 then Crash else Ok (raw mod max_value).

(** context.cc 189-192 GenerateRandBetween. *)
Definition generate_rand_between (start stop raw : Z) : outcome Z :=
  if start <? stop then let* r := generate_rand_less_than (stop - start) raw in Ok (r + start) else Crash.

(** context.cc 202-208 RelativelyPrimeRandomLessThan; [raws] is the entropy of successive draws. *)
Fixpoint relatively_prime_random (raws : list Z) (num : Z) : outcome Z :=
  match raws with
  | [] => Diverge
  | raw :: rest =>
      let* r := generate_rand_less_than num raw in
      if 1 <? bn_gcd r num then relatively_prime_random rest num else Ok r
  end.

(** ** two_modulus_crt.cc *)

Record crt := { crt_term1 : Z; crt_term2 : Z; crt_product : Z }.

(** two_modulus_crt.cc 20-24, the constructor (.value() aborts when there is no inverse). *)
Definition crt_create (coprime1 coprime2 : Z) : outcome crt :=
  let* i1 := value_or_crash (bn_mod_inverse coprime2 coprime1) in
  let* i2 := value_or_crash (bn_mod_inverse coprime1 coprime2) in
  Ok {| crt_term1 := coprime2 * i1; crt_term2 := coprime1 * i2; crt_product := coprime1 * coprime2 |}.

(** two_modulus_crt.cc 26-30 Compute. *)
Definition crt_compute (c : crt) (solution1 solution2 : Z) : outcome Z :=
  bn_mod (solution1 * crt_term1 c + solution2 * crt_term2 c) (crt_product c).

(** ** mont_mul.cc *)

(** BN_MONT_CTX: R = 2^(64 * words of the modulus) and its inverse modulo the modulus. *)
Record mont_ctx := { mc_modulus : Z; mc_R : Z; mc_Rinv : Z }.

(** mont_mul.cc 110-116 MontContext(): BN_MONT_CTX_set rejects even and non-positive moduli. *)
Definition mont_context (modulus : Z) : outcome mont_ctx :=
  if modulus <=? 0 then Crash
  else if Z.even modulus then Crash
  else
    let R := 2 ^ (64 * ((bit_length modulus + 63) / 64)) in
    let* ri := value_or_crash (bn_mod_inverse R modulus) in
    Ok {| mc_modulus := modulus; mc_R := R; mc_Rinv := ri |}.

(** mont_mul.cc 98-105 CreateMontBigNum(BigNum): CHECK(big_num < modulus); BoringSSL rejects negative operands. The
    result is the number kept inside the MontBigNum. *)
Definition mont_create (c : mont_ctx) (x : Z) : outcome Z :=
  if negb (x <? mc_modulus c) then Crash
  else if x <? 0 then Crash
  else Ok ((x * mc_R c) mod mc_modulus c).

(** mont_mul.cc 62-68 MulInPlace = BN_mod_mul_montgomery, for reduced operands. (The CHECK that both operands come from
    the same context is not modelled: operations take the context once.) *)
Definition mont_mul (c : mont_ctx) (a b : Z) : Z := (a * b * mc_Rinv c) mod mc_modulus c.

(** mont_mul.cc 85-92 ToBigNum = BN_from_montgomery. *)
Definition mont_to_bignum (c : mont_ctx) (a : Z) : Z := (a * mc_Rinv c) mod mc_modulus c.

(** mont_mul.cc 77-82 ToBytes and 107-109 CreateMontBigNum(bytes). *)
Definition mont_to_bytes (a : Z) : outcome bytes := to_bytes a.
Definition mont_of_bytes (s : bytes) : Z := of_bytes s.

(** ** fixed_base_exp.cc *)

(** fixed_base_exp.cc 71-81 SimpleBaseExpImpl::ModExp. *)
Definition simple_mod_exp (base modulus exp : Z) : outcome Z := bn_mod_exp base exp modulus.

Record two_k_ary := { tk_ctx : mont_ctx; tk_cache : list Z }.

(** fixed_base_exp.cc 96-99: append [n] further powers. *)
Fixpoint tk_fill (n : nat) (c : mont_ctx) (g : Z) (last : Z) : list Z :=
  match n with
  | O => []
  | S k => let nx := mont_mul c last g in nx :: tk_fill k c g nx
  end.

(** fixed_base_exp.cc 90-100 TwoKAryFixedBaseExpImpl(). *)
Definition tk_create (base modulus : Z) : outcome two_k_ary :=
  let* c := mont_context modulus in
  let* one := mont_create c 1 in
  let* g := mont_create c base in
  Ok {| tk_ctx := c; tk_cache := one :: g :: tk_fill (Z.to_nat 256) c g g |}.

(** fixed_base_exp.cc 117-119: eight squarings. *)
Fixpoint tk_square (n : nat) (c : mont_ctx) (z : Z) : Z :=
  match n with O => z | S k => tk_square k c (mont_mul c z z) end.

(** fixed_base_exp.cc 116-121: the loop over the bytes of the exponent; an index outside the cache is undefined. *)
Fixpoint tk_loop (t : two_k_ary) (values : bytes) (z : Z) : outcome Z :=
  match values with
  | [] => Ok z
  | b :: rest =>
      match nth_error (tk_cache t) (Z.to_nat (bz b)) with
      | Some e => tk_loop t rest (mont_mul (tk_ctx t) (tk_square 8 (tk_ctx t) z) e)
      | None => UB
      end
  end.

(** fixed_base_exp.cc 113-123 TwoKAryFixedBaseExpImpl::ModExp. *)
Definition tk_mod_exp (t : two_k_ary) (exp : Z) : outcome Z :=
  match nth_error (tk_cache t) 0 with
  | None => UB
  | Some z0 =>
      let* values := to_bytes exp in
      let* z := tk_loop t values z0 in
      Ok (mont_to_bignum (tk_ctx t) z)
  end.

(** fixed_base_exp.cc 138-144 FixedBaseExp::ModExp and 146-156 GetFixedBaseExp (the flag chooses the implementation). *)
Definition fixed_base_exp (two_k_ary_flag : bool) (base modulus exp : Z) : outcome Z :=
  if two_k_ary_flag then
    let* t := tk_create base modulus in
    if negb (is_non_negative exp) then Err InvalidArgument else tk_mod_exp t exp
  else
    if negb (is_non_negative exp) then Err InvalidArgument else simple_mod_exp base modulus exp.
