(** Model of crypto/big_num.{h,cc}: BigNum is an immutable integer, modelled by [Z].
    BoringSSL's BN_* functions are taken to compute exact integer arithmetic; calls that return an error
    inside CRYPTO_CHECK are [Crash]. *)
From Verif Require Import Base.
From Coq Require Import Zpow_facts Znumtheory.

(** big_num.cc:121 BitLength = BN_num_bits: bit length of the absolute value, 0 for 0. *)
Definition bit_length (x : Z) : Z := if x =? 0 then 0 else Z.log2 (Z.abs x) + 1.

(** BN_num_bytes (openssl): bytes needed for the absolute value. *)
Definition num_bytes (x : Z) : nat := Z.to_nat ((bit_length x + 7) / 8).

(** BN_bn2bin: [len] big-endian bytes of a non-negative number. *)
Fixpoint bn2bin (len : nat) (x : Z) : bytes :=
  match len with
  | O => []
  | S k => zb (x / 256 ^ Z.of_nat k) :: bn2bin k x
  end.

(** BN_bin2bn; big_num.cc:74-84 constructors from bytes, context.cc:51 CreateBigNum(bytes). *)
Definition of_bytes (s : bytes) : Z := fold_left (fun acc b => acc * 256 + bz b) s 0.

(** big_num.cc:100-107 ToBytes. *)
Definition to_bytes (x : Z) : outcome bytes :=
  if x <? 0 then Crash else Ok (bn2bin (num_bytes x) x).

(** big_num.cc:109-115 ToIntValue: BN_get_u64 looks at the absolute value only. *)
Definition to_int_value (x : Z) : outcome Z :=
  if bit_length x <=? 64 then Ok (Z.abs x) else Err InvalidArgument.

(** big_num.cc:138 IsNonNegative. *)
Definition is_non_negative (x : Z) : bool := negb (x <? 0).

(** big_num.cc:140-147 GetLastNBits (BN_mask_bits keeps the low n bits of the absolute value and the sign). *)
Definition get_last_n_bits (x n : Z) : Z := Z.sgn x * (Z.abs x mod 2 ^ n).

(** big_num.cc:149 IsBitSet on the absolute value. *)
Definition is_bit_set (x n : Z) : bool := Z.testbit (Z.abs x) n.

(** big_num.cc:177-187 Div: BN_div truncates towards zero; aborts on zero divisor or non-zero remainder. *)
Definition bn_div (a b : Z) : outcome Z :=
  if b =? 0 then Crash else if Z.rem a b =? 0 then Ok (Z.quot a b) else Crash.

(** big_num.cc:189-197 DivAndTruncate. *)
Definition bn_div_trunc (a b : Z) : outcome Z :=
  if b =? 0 then Crash else Ok (Z.quot a b).

(** big_num.cc:203-208 Exp (BN_exp uses only the magnitude bits of the exponent;
    every caller passes a non-negative one). *)
Definition bn_exp (a e : Z) : Z := a ^ Z.abs e.

(** big_num.cc:210-214 Mod = BN_nnmod: representative in [0,|m|). *)
Definition bn_mod (a m : Z) : outcome Z := if m =? 0 then Crash else Ok (a mod Z.abs m).

(** big_num.cc:216-235, 246-250: ModAdd, ModSub, ModMul, ModSqr. *)
Definition bn_mod_add (a b m : Z) : outcome Z := bn_mod (a + b) m.
Definition bn_mod_sub (a b m : Z) : outcome Z := bn_mod (a - b) m.
Definition bn_mod_mul (a b m : Z) : outcome Z := bn_mod (a * b) m.
Definition bn_mod_sqr (a m : Z) : outcome Z := bn_mod (a * a) m.

(** big_num.cc:237-244 ModExp: aborts on a negative exponent; BoringSSL's BN_mod_exp rejects a
    non-positive modulus.  [Zpow_mod] is stdlib square-and-multiply. *)
Definition bn_mod_exp (a e m : Z) : outcome Z :=
  if e <? 0 then Crash else if m <=? 0 then Crash else Ok (Zpow_mod a e m mod m).

(** Extended Euclid: [egcd f a b = (g,x,y)] with a*x + b*y = g. *)
Fixpoint egcd (fuel : nat) (a b : Z) : Z * Z * Z :=
  match fuel with
  | O => (a, 1, 0)
  | S f => if b =? 0 then (a, 1, 0)
           else let '(g, x, y) := egcd f b (a mod b) in (g, y, x - (a / b) * y)
  end.
Definition egcd_fuel (b : Z) : nat := Z.to_nat (2 * Z.log2 b + 4).

(** big_num.cc:252-259 ModInverse: InvalidArgument when there is no inverse. *)
Definition bn_mod_inverse (a m : Z) : outcome Z :=
  if m <=? 0 then Err InvalidArgument else
  let '(g, x, _) := egcd (egcd_fuel m) (a mod m) m in
  if g =? 1 then Ok (x mod m) else Err InvalidArgument.

(** big_num.cc:268-273 ModNegate. *)
Definition bn_mod_negate (a m : Z) : outcome Z :=
  if a =? 0 then Ok a else let* r := bn_mod a m in Ok (m - r).

(** big_num.cc:275-285 Lshift / Rshift: shifts of the magnitude; a negative shift makes BN_*shift fail. *)
Definition bn_lshift (a n : Z) : outcome Z := if n <? 0 then Crash else Ok (a * 2 ^ n).
Definition bn_rshift (a n : Z) : outcome Z := if n <? 0 then Crash else Ok (Z.quot a (2 ^ n)).

(** big_num.cc:287-291 Gcd. *)
Definition bn_gcd (a b : Z) : Z := Z.gcd a b.
