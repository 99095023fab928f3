(** Models the rest of crypto/ec_group.cc and crypto/ec_point_util.cc: hashing to the curve, padding messages into points, validity checks.
    External: the digest functions, BN_mod_sqrt (a square root modulo p; which of the two is not specified) and BoringSSL's SSWU maps. *)
From Verif Require Import Base M_BigNum M_Num M_EC.

Section Group.
Variable C : ec.
(** BN_mod_sqrt modulo the field prime, called only on squares. *)
Variable sqrt_p : Z -> Z.

(** ec_group.cc 305-308 ComputeYSquare. *)
Definition compute_y_square (x : Z) : outcome Z := bn_mod (bn_exp x 3 + ec_a C * x + ec_b C) (ec_p C).
(** ec_group.cc 326-328 IsSquare with 115-118 GetPMinusOneOverTwo. *)
Definition is_square (q : Z) : outcome bool :=
  let* h := bn_div (ec_p C - 1) 2 in
  let* r := bn_mod_exp q h (ec_p C) in
  Ok (r =? 1).
(** ec_group.cc 348-356 CreateECPoint(x, y): the ECPoint constructor (ec_point.cc 35-42) aborts when BoringSSL refuses the coordinates, which
    it does for points not on the curve; an affine point is not infinity. *)
Definition point_of_xy (x y : Z) : outcome (pt C) := match ec_of_xy C x y with Some P => Ok P | None => Crash end.

(** ec_group.cc 167-179 GetPointByHashingToCurveInternal. *)
Definition map_x (x : Z) : outcome (pt C) :=
  let* mod_x := bn_mod x (ec_p C) in
  let* y2 := compute_y_square mod_x in
  let* sq := is_square y2 in
  if sq then
    let r := sqrt_p y2 in
    if is_bit_set r 0 then let* nr := bn_mod_negate r (ec_p C) in point_of_xy mod_x nr
    else point_of_xy mod_x r
  else Err Internal.

(** ec_group.cc 181-215 GetPointByHashingToCurveSha256/384/512: the loop, from candidate [x]; [ro] is the random oracle of the hash type. *)
Fixpoint hash_loop (ro : bytes -> outcome Z) (fuel : nat) (x : Z) : outcome (pt C) :=
  match fuel with
  | O => Diverge
  | S k =>
      match map_x x with
      | Ok P => Ok P
      | Err _ => let* b := to_bytes x in let* x' := ro b in hash_loop ro k x'
      | Crash => Crash
      | UB => UB
      | Diverge => Diverge
      end
  end.
Definition hash_to_curve (hash_len : Z) (H : bytes -> bytes) (fuel : nat) (m : bytes) : outcome (pt C) :=
  let ro b := random_oracle hash_len H b (ec_p C) in
  let* x := ro m in
  hash_loop ro fuel x.

(** ec_group.cc 217-271 GetPointByHashingToCurveSswuRo/Nu: [sswu] is the curve's map when BoringSSL has one (P-256 and P-384); a failing map
    is INTERNAL. *)
Definition sswu_to_curve (sswu : option (bytes -> bytes -> option (pt C))) (m dst : bytes) : outcome (pt C) :=
  match sswu with
  | None => Err InvalidArgument
  | Some f => match f m dst with Some P => Ok P | None => Err Internal end
  end.

(** pow(2, k) - 1 converted to uint64_t, in double arithmetic (ec_group.cc 276-277): exact up to k = 53, rounded to 2^k from 54 on; from 64 on
    the conversion is undefined. *)
Definition pad_mask (k : Z) : outcome Z :=
  if k <=? 53 then Ok (2 ^ k - 1) else if k <=? 63 then Ok (2 ^ k) else UB.
(** The number of integers i >= 0 with (double)i < 2^k (ec_group.cc 282): from k = 54 on the largest ones round up to 2^k. *)
Definition pad_tries (k : Z) : Z := if k <=? 53 then 2 ^ k else 2 ^ k - 2 ^ (k - 54).
(** ec_group.cc 282-288: the loop from [i] on. *)
Fixpoint pad_loop (cnt : nat) (i x_padded : Z) : outcome (pt C) :=
  match cnt with
  | O => Err NotFound
  | S n =>
      match map_x (x_padded + i) with
      | Ok P => Ok P
      | Err _ => pad_loop n (i + 1) x_padded
      | o => o
      end
  end.
(** ec_group.cc 273-290 GetPointByPaddingX; the bit count is a size_t. *)
Definition pad_x (m k : Z) : outcome (pt C) :=
  let* x_padded := bn_lshift m k in
  let* mask := pad_mask k in
  if ec_p C <? x_padded + mask then Err InvalidArgument
  else pad_loop (Z.to_nat (pad_tries k - 1)) 1 x_padded.
(** ec_group.cc 292-303 RecoverXFromPaddedPoint. *)
Definition recover_x (P : pt C) (k : Z) : outcome Z :=
  match ec_xy C P with
  | None => Err InvalidArgument
  | Some (x, _) => bn_rshift x k
  end.

(** ec_point_util.cc 42-45 GetRandomCurvePoint with ec_group.cc 340-346 GetRandomGenerator. *)
Definition random_point (raw : Z) : outcome bytes := point_to_bytes C (point_mul C (pgen C) (generate_private_key C raw)).
(** ec_point_util.cc 64-66 IsCurvePoint. *)
Definition is_curve_point (s : bytes) : bool := is_ok (point_of_bytes C s).
End Group.
