(** Elliptic-curve groups and points: models the interface of crypto/ec_point.cc and the group operations of
    crypto/ec_group.cc. The arithmetic itself is BoringSSL's and is external: a curve is any record of operations
    ([ec]); the mathematical facts the theorems need about it are the explicit hypothesis [ec_laws]. [L_Toy] builds a
    real curve satisfying them. *)
From Coq Require Import Znumtheory.
From Verif Require Import Base M_BigNum.

(** An EC_GROUP with the operations the code calls. [ec_xy] is EC_POINT_get_affine_coordinates ([None] for infinity);
    [ec_of_xy] is the point constructor with its on-curve check; [ec_enc]/[ec_dec] are EC_POINT_point2oct (compressed)
    and EC_POINT_oct2point (which may also accept other encodings and may yield infinity). *)
Record ec := {
  pt : Type;
  peqb : pt -> pt -> bool;
  padd : pt -> pt -> pt;
  pneg : pt -> pt;
  pinf : pt;
  pgen : pt;
  ec_order : Z;
  ec_p : Z; ec_a : Z; ec_b : Z;
  ec_xy : pt -> option (Z * Z);
  ec_of_xy : Z -> Z -> option pt;
  ec_enc : pt -> bytes;
  ec_dec : bytes -> option pt }.

(** Scalar multiplication by repeated addition. *)
Definition pmul (C : ec) (k : Z) (P : pt C) : pt C :=
  match k with
  | Z0 => pinf C
  | Zpos n => Pos.iter_op (padd C) n P
  | Zneg n => pneg C (Pos.iter_op (padd C) n P)
  end.

(** A curve over the prime field F_p whose points form a group of prime order generated by [pgen]
    (ec_group.cc 132-153: the named curves supported have cofactor one). *)
Record ec_laws (C : ec) : Prop := {
  peqb_spec : forall P Q, peqb C P Q = true <-> P = Q;
  padd_assoc : forall P Q R, padd C P (padd C Q R) = padd C (padd C P Q) R;
  padd_comm : forall P Q, padd C P Q = padd C Q P;
  padd_inf : forall P, padd C (pinf C) P = P;
  padd_neg : forall P, padd C P (pneg C P) = pinf C;
  order_prime : prime (ec_order C);
  order_gen : pmul C (ec_order C) (pgen C) = pinf C;
  gen_not_inf : pgen C <> pinf C;
  gen_generates : forall P, exists k, P = pmul C k (pgen C);
  p_prime : prime (ec_p C);
  p_odd : 3 < ec_p C;
  xy_inf : forall P, ec_xy C P = None <-> P = pinf C;
  xy_of : forall x y P, ec_of_xy C x y = Some P <-> ec_xy C P = Some (x, y);
  xy_curve : forall P x y, ec_xy C P = Some (x, y) ->
    0 <= x < ec_p C /\ 0 <= y < ec_p C /\ (y * y) mod ec_p C = (x * x * x + ec_a C * x + ec_b C) mod ec_p C;
  of_xy_curve : forall x y, 0 <= x < ec_p C -> 0 <= y < ec_p C ->
    (y * y) mod ec_p C = (x * x * x + ec_a C * x + ec_b C) mod ec_p C -> exists P, ec_of_xy C x y = Some P;
  enc_dec : forall P, P <> pinf C -> ec_dec C (ec_enc C P) = Some P }.

(** ec_point.cc 138-140 IsPointAtInfinity. *)
Definition is_inf (C : ec) (P : pt C) : bool := peqb C P (pinf C).

(** ec_point.cc 49-59 ToBytesCompressed: EC_POINT_point2oct fails on the point at infinity. *)
Definition point_to_bytes (C : ec) (P : pt C) : outcome bytes :=
  if is_inf C P then Err Internal else Ok (ec_enc C P).

(** ec_group.cc 358-379 CreateECPoint(bytes). *)
Definition point_of_bytes (C : ec) (s : bytes) : outcome (pt C) :=
  match ec_dec C s with
  | None => Err InvalidArgument
  | Some P => if is_inf C P then Err InvalidArgument else Ok P
  end.

(** ec_point.cc 91-99 Mul: EC_POINT_mul reduces the scalar modulo the group order. *)
Definition point_mul (C : ec) (P : pt C) (k : Z) : pt C := pmul C (k mod ec_order C) P.

(** ec_group.cc 155-157 GeneratePrivateKey: GenerateRandBetween(1, order), from raw entropy [r]. *)
Definition generate_private_key (C : ec) (r : Z) : Z := 1 + r mod (ec_order C - 1).

(** ec_group.cc 159-165 CheckPrivateKey: ok iff 0 < key < order. *)
Definition check_private_key (C : ec) (k : Z) : outcome unit :=
  if (0 <? k) && (k <? ec_order C) then Ok tt else Err InvalidArgument.
