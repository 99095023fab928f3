(** Models crypto/elgamal.{h,cc}, crypto/commutative_elgamal.{h,cc} and util/elgamal_proto_util.cc, elgamal_key_util.cc, ec_key_util.cc.
    Simplification: group operations (EC_POINT_add, EC_POINT_mul, EC_POINT_copy) do not fail. *)
From Verif Require Import Base M_BigNum M_EC.

Section ElGamal.
Variable C : ec.

(** elgamal.h PublicKey, PrivateKey, Ciphertext. *)
Record eg_public := { eg_g : pt C; eg_y : pt C }.
Record eg_ct := { eg_u : pt C; eg_e : pt C }.

(** elgamal.cc 35-53 GenerateKeyPair, from the entropy of the private key. *)
Definition eg_generate (raw : Z) : eg_public * Z :=
  let x := generate_private_key C raw in ({| eg_g := pgen C; eg_y := point_mul C (pgen C) x |}, x).

(** elgamal.cc 69-77: the loop over the remaining shares; the CHECK aborts on different generators. *)
Fixpoint eg_shares_loop (g y : pt C) (shares : list eg_public) : outcome (pt C) :=
  match shares with
  | [] => Ok y
  | s :: rest => if negb (peqb C g (eg_g s)) then Crash else eg_shares_loop g (padd C y (eg_y s)) rest
  end.
(** elgamal.cc 55-79 GeneratePublicKeyFromShares. *)
Definition eg_combine (shares : list eg_public) : outcome eg_public :=
  match shares with
  | [] => Err InvalidArgument
  | s :: rest => let* y := eg_shares_loop (eg_g s) (eg_y s) rest in Ok {| eg_g := eg_g s; eg_y := y |}
  end.

(** elgamal.cc 81-93 Mul. *)
Definition eg_mul (a b : eg_ct) : eg_ct := {| eg_u := padd C (eg_u a) (eg_u b); eg_e := padd C (eg_e a) (eg_e b) |}.
(** elgamal.cc 95-106 Exp. *)
Definition eg_exp (a : eg_ct) (k : Z) : eg_ct := {| eg_u := point_mul C (eg_u a) k; eg_e := point_mul C (eg_e a) k |}.
(** elgamal.cc 108-118 GetZero, 120-130 CloneCiphertext, 132-134 IsCiphertextZero. *)
Definition eg_zero : eg_ct := {| eg_u := pinf C; eg_e := pinf C |}.
Definition eg_clone (a : eg_ct) : eg_ct := a.
Definition eg_is_zero (a : eg_ct) : bool := is_inf C (eg_u a) && is_inf C (eg_e a).

(** elgamal.cc 148-165 ElGamalEncrypter::Encrypt; [raw] is the entropy of the exponent. *)
Definition eg_encrypt (pk : eg_public) (m : pt C) (raw : Z) : eg_ct :=
  let r := generate_private_key C raw in
  {| eg_u := point_mul C (eg_g pk) r; eg_e := padd C m (point_mul C (eg_y pk) r) |}.
(** elgamal.cc 167-188 ReRandomize. *)
Definition eg_rerandomize (pk : eg_public) (c : eg_ct) (raw : Z) : eg_ct :=
  let r := generate_private_key C raw in
  {| eg_u := padd C (eg_u c) (point_mul C (eg_g pk) r); eg_e := padd C (eg_e c) (point_mul C (eg_y pk) r) |}.
(** elgamal.cc 198-213 Decrypt. *)
Definition eg_decrypt (x : Z) (c : eg_ct) : pt C := padd C (eg_e c) (pneg C (point_mul C (eg_u c) x)).
(** elgamal.cc 215-226 PartialDecrypt. *)
Definition eg_partial (x : Z) (c : eg_ct) : eg_ct := {| eg_u := eg_u c; eg_e := eg_decrypt x c |}.

(** ** commutative_elgamal.cc: the same scheme on encoded points. *)

(** The members: public key and, if known, private key. *)
Record ceg := { ceg_pub : eg_public; ceg_priv : option Z }.

(** commutative_elgamal.cc 48-57 CreateWithNewKeyPair (the group created). *)
Definition ceg_new (raw : Z) : ceg := let (pk, x) := eg_generate raw in {| ceg_pub := pk; ceg_priv := Some x |}.
(** commutative_elgamal.cc 59-73 CreateFromPublicKey. *)
Definition ceg_from_public (b : bytes * bytes) : outcome ceg :=
  let* g := point_of_bytes C (fst b) in
  let* y := point_of_bytes C (snd b) in
  Ok {| ceg_pub := {| eg_g := g; eg_y := y |}; ceg_priv := None |}.
(** commutative_elgamal.cc 75-103 CreateFromPublicAndPrivateKeys. *)
Definition ceg_from_keys (b : bytes * bytes) (xb : bytes) : outcome ceg :=
  let* g := point_of_bytes C (fst b) in
  let* y := point_of_bytes C (snd b) in
  let x := of_bytes xb in
  if negb (peqb C y (point_mul C g x)) then Err InvalidArgument
  else Ok {| ceg_pub := {| eg_g := g; eg_y := y |}; ceg_priv := Some x |}.

Definition ct_to_bytes (c : eg_ct) : outcome (bytes * bytes) :=
  let* u := point_to_bytes C (eg_u c) in
  let* e := point_to_bytes C (eg_e c) in
  Ok (u, e).
(** commutative_elgamal.cc 105-117 Encrypt. *)
Definition ceg_encrypt (k : ceg) (plaintext : bytes) (raw : Z) : outcome (bytes * bytes) :=
  let* m := point_of_bytes C plaintext in ct_to_bytes (eg_encrypt (ceg_pub k) m raw).
(** commutative_elgamal.cc 119-130 EncryptIdentityElement. *)
Definition ceg_encrypt_identity (k : ceg) (raw : Z) : outcome (bytes * bytes) := ct_to_bytes (eg_encrypt (ceg_pub k) (pinf C) raw).
(** commutative_elgamal.cc 132-152 Decrypt. *)
Definition ceg_decrypt (k : ceg) (ct : bytes * bytes) : outcome bytes :=
  match ceg_priv k with
  | None => Err InvalidArgument
  | Some x =>
      let* u := point_of_bytes C (fst ct) in
      let* e := point_of_bytes C (snd ct) in
      point_to_bytes C (eg_decrypt x {| eg_u := u; eg_e := e |})
  end.
(** commutative_elgamal.cc 154-161 GetPublicKeyBytes. *)
Definition ceg_public_bytes (k : ceg) : outcome (bytes * bytes) :=
  let* g := point_to_bytes C (eg_g (ceg_pub k)) in
  let* y := point_to_bytes C (eg_y (ceg_pub k)) in
  Ok (g, y).
(** commutative_elgamal.cc 163-169 GetPrivateKeyBytes. *)
Definition ceg_private_bytes (k : ceg) : outcome bytes :=
  match ceg_priv k with None => Err InvalidArgument | Some x => to_bytes x end.

(** ** util/elgamal_proto_util.cc; a proto is the record of its fields. *)

(** elgamal_proto_util.cc 25-35 SerializePublicKey. *)
Definition eg_public_to_proto (pk : eg_public) : outcome (bytes * bytes) :=
  let* g := point_to_bytes C (eg_g pk) in
  let* y := point_to_bytes C (eg_y pk) in
  Ok (g, y).
(** elgamal_proto_util.cc 37-47 SerializeCiphertext. *)
Definition eg_ct_to_proto (c : eg_ct) : outcome (bytes * bytes) := ct_to_bytes c.
(** elgamal_proto_util.cc 49-54 SerializePrivateKey and 66-70 DeserializePrivateKey. *)
Definition eg_private_to_proto (x : Z) : outcome bytes := to_bytes x.
Definition eg_private_of_proto (b : bytes) : Z := of_bytes b.
(** elgamal_proto_util.cc 56-64 DeserializePublicKey. *)
Definition eg_public_of_proto (p : bytes * bytes) : outcome eg_public :=
  let* g := point_of_bytes C (fst p) in
  let* y := point_of_bytes C (snd p) in
  Ok {| eg_g := g; eg_y := y |}.
(** elgamal_proto_util.cc 72-80 DeserializeCiphertext. *)
Definition eg_ct_of_proto (p : bytes * bytes) : outcome eg_ct :=
  let* u := point_of_bytes C (fst p) in
  let* e := point_of_bytes C (snd p) in
  Ok {| eg_u := u; eg_e := e |}.

(** ** util/ec_key_util.cc 25-43: an EC key proto is (curve id, key bytes). *)
Definition ec_key_proto (curve_id raw : Z) : outcome (Z * bytes) :=
  let* b := to_bytes (generate_private_key C raw) in Ok (curve_id, b).
Definition deserialize_ec_key (curve_id : Z) (p : Z * bytes) : outcome Z :=
  if negb (curve_id =? fst p) then Err InvalidArgument else Ok (of_bytes (snd p)).
End ElGamal.
