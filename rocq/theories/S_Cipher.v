(** Specification side of the commutative cipher: ways to obtain a cipher, and sequences of layers. *)
From Verif Require Import Base M_BigNum M_Num M_EC M_Group M_Cipher.

(** A cipher some creation function returned; a seed-derived key is included unless it is zero (see C31_seed_zero_key). *)
Definition created (C : ec) (X : externals) (c : cipher) : Prop :=
  (exists raw h, cipher_new C raw h = Ok c) \/
  (exists kb h, cipher_from_key C kb h = Ok c) \/
  (exists fuel seed tag h, cipher_from_seed C X fuel seed tag h = Ok c /\ ci_key c <> 0).

(** Adding or removing the layer of one cipher. *)
Inductive layer := Add (c : cipher) | Remove (c : cipher).
Definition layer_cipher (l : layer) : cipher := match l with Add c => c | Remove c => c end.
Definition apply_layer (C : ec) (l : layer) (s : bytes) : outcome bytes :=
  match l with Add c => cipher_reencrypt C c s | Remove c => cipher_decrypt C c s end.
Fixpoint apply_layers (C : ec) (ls : list layer) (s : bytes) : outcome bytes :=
  match ls with
  | [] => Ok s
  | l :: r => let* t := apply_layer C l s in apply_layers C r t
  end.
(** Encrypting an identifier under the first cipher and re-encrypting under the others. *)
Definition encrypt_all (C : ec) X sqrt_p sswu fuel (cs : list cipher) (m : bytes) : outcome bytes :=
  match cs with
  | [] => Err InvalidArgument
  | c :: r => let* s := cipher_encrypt C X sqrt_p sswu fuel c m in apply_layers C (map Add r) s
  end.
