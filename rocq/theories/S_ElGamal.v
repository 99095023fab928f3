(** Specification of ElGamal: what any expression over ciphertexts should decrypt to. *)
From Verif Require Import Base M_EC M_ElGamal.

(** The ways to obtain a ciphertext under one public key, and the plaintext each stands for. *)
Inductive expr (C : ec) :=
| EEnc (m : pt C) (raw : Z)
| EZero
| EMul (a b : expr C)
| EExp (a : expr C) (k : Z)
| ERand (a : expr C) (raw : Z).
Arguments EEnc {C}. Arguments EZero {C}. Arguments EMul {C}. Arguments EExp {C}. Arguments ERand {C}.
Fixpoint plain {C : ec} (e : expr C) : pt C :=
  match e with
  | EEnc m _ => m
  | EZero => pinf C
  | EMul a b => padd C (plain a) (plain b)
  | EExp a k => pmul C k (plain a)
  | ERand a _ => plain a
  end.
(** The library calls. *)
Fixpoint run {C : ec} (pk : eg_public C) (e : expr C) : eg_ct C :=
  match e with
  | EEnc m raw => eg_encrypt C pk m raw
  | EZero => eg_zero C
  | EMul a b => eg_mul C (run pk a) (run pk b)
  | EExp a k => eg_exp C (run pk a) k
  | ERand a raw => eg_rerandomize C pk (run pk a) raw
  end.

(** Partial decryption by several share holders, one after the other. *)
Definition partial_all (C : ec) (xs : list Z) (c : eg_ct C) : eg_ct C := fold_left (fun c x => eg_partial C x c) xs c.
