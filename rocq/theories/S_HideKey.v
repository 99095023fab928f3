(** What a fresh key, and a fresh exponent, should hide. *)
From Verif Require Import Base M_EC M_Group M_Cipher.

(** A cipher with a new key encrypts one identifier, or re-encrypts one received point. *)
Definition encrypt_fresh (C : ec) X sqrt_p sswu fuel (hash_type : Z) (m : bytes) (raw : Z) : outcome bytes :=
  let* c := cipher_new C raw hash_type in cipher_encrypt C X sqrt_p sswu fuel c m.
Definition reencrypt_fresh (C : ec) (hash_type : Z) (s : bytes) (raw : Z) : outcome bytes :=
  let* c := cipher_new C raw hash_type in cipher_reencrypt C c s.
(** The same key for a list of identifiers. *)
Definition encrypt_list_fresh (C : ec) X sqrt_p sswu fuel (hash_type : Z) (ms : list bytes) (raw : Z) : outcome (list bytes) :=
  let* c := cipher_new C raw hash_type in
  fold_right (fun m acc => let* s := cipher_encrypt C X sqrt_p sswu fuel c m in let* l := acc in Ok (s :: l)) (Ok []) ms.
(** The first draw. *)
Definition draw (ds : list Z) : Z := nth 0 ds 0.
