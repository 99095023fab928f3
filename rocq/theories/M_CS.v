(** Models crypto/camenisch_shoup.{h,cc}: verifiable encryption of message vectors. Simplification: s is a natural number; the
    std::map of decryption precomputations is the table of M_DJ (keys (k, j) with j <= s are encoded injectively). *)
From Verif Require Import Base M_BigNum M_Num M_DJ M_Paillier M_EC M_Proto.

Section CS.
(** The command line flag selecting the fixed base exponentiation (fixed_base_exp.cc 24-26). *)
Variable two_k_ary_flag : bool.

(** camenisch_shoup.h CamenischShoupCiphertext. *)
Record cs_ciphertext := { ct_u : Z; ct_es : list Z }.

(** The members of PublicCamenischShoup; vector_encryption_length_ is ys_.size(). *)
Record cs_public := { cs_n : Z; cs_s : nat; cs_powers : list Z; cs_precomp : list Z; cs_n_to_s : Z; cs_modulus : Z; cs_g : Z; cs_ys : list Z }.
Definition cs_len (pk : cs_public) : nat := length (cs_ys pk).

(** camenisch_shoup.cc 340-358, the constructor. *)
Definition cs_public_create (n : Z) (s : nat) (g : Z) (ys : list Z) : outcome cs_public :=
  let powers := get_powers n s in
  let* modulus := vec_at powers (s + 1) in
  let* precomp := get_precomp n modulus s in
  let* n_to_s := vec_at powers s in
  let* _ := fbe_create two_k_ary_flag g modulus in
  let* _ := mapM (fun y => fbe_create two_k_ary_flag y modulus) ys in
  Ok {| cs_n := n; cs_s := s; cs_powers := powers; cs_precomp := precomp; cs_n_to_s := n_to_s; cs_modulus := modulus; cs_g := g; cs_ys := ys |}.

(** PrivateCamenischShoup has the same members and, in addition, the secret exponents and the decryption table. *)
Record cs_private := { cs_pub : cs_public; cs_xs : list Z; cs_table : table }.

(** camenisch_shoup.cc 417-440, the constructor. *)
Definition cs_private_create (n : Z) (s : nat) (g : Z) (ys xs : list Z) : outcome cs_private :=
  let powers := get_powers n s in
  let* modulus := vec_at powers (s + 1) in
  let* precomp := get_precomp n modulus s in
  let* t := get_decrypt_precomp precomp powers s in
  let* n_to_s := vec_at powers s in
  let* _ := fbe_create two_k_ary_flag g modulus in
  if negb (length ys =? length xs)%nat then Crash
  else
    let* _ := mapM (fun y => fbe_create two_k_ary_flag y modulus) ys in
    Ok {| cs_pub := {| cs_n := n; cs_s := s; cs_powers := powers; cs_precomp := precomp; cs_n_to_s := n_to_s; cs_modulus := modulus; cs_g := g; cs_ys := ys |};
          cs_xs := xs; cs_table := t |}.

(** camenisch_shoup.cc 133-145: the loop over ys, [ms] the messages not yet used. *)
Fixpoint cs_encrypt_loop (pk : cs_public) (ys ms : list Z) (r : Z) : outcome (list Z) :=
  match ys with
  | [] => Ok []
  | y :: ys' =>
      let* y_to_r := fixed_base_exp two_k_ary_flag y (cs_modulus pk) r in
      match ms with
      | m :: ms' =>
          let* x := binomial_expansion (cs_precomp pk) (cs_powers pk) m in
          let* e := bn_mod (y_to_r * x) (cs_modulus pk) in
          let* rest := cs_encrypt_loop pk ys' ms' r in
          Ok (e :: rest)
      | [] =>
          let* rest := cs_encrypt_loop pk ys' [] r in
          Ok (y_to_r :: rest)
      end
  end.

(** camenisch_shoup.cc 113-147 CommonEncryptWithRand (both classes' EncryptWithRand). *)
Definition cs_encrypt_with_rand (pk : cs_public) (ms : list Z) (r : Z) : outcome cs_ciphertext :=
  if (length (cs_ys pk) <? length ms)%nat then Err InvalidArgument
  else if negb (is_non_negative r) || (negb (bn_gcd r (cs_n pk) =? 1) && negb (r =? 0)) then Err InvalidArgument
  else
    let* u := fixed_base_exp two_k_ary_flag (cs_g pk) (cs_modulus pk) r in
    let* es := cs_encrypt_loop pk (cs_ys pk) ms r in
    Ok {| ct_u := u; ct_es := es |}.

(** camenisch_shoup.cc 149-169 CommonEncryptAndGetRand. *)
Definition cs_encrypt_and_get_rand (pk : cs_public) (ms : list Z) (raws : list Z) : outcome (cs_ciphertext * Z) :=
  if negb (forallb is_non_negative ms) then Err InvalidArgument
  else
    let* r := relatively_prime_random raws (cs_n pk) in
    let* ct := cs_encrypt_with_rand pk ms r in
    Ok (ct, r).

(** camenisch_shoup.cc 171-181 CommonEncrypt. *)
Definition cs_encrypt (pk : cs_public) (ms : list Z) (raws : list Z) : outcome cs_ciphertext :=
  let* (ct, _) := cs_encrypt_and_get_rand pk ms raws in Ok ct.

(** camenisch_shoup.cc 387-398 Add: both size checks abort. *)
Fixpoint cs_add_loop (m : Z) (a b : list Z) : outcome (list Z) :=
  match a, b with
  | x :: a', y :: b' => let* z := bn_mod_mul x y m in let* rest := cs_add_loop m a' b' in Ok (z :: rest)
  | _, _ => Ok []
  end.
Definition cs_add (pk : cs_public) (c1 c2 : cs_ciphertext) : outcome cs_ciphertext :=
  if negb (length (ct_es c1) =? length (ct_es c2))%nat then Crash
  else if negb (length (ct_es c1) =? cs_len pk)%nat then Crash
  else
    let* u := bn_mod_mul (ct_u c1) (ct_u c2) (cs_modulus pk) in
    let* es := cs_add_loop (cs_modulus pk) (ct_es c1) (ct_es c2) in
    Ok {| ct_u := u; ct_es := es |}.

(** camenisch_shoup.cc 400-409 Multiply: indexes es up to the vector length without a size check. *)
Fixpoint cs_multiply_loop (n i : nat) (m : Z) (es : list Z) (k : Z) : outcome (list Z) :=
  match n with
  | O => Ok []
  | S n' => let* e := vec_at es i in let* x := bn_mod_exp e k m in let* rest := cs_multiply_loop n' (i + 1) m es k in Ok (x :: rest)
  end.
Definition cs_multiply (pk : cs_public) (c : cs_ciphertext) (k : Z) : outcome cs_ciphertext :=
  let* u := bn_mod_exp (ct_u c) k (cs_modulus pk) in
  let* es := cs_multiply_loop (cs_len pk) 0 (cs_modulus pk) (ct_es c) k in
  Ok {| ct_u := u; ct_es := es |}.

(** camenisch_shoup.cc 510-514: for (k = 2; k <= j; k++), [cnt] iterations remaining; returns t1. *)
Fixpoint cs_inner (cnt k j : nat) (sk : cs_private) (m_j t1 t2 : Z) : outcome Z :=
  match cnt with
  | O => Ok t1
  | S cnt' =>
      let m' := m_j - 1 in
      let* pj := vec_at (cs_powers (cs_pub sk)) j in
      let* t2' := bn_mod_mul t2 m' pj in
      let* v := table_get (cs_s (cs_pub sk) + 1) (cs_table sk) k j in
      let* w := bn_mod_mul t2' v pj in
      cs_inner cnt' (k + 1) j sk m' (t1 - w) t2'
  end.
(** camenisch_shoup.cc 500-519: for (j = 1; j <= s; j++), [cnt] iterations remaining. *)
Fixpoint cs_outer (cnt j : nat) (sk : cs_private) (denoised m_j : Z) : outcome Z :=
  match cnt with
  | O => Ok m_j
  | S cnt' =>
      let* pj1 := vec_at (cs_powers (cs_pub sk)) (j + 1) in
      let* d := bn_mod denoised pj1 in
      let intermediate := d - 1 in
      let* z := bn_mod intermediate (cs_n (cs_pub sk)) in
      if negb (z =? 0) then Err InvalidArgument
      else
        let* l_u := bn_div intermediate (cs_n (cs_pub sk)) in
        let* t1 := cs_inner (j - 1) 2 j sk m_j l_u m_j in
        cs_outer cnt' (j + 1) sk denoised t1
  end.
(** camenisch_shoup.cc 491-521: one component. *)
Definition cs_decrypt_one (sk : cs_private) (u x e : Z) : outcome Z :=
  let* ux := bn_mod_exp u x (cs_modulus (cs_pub sk)) in
  let* inv := bn_mod_inverse ux (cs_modulus (cs_pub sk)) in
  let* denoised := bn_mod_mul e inv (cs_modulus (cs_pub sk)) in
  let* m_j := cs_outer (cs_s (cs_pub sk)) 1 sk denoised 0 in
  let* ps := vec_at (cs_powers (cs_pub sk)) (cs_s (cs_pub sk)) in
  bn_mod m_j ps.
(** camenisch_shoup.cc 475-525 Decrypt. *)
Fixpoint cs_decrypt_loop (sk : cs_private) (u : Z) (xs es : list Z) : outcome (list Z) :=
  match xs, es with
  | x :: xs', e :: es' => let* m := cs_decrypt_one sk u x e in let* rest := cs_decrypt_loop sk u xs' es' in Ok (m :: rest)
  | _, _ => Ok []
  end.
Definition cs_decrypt (sk : cs_private) (c : cs_ciphertext) : outcome (list Z) :=
  if negb (length (ct_es c) =? cs_len (cs_pub sk))%nat then Err InvalidArgument
  else cs_decrypt_loop sk (ct_u c) (cs_xs sk) (ct_es c).

(** ** Key generation *)

(** camenisch_shoup.cc 229-237 GetGeneratorForCamenischShoup. *)
Definition cs_generator (raws : list Z) (n : Z) (s : nat) : outcome Z :=
  let n_to_s := bn_exp n (Z.of_nat s) in
  let n_to_s1 := bn_exp n (Z.of_nat s + 1) in
  let* x := relatively_prime_random raws n_to_s1 in
  bn_mod_exp x (2 * n_to_s) n_to_s1.

Record cs_key := { key_n : Z; key_s : nat; key_g : Z; key_ys : list Z; key_xs : list Z }.

(** camenisch_shoup.cc 192-199: one iteration per component; each element of [draws] is the entropy for one secret exponent. *)
Fixpoint cs_key_loop (draws : list (list Z)) (g n modulus : Z) : outcome (list Z * list Z) :=
  match draws with
  | [] => Ok ([], [])
  | raws :: rest =>
      let* x := relatively_prime_random raws n in
      let* y := bn_mod_exp g x modulus in
      let* (xs, ys) := cs_key_loop rest g n modulus in
      Ok (x :: xs, y :: ys)
  end.
(** camenisch_shoup.cc 185-204 GenerateCamenischShoupKeyBase (p and q are zero there); vector_encryption_length = length draws. *)
Definition cs_generate_key_base (raws : list Z) (draws : list (list Z)) (n : Z) (s : nat) : outcome cs_key :=
  let* g := cs_generator raws n s in
  let* (xs, ys) := cs_key_loop draws g n (bn_exp n (Z.of_nat s + 1)) in
  Ok {| key_n := n; key_s := s; key_g := g; key_ys := ys; key_xs := xs |}.
(** camenisch_shoup.cc 239-253 GenerateCamenischShoupKey: [primes bits] are the values GenerateSafePrime returns (external). *)
Definition cs_generate_key (primes : Z -> list Z) (raws : list Z) (draws : list (list Z)) (n_length_bits : Z) (s : nat) : outcome (Z * Z * cs_key) :=
  match primes (Z.quot n_length_bits 2) with
  | [] => Diverge
  | p :: rest =>
      let* q := draw_distinct p rest in
      let* k := cs_generate_key_base raws draws (p * q) s in
      Ok (p, q, k)
  end.

(** ** Protos *)

Record cs_public_proto := { pp_n : bytes; pp_g : bytes; pp_ys : list bytes; pp_s : Z }.
Record cs_ct_proto := { cp_u : bytes; cp_es : list bytes }.

(** camenisch_shoup.cc 273-281 CamenischShoupPublicKeyToProto. *)
Definition cs_public_to_proto (n g : Z) (ys : list Z) (s : nat) : outcome cs_public_proto :=
  let* nb := to_bytes n in
  let* gb := to_bytes g in
  let* yb := bignum_vector_to_proto ys in
  Ok {| pp_n := nb; pp_g := gb; pp_ys := yb; pp_s := Z.of_nat s |}.

Definition in_group (n modulus y : Z) : bool := negb ((y <=? 0) || (modulus <=? y) || negb (bn_gcd y n =? 1)).
(** camenisch_shoup.cc 283-315 ParseCamenischShoupPublicKeyProto: (n, s, g, ys). The field s is a uint64; s + 1 wraps. *)
Definition cs_parse_public (p : cs_public_proto) : outcome (Z * nat * Z * list Z) :=
  let n := of_bytes (pp_n p) in
  if n <=? 0 then Err InvalidArgument
  else if pp_s p =? 0 then Err InvalidArgument
  else
    let modulus := bn_exp n ((pp_s p + 1) mod 2 ^ 64) in
    let g := of_bytes (pp_g p) in
    if negb (in_group n modulus g) then Err InvalidArgument
    else
      let ys := parse_bignum_vector (pp_ys p) in
      match ys with
      | [] => Err InvalidArgument
      | _ => if forallb (in_group n modulus) ys then Ok (n, Z.to_nat (pp_s p), g, ys) else Err InvalidArgument
      end.

(** camenisch_shoup.cc 318-323 and 325-330: private keys. *)
Definition cs_private_to_proto (xs : list Z) : outcome (list bytes) := bignum_vector_to_proto xs.
Definition cs_parse_private (p : list bytes) : outcome (list Z) := Ok (parse_bignum_vector p).

(** camenisch_shoup.cc 332-338 CamenischShoupCiphertextToProto. *)
Definition cs_ct_to_proto (c : cs_ciphertext) : outcome cs_ct_proto :=
  let* ub := to_bytes (ct_u c) in
  let* eb := bignum_vector_to_proto (ct_es c) in
  Ok {| cp_u := ub; cp_es := eb |}.
(** camenisch_shoup.cc 206-227 CommonParseCiphertextProto (both classes' ParseCiphertextProto). *)
Definition cs_parse_ct (pk : cs_public) (p : cs_ct_proto) : outcome cs_ciphertext :=
  let u := of_bytes (cp_u p) in
  let es := parse_bignum_vector (cp_es p) in
  if (cs_modulus pk <=? u) || negb (is_non_negative u) then Err InvalidArgument
  else if (cs_len pk <? length es)%nat then Err InvalidArgument
  else if existsb (fun e => (cs_modulus pk <=? e) || negb (is_non_negative e)) es then Err InvalidArgument
  else Ok {| ct_u := u; ct_es := es |}.

(** camenisch_shoup.cc 360-367 and 442-455 FromProto. *)
Definition cs_public_from_proto (p : cs_public_proto) : outcome cs_public :=
  let* (n, s, g, ys) := cs_parse_public p in cs_public_create n s g ys.
Definition cs_private_from_proto (p : cs_public_proto) (x : list bytes) : outcome cs_private :=
  let* (n, s, g, ys) := cs_parse_public p in
  let* xs := cs_parse_private x in
  cs_private_create n s g ys xs.
End CS.
