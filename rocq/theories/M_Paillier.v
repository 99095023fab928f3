(** Models crypto/paillier.{h,cc}: the Damgard-Jurik generalisation of Paillier encryption. *)
From Verif Require Import Base M_BigNum M_Num M_DJ.

Section Paillier.
(** BigNum::IsSafePrime (big_num.cc 154-157) runs BoringSSL's probabilistic primality tests: external. *)
Variable is_safe_prime : Z -> bool.
(** The command line flag selecting the fixed base exponentiation (fixed_base_exp.cc 24-26). *)
Variable two_k_ary_flag : bool.

(** FixedBaseExp::GetFixedBaseExp as a constructor step: the 2^k-ary implementation validates base and modulus. *)
Definition fbe_create (base modulus : Z) : outcome unit :=
  if two_k_ary_flag then let* _ := tk_create base modulus in Ok tt else Ok tt.

(** paillier.cc 37 kGeneratorTryCount. *)
Definition generator_try_count : nat := Z.to_nat 1000.

(** paillier.cc 89-95, the search loop. *)
Fixpoint generator_loop (n : nat) (g q p : Z) : outcome Z :=
  match n with
  | O => Crash
  | S k =>
      let* g2 := bn_mod_sqr g p in
      if g2 =? 1 then generator_loop k (g + 1) q p
      else
        let* gq := bn_mod_exp g q p in
        if gq =? 1 then generator_loop k (g + 1) q p else Ok g
  end.
(** paillier.cc 85-99 GetGeneratorForSafePrime. *)
Definition generator_for_safe_prime (p : Z) : outcome Z :=
  if negb (is_safe_prime p) then Crash
  else let* q := bn_div (p - 1) 2 in generator_loop generator_try_count 2 q p.

(** paillier.cc 103-109 GetGeneratorForSafeModulus. *)
Definition generator_for_safe_modulus (raws : list Z) (n : Z) : outcome Z :=
  let* x := relatively_prime_random raws n in
  let* x2 := bn_mod_sqr x n in
  Ok (n - x2).

(** paillier.cc 112-118 GetGeneratorOfPrimePowersFromSafePrime. *)
Definition generator_of_prime_powers (p : Z) : outcome Z :=
  let* g := generator_for_safe_prime p in
  let* e := bn_mod_exp g (p - 1) (p * p) in
  if e =? 1 then Ok (g + p) else Ok g.

(** ** PrimeCrypto *)

Record prime_crypto := {
  pc_p : Z; pc_phi : Z; pc_n : Z; pc_s : nat; pc_powers : list Z; pc_precomp : list Z; pc_lambda_inv : Z;
  pc_other_inv : Z; pc_table : table; pc_g : Z; pc_base : Z
}.

(** paillier.cc 234-248, the constructor. *)
Definition prime_crypto_create (p other : Z) (s : nat) : outcome prime_crypto :=
  let n := p * other in
  let powers := get_powers p s in
  let* modulus := vec_at powers (s + 1) in
  let* ps := vec_at powers s in
  let* precomp := get_precomp n modulus s in
  let* lambda_inv := value_or_crash (bn_mod_inverse (p - 1) ps) in
  let* other_inv := value_or_crash (bn_mod_inverse other ps) in
  let* t := get_decrypt_precomp precomp powers s in
  let* g := generator_of_prime_powers p in
  let* base := bn_mod_exp g (bn_exp n (Z.of_nat s)) modulus in
  let* _ := fbe_create base modulus in
  Ok {| pc_p := p; pc_phi := p - 1; pc_n := n; pc_s := s; pc_powers := powers; pc_precomp := precomp;
        pc_lambda_inv := lambda_inv; pc_other_inv := other_inv; pc_table := t; pc_g := g; pc_base := base |}.

(** paillier.cc 262-266 PrimeCrypto::EncryptWithRand. *)
Definition pc_encrypt_with_rand (pc : prime_crypto) (m r : Z) : outcome Z :=
  let* c_p := binomial_expansion (pc_precomp pc) (pc_powers pc) m in
  let* modulus := vec_at (pc_powers pc) (pc_s pc + 1) in
  let* g_to_r := fixed_base_exp two_k_ary_flag (pc_base pc) modulus r in
  bn_mod_mul c_p g_to_r modulus.

(** paillier.cc 255-257 PrimeCrypto::Encrypt; [raw] is the entropy. *)
Definition pc_encrypt (pc : prime_crypto) (m raw : Z) : outcome Z :=
  let* r := generate_rand_between 1 (pc_p pc) raw in
  pc_encrypt_with_rand pc m r.

(** paillier.cc 296-299 LFunc. *)
Definition pc_lfunc (pc : prime_crypto) (c : Z) : outcome Z :=
  let* d := bn_div (c - 1) (pc_p pc) in
  let* ps := vec_at (pc_powers pc) (pc_s pc) in
  bn_mod_mul d (pc_other_inv pc) ps.

(** paillier.cc 278-282: for (k = 2; k <= j; k++), [n] iterations remaining; returns t1. *)
Fixpoint pc_inner (n : nat) (k j : nat) (pc : prime_crypto) (m_lambda t1 t2 : Z) : outcome Z :=
  match n with
  | O => Ok t1
  | S n' =>
      let m' := m_lambda - 1 in
      let* pj := vec_at (pc_powers pc) j in
      let* t2' := bn_mod_mul t2 m' pj in
      let* v := table_get (pc_s pc + 1) (pc_table pc) k j in
      pc_inner n' (k + 1) j pc m' (t1 - t2' * v) t2'
  end.
(** paillier.cc 275-284: for (j = 1; j <= s; j++), [n] iterations remaining. *)
Fixpoint pc_outer (n : nat) (j : nat) (pc : prime_crypto) (l_u m_lambda : Z) : outcome Z :=
  match n with
  | O => Ok m_lambda
  | S n' =>
      let* pj := vec_at (pc_powers pc) j in
      let* t1 := bn_mod l_u pj in
      let* t1' := pc_inner (j - 1) 2 j pc m_lambda t1 m_lambda in
      pc_outer n' (j + 1) pc l_u t1'
  end.
(** paillier.cc 270-286 PrimeCrypto::Decrypt. *)
Definition pc_decrypt (pc : prime_crypto) (c : Z) : outcome Z :=
  let* modulus := vec_at (pc_powers pc) (pc_s pc + 1) in
  let* u := bn_mod_exp c (pc_phi pc) modulus in
  let* l_u := pc_lfunc pc u in
  let* m_lambda := pc_outer (pc_s pc) 1 pc l_u 0 in
  let* ps := vec_at (pc_powers pc) (pc_s pc) in
  bn_mod_mul m_lambda (pc_lambda_inv pc) ps.

(** paillier.cc 343-349 PrimeCryptoWithRand::EncryptAndGetRand (exp_for_report_ has base g_p and modulus p^(s+1)). *)
Definition pc_encrypt_and_get_rand (pc : prime_crypto) (m raw : Z) : outcome (Z * Z) :=
  let* r := generate_rand_between 1 (pc_p pc) raw in
  let* ct := pc_encrypt_with_rand pc m r in
  let* modulus := vec_at (pc_powers pc) (pc_s pc + 1) in
  let* report := fixed_base_exp two_k_ary_flag (pc_g pc) modulus r in
  Ok (ct, report).

(** ** PublicPaillier *)

Record public_paillier := { pub_n : Z; pub_s : nat; pub_powers : list Z; pub_modulus : Z; pub_base : Z; pub_precomp : list Z }.

(** paillier.cc 362-372, the constructor (the overload without s uses s = 1; the overload from a proto parses n). *)
Definition public_create (n : Z) (s : nat) (raws : list Z) : outcome public_paillier :=
  let powers := get_powers n s in
  let* modulus := vec_at powers (length powers - 1) in
  let* g := generator_for_safe_modulus raws n in
  let* ns := vec_at powers s in
  let* base := bn_mod_exp g ns modulus in
  let* _ := fbe_create base modulus in
  let* precomp := get_precomp n modulus s in
  Ok {| pub_n := n; pub_s := s; pub_powers := powers; pub_modulus := modulus; pub_base := base; pub_precomp := precomp |}.

(** paillier.cc 384-387 Add. *)
Definition pub_add (pk : public_paillier) (c1 c2 : Z) : outcome Z := bn_mod_mul c1 c2 (pub_modulus pk).
(** paillier.cc 389-391 Multiply. *)
Definition pub_multiply (pk : public_paillier) (c m : Z) : outcome Z := bn_mod_exp c m (pub_modulus pk).
(** paillier.cc 393-395 LeftShift. *)
Definition pub_left_shift (pk : public_paillier) (c shift : Z) : outcome Z :=
  let* k := bn_lshift 1 shift in pub_multiply pk c k.

(** paillier.cc 409-418 EncryptUsingGeneratorAndRand. *)
Definition pub_encrypt_using_generator_and_rand (pk : public_paillier) (m r : Z) : outcome Z :=
  if pub_n pk <? r then Err InvalidArgument
  else
    let* c := binomial_expansion (pub_precomp pk) (pub_powers pk) m in
    let* g_to_r := fixed_base_exp two_k_ary_flag (pub_base pk) (pub_modulus pk) r in
    bn_mod_mul c g_to_r (pub_modulus pk).

(** paillier.cc 397-407 Encrypt. *)
Definition pub_encrypt (pk : public_paillier) (m raw : Z) : outcome Z :=
  if negb (is_non_negative m) then Err InvalidArgument
  else
    let* ns := vec_at (pub_powers pk) (pub_s pk) in
    if ns <=? m then Err InvalidArgument
    else
      let* r := generate_rand_less_than (pub_n pk) raw in
      pub_encrypt_using_generator_and_rand pk m r.

(** paillier.cc 420-428 EncryptWithRand. *)
Definition pub_encrypt_with_rand (pk : public_paillier) (m r : Z) : outcome Z :=
  if negb (bn_gcd r (pub_n pk) =? 1) then Err InvalidArgument
  else
    let* c := binomial_expansion (pub_precomp pk) (pub_powers pk) m in
    let* ns := vec_at (pub_powers pk) (pub_s pk) in
    let* rn := bn_mod_exp r ns (pub_modulus pk) in
    bn_mod_mul c rn (pub_modulus pk).

(** paillier.cc 430-435 EncryptAndGetRand. *)
Definition pub_encrypt_and_get_rand (pk : public_paillier) (m : Z) (raws : list Z) : outcome (Z * Z) :=
  let* r := relatively_prime_random raws (pub_n pk) in
  let* c := pub_encrypt_with_rand pk m r in
  Ok (c, r).

(** ** PrivatePaillier *)

Record private_paillier := {
  priv_n_to_s : Z; priv_n_to_s1 : Z; priv_p : prime_crypto; priv_q : prime_crypto; priv_crt_enc : crt; priv_crt_dec : crt
}.

(** paillier.cc 439-449, the constructor (the overload without s uses s = 1). *)
Definition private_create (p q : Z) (s : nat) : outcome private_paillier :=
  let n_to_s := bn_exp (p * q) (Z.of_nat s) in
  let* pc := prime_crypto_create p q s in
  let* qc := prime_crypto_create q p s in
  let* p1 := vec_at (pc_powers pc) (s + 1) in
  let* q1 := vec_at (pc_powers qc) (s + 1) in
  let* enc := crt_create p1 q1 in
  let* p0 := vec_at (pc_powers pc) s in
  let* q0 := vec_at (pc_powers qc) s in
  let* dec := crt_create p0 q0 in
  Ok {| priv_n_to_s := n_to_s; priv_n_to_s1 := n_to_s * p * q; priv_p := pc; priv_q := qc; priv_crt_enc := enc; priv_crt_dec := dec |}.

(** paillier.cc 457-469 Encrypt; one entropy value per prime. *)
Definition priv_encrypt (sk : private_paillier) (m raw_p raw_q : Z) : outcome Z :=
  if negb (is_non_negative m) then Err InvalidArgument
  else if priv_n_to_s sk <=? m then Err InvalidArgument
  else
    let* p_ct := pc_encrypt (priv_p sk) m raw_p in
    let* q_ct := pc_encrypt (priv_q sk) m raw_q in
    crt_compute (priv_crt_enc sk) p_ct q_ct.

(** paillier.cc 474-485 Decrypt (argument evaluation order is irrelevant: both calls can only abort). *)
Definition priv_decrypt (sk : private_paillier) (c : Z) : outcome Z :=
  if negb (is_non_negative c) then Err InvalidArgument
  else if priv_n_to_s1 sk <=? c then Err InvalidArgument
  else
    let* mp := pc_decrypt (priv_p sk) c in
    let* mq := pc_decrypt (priv_q sk) c in
    crt_compute (priv_crt_dec sk) mp mq.

(** ** PrivatePaillierWithRand *)

Record private_with_rand := { pwr_key : private_paillier; pwr_crt : crt }.

(** paillier.cc 487-497 and 319-325, the constructors. *)
Definition private_with_rand_create (sk : private_paillier) : outcome private_with_rand :=
  let* p := vec_at (pc_powers (priv_p sk)) 1 in
  let* q := vec_at (pc_powers (priv_q sk)) 1 in
  let* c := crt_create p q in
  let* p1 := vec_at (pc_powers (priv_p sk)) (pc_s (priv_p sk) + 1) in
  let* _ := fbe_create (pc_g (priv_p sk)) p1 in
  let* q1 := vec_at (pc_powers (priv_q sk)) (pc_s (priv_q sk) + 1) in
  let* _ := fbe_create (pc_g (priv_q sk)) q1 in
  Ok {| pwr_key := sk; pwr_crt := c |}.

(** paillier.cc 505-525 EncryptAndGetRand. *)
Definition pwr_encrypt_and_get_rand (k : private_with_rand) (m raw_p raw_q : Z) : outcome (Z * Z) :=
  let sk := pwr_key k in
  if negb (is_non_negative m) then Err InvalidArgument
  else if priv_n_to_s sk <=? m then Err InvalidArgument
  else
    let* (cp, rp) := pc_encrypt_and_get_rand (priv_p sk) m raw_p in
    let* (cq, rq) := pc_encrypt_and_get_rand (priv_q sk) m raw_q in
    let* c := crt_compute (priv_crt_enc sk) cp cq in
    let* r := crt_compute (pwr_crt k) rp rq in
    Ok (c, r).

(** paillier.cc 501-503 Encrypt and 527-529 Decrypt delegate. *)
Definition pwr_encrypt (k : private_with_rand) (m raw_p raw_q : Z) : outcome Z := priv_encrypt (pwr_key k) m raw_p raw_q.
Definition pwr_decrypt (k : private_with_rand) (c : Z) : outcome Z := priv_decrypt (pwr_key k) c.

(** ** Key generation *)

(** paillier.cc 196-220 GeneratePaillierKeyPair: [primes bits] is the sequence of values GenerateSafePrime(bits) returns (external);
    q is redrawn while it equals p. Returns ((n, s), (p, q, s)) as the bytes stored in the protos. *)
Fixpoint draw_distinct (p : Z) (draws : list Z) : outcome Z :=
  match draws with
  | [] => Diverge
  | q :: rest => if q =? p then draw_distinct p rest else Ok q
  end.
Definition generate_key_pair (primes : Z -> list Z) (modulus_length s : Z) : outcome ((bytes * Z) * (bytes * bytes * Z)) :=
  if (Z.quot modulus_length 2 <=? 0) || (s <=? 0) then Err InvalidArgument
  else
    match primes (Z.quot modulus_length 2) with
    | [] => Diverge
    | p :: rest =>
        let* q := draw_distinct p rest in
        let* pb := to_bytes p in
        let* qb := to_bytes q in
        let* nb := to_bytes (p * q) in
        Ok ((nb, s), (pb, qb, s))
    end.
End Paillier.
