(** What the verifiers of the two VRF proofs hash: their checks and computations up to the challenge, ending with the string that is handed to the hash function. *)
From Verif Require Import Base M_BigNum M_Num M_EC M_Proto M_CS M_BB S_HideBB M_Pedersen M_Wire M_VRF.

(** dy_verifiable_random_function.cc 146-211 VerifyGenerateKeysProof. *)
Definition keys_query (C : ec) (v : dy_vrf C) (pk : bytes) (pf : keys_proof) : outcome bytes :=
  let p := dv_par C v in
  let* bound := bn_lshift (ec_order C) (dp_chal p + dp_sec p + 1) in
  if bound <? of_bytes (kp_masked_key pf) then Err InvalidArgument
  else
    let* mcom := ped_commit_with_rand (dv_ped C v) (repeat (of_bytes (kp_masked_key pf)) (num_gs C v)) (of_bytes (kp_masked_open pf)) in
    let* ckc := ped_multiply (dv_ped C v) (of_bytes pk) (of_bytes (kp_challenge pf)) in
    let* inv := bn_mod_inverse ckc (pp_n (pd_par (dv_ped C v))) in
    let* dcom := ped_add (dv_ped C v) inv mcom in
    let* db := to_bytes dcom in
    Ok (keys_hash_input p pk db).
(** dy_verifiable_random_function.cc 530-569: the first message is part of the proof. *)
Definition apply_query (C : ec) (v : dy_vrf C) (evals : list (pt C)) (pk : bytes) (com : Z) (pf : apply_proof) : outcome bytes :=
  let* cb := to_bytes com in
  let* eb := point_vector_to_proto C evals in
  Ok (apply_hash_input (dv_par C v) pk cb eb (ap_commit pf) (ap_points pf)).

(** Draws with which no proof is sent or the proof does not verify: a dummy value of a response that is a multiple of the order; encryption randomness of a
    request, masked or not, that shares a factor with n. *)
Definition respond_draws_bad (order : Z) (m : nat) (ds : list Z) : bool := existsb (fun i => nth i ds 0 mod order =? 0) (seq 0 m).
Definition request_draws_bad (n : Z) (m k : nat) (e : req_entropy) (c : Z) (ds : list Z) : bool :=
  unusable_draw n m k ds || negb (forallb (fun i => let z := nth (7 * m + 7 + i) ds 0 + c * (e_enc e i mod n) in (z =? 0) || (Z.gcd z n =? 1)) (seq 0 k)).
