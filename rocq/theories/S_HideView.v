(** Everything the issuer sees of a request for signatures: the commitments to messages and nonces, the ciphertexts and the proof. *)
From Verif Require Import Base M_BigNum M_Num M_EC M_Proto M_CS M_Pedersen M_VRF M_BB S_Pedersen S_Hide S_HideBB S_HideMask.

(** The client's draws for m messages in k ciphertexts: m + 5 openings (of the commitments to the messages and nonces, of the m + 3 commitments of the proof), then
    the draws for the request itself, then the draws for the proof. *)
Definition view_bounds (C : ec) (b : bb C) (m k : nat) : list Z :=
  repeat (pp_n (pd_par (bb_ped C b))) (m + 5) ++ mask_bounds C b m k ++ request_bounds C b m k.
Definition mask_part (m k : nat) (ds : list Z) : list Z := part (m + 5) (2 * m + k) ds.
Definition proof_part (m k : nat) (ds : list Z) : list Z := part (3 * m + 5 + k) (7 * m + 7 + k) ds.
(** Random source with given openings and nothing else. *)
Definition openings_only (m : nat) (ds : list Z) : req_entropy :=
  let none := fun _ : nat => 0 in
  {| e_a := none; e_b := none; e_enc := none; e_ao := fun i => nth (2 + i) ds 0; e_bo := nth (2 + m) ds 0; e_zal := nth (3 + m) ds 0; e_zga := nth (4 + m) ds 0;
     d_m := none; d_r := none; d_a := none; d_ao := none; d_b := none; d_al := none; d_ga := none;
     d_mo := 0; d_ro := 0; d_bo := 0; d_al1 := 0; d_al2 := 0; d_ga1 := 0; d_ga2 := 0; d_enc := none |}.
(** Random source that uses ds for everything. *)
Definition view_entropy (m k : nat) (ds : list Z) : req_entropy := with_dummies (with_masks (openings_only m (part 0 (m + 5) ds)) m (mask_part m k ds)) m (proof_part m k ds).

(** What the issuer sees. *)
Definition issuer_view (flag : bool) (C : ec) (sha512 : bytes -> bytes) (b : bb C) (ms rs : list Z) (pk : bb_public) (k : nat) (ds : list Z) :
    outcome (Z * Z * bb_request * req_proof) :=
  let pp := pd_par (bb_ped C b) in
  let om := nth 0 ds 0 in
  let or_ := nth 1 ds 0 in
  let cm := commitment (pp_gs pp) (pp_h pp) (pp_n pp) ms om in
  let cr := commitment (pp_gs pp) (pp_h pp) (pp_n pp) rs or_ in
  let* x := bb_request_and_proof flag C sha512 b ms rs pk cm om cr or_ (view_entropy (length ms) k ds) in
  Ok (cm, cr, fst (fst x), snd (fst x)).

(** The same without messages, nonces or keys: all commitments are random powers of h, the ciphertexts are those of a random request, the proof is drawn. *)
Definition simulated_view (h modulus : Z) (n : Z) (s : nat) (g : Z) (ys : list Z) (q : Z) (m k : nat) (c : Z) (ds : list Z) : outcome (Z * Z * bb_request * req_proof) :=
  let power i := h ^ nth i ds 0 mod modulus in
  let* rq := random_request n s g ys q m k (mask_part m k ds) in
  let* cas := bignum_vector_to_proto (map (fun i => power (2 + i)%nat) (seq 0 m)) in
  let* cbs := to_bytes (power (2 + m)%nat) in
  let* cal := to_bytes (power (3 + m)%nat) in
  let* cga := to_bytes (power (4 + m)%nat) in
  let* x := simulated_request rq cas cbs cal cga [] m k c (proof_part m k ds) in
  Ok (power 0%nat, power 1%nat, fst (fst x), snd (fst x)).

(** Encryption randomness, of the request or of the proof, that cannot be used. *)
Definition unusable_view (n : Z) (m k : nat) (ds : list Z) : bool := unusable_mask n m k (mask_part m k ds) || unusable_draw n m k (proof_part m k ds).
