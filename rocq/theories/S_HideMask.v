(** What the ciphertexts of an oblivious-signature request look like to the issuer, who can decrypt them. *)
From Verif Require Import Base M_BigNum M_Num M_EC M_Proto M_CS M_Pedersen M_VRF M_BB S_Hide.

(** The draws for the request itself: m multipliers, m offsets and the encryption randomness of k ciphertexts. *)
Definition mask_bounds (C : ec) (b : bb C) (m k : nat) : list Z :=
  let q := ec_order C in
  repeat (q - 1) m ++ repeat (q * q * 2 ^ (bp_chal (bb_par C b) + bp_sec (bb_par C b))) m ++ repeat (cs_n (bb_cs C b)) k.
(** Random source that uses ds for the request itself and e for everything else. *)
Definition with_masks (e : req_entropy) (m : nat) (ds : list Z) : req_entropy :=
  {| e_a := fun i => nth i ds 0; e_b := fun i => nth (m + i) ds 0; e_enc := fun i => nth (2 * m + i) ds 0;
     e_ao := e_ao e; e_bo := e_bo e; e_zal := e_zal e; e_zga := e_zga e;
     d_m := d_m e; d_r := d_r e; d_a := d_a e; d_ao := d_ao e; d_b := d_b e; d_al := d_al e; d_ga := d_ga e;
     d_mo := d_mo e; d_ro := d_ro e; d_bo := d_bo e; d_al1 := d_al1 e; d_al2 := d_al2 e; d_ga1 := d_ga1 e; d_ga2 := d_ga2 e; d_enc := d_enc e |}.
(** The request without its proof and without the client's private state. *)
Definition request_of (o : outcome (bb_request * req_proof * list bytes)) : outcome bb_request := let* x := o in Ok (fst (fst x)).
(** Some encryption randomness is neither 0 nor a unit. *)
Definition unusable_mask (n : Z) (m k : nat) (ds : list Z) : bool := negb (forallb (fun x => (x =? 0) || (Z.gcd x n =? 1)) (part (2 * m) k ds)).

(** A request made of random values, with no messages at all: value j is 1 + d_j + q d_(m+j), slots beyond the m-th value are 0, and ciphertext i has randomness
    d_(2m+i). *)
Definition random_values (q : Z) (m : nat) (ds : list Z) : list Z := map (fun j => 1 + nth j ds 0 + q * nth (m + j) ds 0) (seq 0 m).
Definition random_request (n : Z) (s : nat) (g : Z) (ys : list Z) (q : Z) (m k : nat) (ds : list Z) : outcome bb_request :=
  let modulus := n ^ (Z.of_nat s + 1) in
  let component i l := (nth l ys 0 ^ nth (2 * m + i) ds 0 * (1 + n) ^ nth (i * length ys + l) (random_values q m ds) 0) mod modulus in
  let ciphertext i := {| ct_u := g ^ nth (2 * m + i) ds 0 mod modulus; ct_es := map (component i) (seq 0 (length ys)) |} in
  let* cts := mapM cs_ct_to_proto (map ciphertext (seq 0 k)) in
  Ok {| rq_num := m; rq_cts := cts |}.

(** Draws below b consist of whole periods of length E, up to a fraction u / 2^k of all draws. *)
Definition nearly_periods (k u E b : Z) : Prop := 0 < E /\ 0 <= u /\ 0 <= b /\ (b mod E) * 2 ^ k <= u * b.
