(** What the verification of a request hashes, and what two proofs with the same hashed string reveal (used for C72). *)
From Verif Require Import Base M_BigNum M_Num M_EC M_Proto M_CS M_Pedersen M_BB M_VRF S_Pedersen.

(** The checks and computations of VerifyRequest (bb_oblivious_signature.cc 645-1090) up to the challenge, ending with the string that is handed to
    the hash function instead of the comparison. *)
Definition request_query (flag : bool) (C : ec) (b : bb C) (pk : bb_public) (rq : bb_request) (pf : req_proof) (cm cr : Z) : outcome bytes :=
  let m2 := rp_m2 pf in
  let vlen := cs_len (bb_cs C b) in
  if (length (pp_gs (pd_par (bb_ped C b))) <? rq_num rq)%nat then Err InvalidArgument
  else if negb (length (rp_as pf) =? rq_num rq)%nat then Err InvalidArgument
  else if negb (length (m2_messages m2) =? rq_num rq)%nat then Err InvalidArgument
  else if negb (length (m2_rs m2) =? rq_num rq)%nat then Err InvalidArgument
  else if negb (length (m2_as m2) =? rq_num rq)%nat then Err InvalidArgument
  else if negb (length (m2_bs m2) =? rq_num rq)%nat then Err InvalidArgument
  else if negb (length (m2_alphas m2) =? rq_num rq)%nat then Err InvalidArgument
  else if negb (length (m2_gammas m2) =? rq_num rq)%nat then Err InvalidArgument
  else if (vlen =? 0)%nat then UB
  else if negb (length (rq_cts rq) =? num_cts vlen (rq_num rq))%nat then Err InvalidArgument
  else if negb (length (m2_enc m2) =? num_cts vlen (rq_num rq))%nat then Err InvalidArgument
  else
    let* cmb := to_bytes cm in
    let* crb := to_bytes cr in
    let st := {| st_par := bb_par C b; st_pk := pk; st_messages := cmb; st_rs := crb; st_as := rp_as pf; st_bs := rp_bs pf; st_alphas := rp_alphas pf;
                 st_gammas := rp_gammas pf; st_request := rq |} in
    let cas := parse_bignum_vector (rp_as pf) in
    let* cts := mapM (cs_parse_ct (bb_cs C b)) (rq_cts rq) in
    let c := of_bytes (rp_challenge pf) in
    let v := values_of_proto m2 in
    let* inb := values_in_bounds C b v in
    if negb inb then Err InvalidArgument
    else
      let* m := masked_composites flag C b cas pk v in
      let* f := unmask_all C b m cm cr cas (of_bytes (rp_bs pf)) (of_bytes (rp_alphas pf)) (of_bytes (rp_gammas pf)) cts c in
      let* m1 := first_to_proto f in
      Ok (req_hash_input st m1).

(** The difference of the challenges of two proofs and the differences of the answers. *)
Definition gap (pf1 pf2 : req_proof) : Z := of_bytes (rp_challenge pf1) - of_bytes (rp_challenge pf2).
Definition differences (f : req_values -> list Z) (pf1 pf2 : req_proof) : list Z := map2 Z.sub (f (values_of_proto (rp_m2 pf1))) (f (values_of_proto (rp_m2 pf2))).
Definition difference (f : req_values -> Z) (pf1 pf2 : req_proof) : Z := f (values_of_proto (rp_m2 pf1)) - f (values_of_proto (rp_m2 pf2)).

(** Two openings of one commitment, written as their difference: values [w] and randomness [o]; the two openings are the positive and the negative part. *)
Definition opens_twice (gs : list Z) (h n : Z) (w : list Z) (o : Z) : Prop :=
  commitment gs h n (map (Z.max 0) w) (Z.max 0 o) = commitment gs h n (map (fun x => Z.max 0 (- x)) w) (Z.max 0 (- o)).
(** The commitment scheme is broken by such a pair if the values differ. *)
Definition breaks_binding (gs : list Z) (h n : Z) (wo : list Z * Z) : Prop := opens_twice gs h n (fst wo) (snd wo) /\ exists x, In x (fst wo) /\ x <> 0.

(** The pairs of openings that can be computed from the openings of the committed messages and nonces and two proofs: for the two commitments to the
    power [gap], and for the commitments to the products a_i m_i and a_i r_i to the power [gap] squared. *)
Definition opening_pairs (ms : list Z) (om : Z) (rs : list Z) (or_ : Z) (pf1 pf2 : req_proof) : list (list Z * Z) :=
  let d := gap pf1 pf2 in
  let l f := differences f pf1 pf2 in let z f := difference f pf1 pf2 in
  let sum xs := fold_right Z.add 0 xs in
  [ (map2 Z.sub (map (Z.mul d) ms) (l v_messages), d * om - z v_messages_open);
    (map2 Z.sub (map (Z.mul d) rs) (l v_rs), d * or_ - z v_rs_open);
    (map2 Z.sub (map (Z.mul d) (l v_alphas)) (map2 Z.mul (l v_as) (l v_messages)), d * z v_alphas_1 - (sum (map2 Z.mul (l v_as_open) (l v_messages)) + d * z v_alphas_2));
    (map2 Z.sub (map (Z.mul d) (l v_gammas)) (map2 Z.mul (l v_as) (l v_rs)), d * z v_gammas_1 - (sum (map2 Z.mul (l v_as_open) (l v_rs)) + d * z v_gammas_2)) ].
