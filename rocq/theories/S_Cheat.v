(** A dishonest requester, for the claim that an accepted request is a request for the committed messages. It follows GenerateRequestAndProof
    (bb_oblivious_signature.cc 218-643) with the masks a_i and b_i made negative: every commitment to a mask and every ciphertext is replaced by
    its inverse, and the masked value of a secret w is d - c w instead of d + c w. The commitments to the messages and the nonces are not touched. *)
From Verif Require Import Base M_BigNum M_Num M_EC M_Proto M_CS M_Pedersen M_BB M_VRF.

Section Cheat.
Variable flag : bool.
Variable C : ec.
Variable sha512 : bytes -> bytes.
Variable b : bb C.
Notation q := (ec_order C).
Notation cs := (bb_cs C b).
Notation N := (pp_n (pd_par (bb_ped C b))).

(** The secrets of the request with the opposite sign, except messages and nonces. *)
Definition opposite (w : req_values) : req_values :=
  {| v_messages := v_messages w; v_messages_open := v_messages_open w; v_rs := v_rs w; v_rs_open := v_rs_open w;
     v_as := map Z.opp (v_as w); v_as_open := map Z.opp (v_as_open w); v_bs := map Z.opp (v_bs w); v_bs_open := - v_bs_open w;
     v_alphas := map Z.opp (v_alphas w); v_alphas_1 := - v_alphas_1 w; v_alphas_2 := - v_alphas_2 w;
     v_gammas := map Z.opp (v_gammas w); v_gammas_1 := - v_gammas_1 w; v_gammas_2 := - v_gammas_2 w; v_enc := map Z.opp (v_enc w) |}.

Definition inverse_ct (ct : cs_ciphertext) : outcome cs_ciphertext :=
  let* u := bn_mod_inverse (ct_u ct) (cs_modulus cs) in
  let* es := mapM (fun e => bn_mod_inverse e (cs_modulus cs)) (ct_es ct) in
  Ok {| ct_u := u; ct_es := es |}.

Definition opposite_request (ms rs : list Z) (pk : bb_public) (cm om cr or_ : Z) (e : req_entropy) : outcome (bb_request * req_proof * list bytes) :=
  let* (as_, bs) := draw_masks C b ms rs e in
  let masked := map2 (fun al x => al + x * q) (map2 Z.mul ms as_) bs in
  let* keys := parse_public C b pk in
  let* enc := draws (cs_n cs) (e_enc e) (num_cts (cs_len cs) (length ms)) in
  let* cts := homomorphic_cts flag C b masked as_ (map2 Z.mul rs as_) enc (map fst keys) (map snd keys) in
  let* cts' := mapM inverse_ct cts in
  let* state := bignum_vector_to_proto as_ in
  let* ctsb := mapM cs_ct_to_proto cts' in
  let rq := {| rq_num := length ms; rq_cts := ctsb |} in
  let* (rc, w) := commit_secrets C b ms rs as_ bs om or_ enc e in
  let* icas := mapM (fun x => bn_mod_inverse x N) (rc_as rc) in
  let* icb := bn_mod_inverse (rc_bs rc) N in
  let* ical := bn_mod_inverse (rc_alphas rc) N in
  let* icga := bn_mod_inverse (rc_gammas rc) N in
  let* d := draw_dummies C b (length ms) e in
  let* f := composites flag C b icas keys d in
  let* cmb := to_bytes cm in
  let* crb := to_bytes cr in
  let* cas := bignum_vector_to_proto icas in
  let* cbb := to_bytes icb in
  let* alb := to_bytes ical in
  let* gab := to_bytes icga in
  let* m1 := first_to_proto f in
  let* c := req_challenge C sha512 b {| st_par := bb_par C b; st_pk := pk; st_messages := cmb; st_rs := crb; st_as := cas; st_bs := cbb; st_alphas := alb;
                                        st_gammas := gab; st_request := rq |} m1 in
  let* chb := to_bytes c in
  let* m2 := values_to_proto (masked_values c d (opposite w)) in
  Ok (rq, {| rp_as := cas; rp_bs := cbb; rp_alphas := alb; rp_gammas := gab; rp_challenge := chb; rp_m2 := m2 |}, state).

(** What it extracts: the response to the power -a_i. *)
Definition opposite_extract (rsp state : list bytes) : outcome (list (pt C)) :=
  let* Ps := bb_extract C rsp state in Ok (map (pneg C) Ps).
End Cheat.
