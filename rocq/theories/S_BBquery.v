(** What the verification of a response hashes: the checks and computations of VerifyResponse up to the challenge, ending with the string that
    is handed to the hash function instead of the comparison. Two proofs with the same string share their first message; the hash function
    answers it once. *)
From Verif Require Import Base M_BigNum M_Num M_EC M_Proto M_CS M_Pedersen M_BB M_VRF.

Definition response_query (flag : bool) (C : ec) (b : bb C) (pk : bb_public) (rsp : list bytes) (pf : rsp_proof) (rq : bb_request) (cm cr : Z) : outcome bytes :=
  let cs := bb_cs C b in
  if negb (length rsp =? rq_num rq)%nat then Err InvalidArgument
  else if negb (length (sp_xs pf) =? cs_len cs)%nat then Err InvalidArgument
  else if negb (length (sp_mbetas pf) =? rq_num rq)%nat then Err InvalidArgument
  else
    let* cts := mapM (cs_parse_ct cs) (rq_cts rq) in
    let* vals := parse_point_vector C rsp in
    let c := of_bytes (sp_challenge pf) in
    let mxs := parse_bignum_vector (sp_xs pf) in
    let mbetas := parse_bignum_vector (sp_mbetas pf) in
    let* bound := cube_bound C (bb_par C b) 1 in
    if negb (forallb (fun x => x <? bound) mbetas) then Err InvalidArgument
    else
      let gci := pneg C (point_mul C (bb_base C b) c) in
      let* dgs := mapM (fun i => let* v := at_index vals i in let* m := at_index mbetas i in Ok (padd C (point_mul C v m) gci)) (seq 0 (rq_num rq)) in
      let* dgsb := point_vector_to_proto C dgs in
      let* des := mapM (fun i => let* l := recover_es flag C b (rq_num rq) mbetas mxs cts c i in bignum_vector_to_proto l) (seq 0 (length cts)) in
      let* mcom := ped_commit_with_rand (bb_ped C b) mbetas (of_bytes (sp_open pf)) in
      let* dcb := unmask C b mcom (of_bytes (sp_betas pf)) c in
      let* dcbb := to_bytes dcb in
      let* dys := recover_ys C b mxs c in
      let* dysb := bignum_vector_to_proto dys in
      let* cmb := to_bytes cm in
      let* crb := to_bytes cr in
      let* cbb := to_bytes (of_bytes (sp_betas pf)) in
      Ok (rsp_hash_input {| ss_par := bb_par C b; ss_pk := pk; ss_messages := cmb; ss_rs := crb; ss_request := rq; ss_response := rsp; ss_betas := cbb |}
            {| n1_ys := dysb; n1_betas := dcbb; n1_gs := dgsb; n1_es := des |}).
