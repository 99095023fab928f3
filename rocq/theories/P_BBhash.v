(** C51 for the oblivious signature: what its two challenges hash. *)
From Verif Require Import Base M_BigNum M_EC M_Proto M_CS M_Pedersen M_Wire M_VRF M_BB L_Wire L_EC P_VRF P_BB.

(** The integer fields hold 64-bit values, as the message types make them. *)
Definition bb_int64 (p : bb_params) : Prop := - 2 ^ 63 <= bp_sec p < 2 ^ 63 /\ - 2 ^ 63 <= bp_chal p < 2 ^ 63 /\ 0 <= pp_s (bp_cs p) < 2 ^ 64.
Definition rq_int64 (r : bb_request) : Prop := Z.of_nat (rq_num r) < 2 ^ 63.

Lemma wf_cs_public p : Forall wf_entry (wire_cs_public p). Proof. unfold wire_cs_public. wf_tac. Qed.
Lemma wf_cs_ct c : Forall wf_entry (wire_cs_ct c). Proof. unfold wire_cs_ct. wf_tac. Qed.
Lemma wf_bb_params p : Forall wf_entry (wire_bb_params p). Proof. unfold wire_bb_params. wf_tac. Qed.
Lemma wf_bb_public p : Forall wf_entry (wire_bb_public p). Proof. unfold wire_bb_public. wf_tac. Qed.
Lemma wf_request r : Forall wf_entry (wire_request r). Proof. unfold wire_request. wf_tac. Qed.
Lemma wf_response r : Forall wf_entry (wire_response r). Proof. unfold wire_response. wf_tac. Qed.
Lemma wf_req_statement s : Forall wf_entry (wire_req_statement s). Proof. unfold wire_req_statement. wf_tac. Qed.
Lemma wf_req_message1 m : Forall wf_entry (wire_req_message1 m). Proof. unfold wire_req_message1. wf_tac. Qed.
Lemma wf_rsp_statement s : Forall wf_entry (wire_rsp_statement s). Proof. unfold wire_rsp_statement. wf_tac. Qed.
Lemma wf_rsp_message1 m : Forall wf_entry (wire_rsp_message1 m). Proof. unfold wire_rsp_message1. wf_tac. Qed.

Lemma wire_vector_inj a b : wire_vector a = wire_vector b -> a = b.
Proof. unfold wire_vector. apply f_rep_inj. Qed.
Ltac vec_inj H := apply f_msg_inj in H; [|apply wf_vector|apply wf_vector]; apply wire_vector_inj in H.
Lemma wire_cs_ct_inj a b : wire_cs_ct a = wire_cs_ct b -> a = b.
Proof. destruct a as [u1 e1], b as [u2 e2]. unfold wire_cs_ct. cbn [cp_u cp_es]. intros E. peel 1 E A. apply f_bytes_inj in A. vec_inj E. congruence. Qed.
Ltac cts_inj H := apply (f_rep_msg_inj wire_cs_ct) in H; [|exact wire_cs_ct_inj|exact wf_cs_ct].
Lemma wire_cs_public_inj a b : 0 <= pp_s a < 2 ^ 64 -> 0 <= pp_s b < 2 ^ 64 -> wire_cs_public a = wire_cs_public b -> a = b.
Proof.
  destruct a as [n1 g1 y1 s1], b as [n2 g2 y2 s2]. unfold wire_cs_public. cbn [M_CS.pp_n pp_g pp_ys pp_s]. intros B1 B2 E. peel 1 E A1. peel 2 E A2. peel 3 E A3.
  apply f_bytes_inj in A1. apply f_bytes_inj in A2. vec_inj A3. apply f_uint_inj in E; [|assumption|assumption]. congruence.
Qed.
Lemma wire_bb_params_inj p q : bb_int64 p -> bb_int64 q -> wire_bb_params p = wire_bb_params q -> p = q.
Proof.
  destruct p as [s1 c1 x1 b1 k1 d1], q as [s2 c2 x2 b2 k2 d2]. unfold wire_bb_params, bb_int64. cbn [bp_sec bp_chal bp_prefix bp_base bp_cs bp_ped]. intros (P1 & P2 & P3) (Q1 & Q2 & Q3) E.
  peel 1 E A1. peel 2 E A2. peel 3 E A3. peel 4 E A4. peel 5 E A5. apply f_int_inj in A1; [|assumption|assumption]. apply f_int_inj in A2; [|assumption|assumption].
  apply f_bytes_inj in A3. apply f_bytes_inj in A4. apply f_msg_inj in A5; [|apply wf_cs_public|apply wf_cs_public]. apply wire_cs_public_inj in A5; [|assumption|assumption].
  apply f_msg_inj in E; [|apply wf_ped|apply wf_ped]. apply wire_ped_inj in E. congruence.
Qed.
Lemma wire_bb_public_inj a b : wire_bb_public a = wire_bb_public b -> a = b.
Proof. destruct a as [k1 y1], b as [k2 y2]. unfold wire_bb_public. cbn [bpk_k bpk_y]. intros E. peel 1 E A. cts_inj A. cts_inj E. congruence. Qed.
Lemma wire_request_inj a b : rq_int64 a -> rq_int64 b -> wire_request a = wire_request b -> a = b.
Proof.
  destruct a as [n1 c1], b as [n2 c2]. unfold wire_request, rq_int64. cbn [rq_num rq_cts]. intros B1 B2 E. peel 1 E A. cts_inj E. apply f_int_inj in A; [|lia|lia]. apply Nat2Z.inj in A. congruence.
Qed.

(** The request-proof challenge determines the whole statement (parameters, public key, commitments, request) and the first message. *)
Theorem C51_request_challenge_binding : forall s1 m1 s2 m2, bb_int64 (st_par s1) -> bb_int64 (st_par s2) -> rq_int64 (st_request s1) -> rq_int64 (st_request s2) ->
  req_hash_input s1 m1 = req_hash_input s2 m2 -> s1 = s2 /\ m1 = m2.
Proof.
  intros s1 m1 s2 m2 I1 I2 J1 J2 E. unfold req_hash_input in E. apply framed_inj in E; [|apply wf_req_statement|apply wf_req_statement|apply wf_req_message1|apply wf_req_message1].
  destruct E as [E Em]. split.
  - destruct s1 as [p1 k1 a1 b1 c1 d1 e1 f1 r1], s2 as [p2 k2 a2 b2 c2 d2 e2 f2 r2]. unfold wire_req_statement in E. cbn [st_par st_pk st_messages st_rs st_as st_bs st_alphas st_gammas st_request] in *.
    peel 1 E A1. peel 2 E A2. peel 3 E A3. peel 4 E A4. peel 5 E A5. peel 6 E A6. peel 7 E A7. peel 8 E A8.
    apply f_msg_inj in A1; [|apply wf_bb_params|apply wf_bb_params]. apply wire_bb_params_inj in A1; [|assumption|assumption].
    apply f_msg_inj in A2; [|apply wf_bb_public|apply wf_bb_public]. apply wire_bb_public_inj in A2. apply f_bytes_inj in A3. apply f_bytes_inj in A4. vec_inj A5.
    apply f_bytes_inj in A6. apply f_bytes_inj in A7. apply f_bytes_inj in A8. apply f_msg_inj in E; [|apply wf_request|apply wf_request]. apply wire_request_inj in E; [|assumption|assumption]. congruence.
  - destruct m1 as [a1 b1 c1 d1 e1 f1 g1 h1 i1], m2 as [a2 b2 c2 d2 e2 f2 g2 h2 i2]. unfold wire_req_message1 in Em.
    cbn [m1_messages m1_rs m1_as m1_bs m1_alphas_1 m1_alphas_2 m1_gammas_1 m1_gammas_2 m1_cts] in *.
    peel 1 Em A1. peel 2 Em A2. peel 3 Em A3. peel 4 Em A4. peel 5 Em A5. peel 6 Em A6. peel 7 Em A7. peel 8 Em A8.
    apply f_bytes_inj in A1. apply f_bytes_inj in A2. vec_inj A3. apply f_bytes_inj in A4. apply f_bytes_inj in A5. apply f_bytes_inj in A6. apply f_bytes_inj in A7. apply f_bytes_inj in A8.
    cts_inj Em. congruence.
Qed.
Print Assumptions C51_request_challenge_binding.

(** The response-proof challenge determines the whole statement (parameters, public key, commitments, request, response) and the first message. *)
Theorem C51_response_challenge_binding : forall s1 m1 s2 m2, bb_int64 (ss_par s1) -> bb_int64 (ss_par s2) -> rq_int64 (ss_request s1) -> rq_int64 (ss_request s2) ->
  rsp_hash_input s1 m1 = rsp_hash_input s2 m2 -> s1 = s2 /\ m1 = m2.
Proof.
  intros s1 m1 s2 m2 I1 I2 J1 J2 E. unfold rsp_hash_input in E. apply framed_inj in E; [|apply wf_rsp_statement|apply wf_rsp_statement|apply wf_rsp_message1|apply wf_rsp_message1].
  destruct E as [E Em]. split.
  - destruct s1 as [p1 k1 a1 b1 r1 c1 d1], s2 as [p2 k2 a2 b2 r2 c2 d2]. unfold wire_rsp_statement in E. cbn [ss_par ss_pk ss_messages ss_rs ss_request ss_response ss_betas] in *.
    peel 1 E A1. peel 2 E A2. peel 3 E A3. peel 4 E A4. peel 5 E A5. peel 6 E A6.
    apply f_msg_inj in A1; [|apply wf_bb_params|apply wf_bb_params]. apply wire_bb_params_inj in A1; [|assumption|assumption].
    apply f_msg_inj in A2; [|apply wf_bb_public|apply wf_bb_public]. apply wire_bb_public_inj in A2. apply f_bytes_inj in A3. apply f_bytes_inj in A4.
    apply f_msg_inj in A5; [|apply wf_request|apply wf_request]. apply wire_request_inj in A5; [|assumption|assumption].
    apply f_msg_inj in A6; [|apply wf_response|apply wf_response]. unfold wire_response in A6. vec_inj A6. apply f_bytes_inj in E. congruence.
  - destruct m1 as [a1 b1 c1 d1], m2 as [a2 b2 c2 d2]. unfold wire_rsp_message1 in Em. cbn [n1_ys n1_betas n1_gs n1_es] in *.
    peel 1 Em A1. peel 2 Em A2. peel 4 Em A3. vec_inj A1. apply f_bytes_inj in A2. vec_inj A3. apply (f_rep_msg_inj wire_vector) in Em; [|exact wire_vector_inj|exact wf_vector]. congruence.
Qed.
Print Assumptions C51_response_challenge_binding.

(** Both challenges start with the same string, yet never hash the same input: only a request statement has a ninth field. *)
Theorem C51_request_response_disjoint : forall s1 m1 s2 m2, req_hash_input s1 m1 <> rsp_hash_input s2 m2.
Proof.
  intros s1 m1 s2 m2 E. unfold req_hash_input, rsp_hash_input in E. apply framed_inj in E; [|apply wf_req_statement|apply wf_rsp_statement|apply wf_req_message1|apply wf_rsp_message1].
  destruct E as [E _].
  assert (H9 : exists e, In e (wire_req_statement s1) /\ num_of e = 9).
  { unfold wire_req_statement. exists (ELen 9 (enc_msg (wire_request (st_request s1)))). split; [|reflexivity]. repeat (apply in_or_app; right). left. reflexivity. }
  destruct H9 as (e & He & N9). rewrite E in He. unfold wire_rsp_statement in He.
  assert (Bd : forall k es, only k es -> In e es -> num_of e = k) by (intros k es O1 Hin; unfold only in O1; rewrite Forall_forall in O1; apply O1, Hin).
  repeat (apply in_app_or in He; destruct He as [He|He]; [eapply Bd in He; [|only_tac]; lia|]). eapply Bd in He; [|only_tac]. lia.
Qed.
Print Assumptions C51_request_response_disjoint.

(** Nor do they hash an input of the verifiable random function's challenges. *)
Theorem C51_schemes_disjoint : forall s1 m1 s2 m2 p pk d p' pk' com ev d' pts,
  req_hash_input s1 m1 <> keys_hash_input p pk d /\ req_hash_input s1 m1 <> apply_hash_input p' pk' com ev d' pts /\
  rsp_hash_input s2 m2 <> keys_hash_input p pk d /\ rsp_hash_input s2 m2 <> apply_hash_input p' pk' com ev d' pts.
Proof. intros. repeat split; intros E; apply (f_equal (fun l => nth_error l 0)) in E; vm_compute in E; discriminate. Qed.
Print Assumptions C51_schemes_disjoint.

Example C51_bb_ex : bb_int64 exb_p /\ rq_int64 {| rq_num := 3; rq_cts := [] |} /\
  wire_request {| rq_num := 3; rq_cts := [] |} <> wire_request {| rq_num := 0; rq_cts := [{| cp_u := [x03]; cp_es := [] |}] |}.
Proof. split; [unfold bb_int64, exb_p; cbn [bp_sec bp_chal bp_cs pp_s]; lia|]. split; [unfold rq_int64; cbn; lia|vm_compute; discriminate]. Qed.
