(** Theorems about what keys, requests, responses and proofs from the other party can do to a process (C59). *)
From Verif Require Import Base M_BigNum L_BigNum M_Num L_Num L_Mod M_DJ L_DJ L_Exp M_EC L_EC L_Toy M_Group M_Proto M_CS L_CS P_CS M_Pedersen S_Pedersen L_Pedersen P_Pedersen
  M_Wire M_VRF S_VRF L_VRF P_VRF M_BB S_BB P_BB S_Safe S_SafeProof L_Within L_BBsafe.

(** ** Helpers *)
Lemma complete_count len rq : (0 < len)%nat -> complete_request len rq -> length (rq_cts rq) = num_cts len (rq_num rq).
Proof.
  intros Hl (H1 & H2 & _). unfold num_cts. apply (Nat.div_unique _ len _ (rq_num rq + len - 1 - length (rq_cts rq) * len)); nia.
Qed.
Lemma count_complete len rq : (0 < len)%nat -> length (rq_cts rq) = num_cts len (rq_num rq) -> Forall (complete_ct len) (rq_cts rq) -> complete_request len rq.
Proof.
  intros Hl E F. unfold complete_request. rewrite E. split; [apply num_cts_enough; exact Hl|]. split; [|exact F].
  unfold num_cts. pose proof (Nat.mul_div_le (rq_num rq + len - 1) len ltac:(lia)). nia.
Qed.
Lemma key_xs_nonneg n s g xs ys : 1 < n -> key_match n s g xs ys -> nonneg xs.
Proof. intros Hn H. exact (proj1 (key_match_range _ _ _ _ _ Hn H)). Qed.

(** ** The oblivious signature *)
Section System.
Variables (flag : bool) (C : ec) (sha512 : bytes -> bytes) (p : bb_params) (b : bb C) (n : Z) (s : nat) (g : Z) (xs ys : list Z) (csk : cs_private) (pp : ped_params) (num : nat).
Hypothesis L : ec_laws C.
Hypothesis Sy : bb_system flag C p b n s g xs ys csk pp num.
Notation len := (length ys).

Lemma sys_len : cs_len (bb_cs C b) = len.
Proof. destruct (system_facts flag C p b n s g xs ys csk pp num L Sy) as [_ _ _ _ _ Ey _ _ _ _ _ _ _ _ _ _]. unfold cs_len. rewrite Ey. reflexivity. Qed.

Lemma verify_request_within pk rq pf cm cr : 0 <= cm -> 0 <= cr -> complete_key len pk -> Forall (complete_ct len) (rq_cts rq) -> (rq_num rq <= length (m2_as_open (rp_m2 pf)))%nat ->
  within any (bb_verify_request flag C sha512 b pk rq pf cm cr).
Proof.
  intros Hcm Hcr Hk Hr Ho. destruct (system_facts flag C p b n s g xs ys csk pp num L Sy) as [_ _ W _ _ _ Hl _ _ _ PO _ Hs Hc _ _]. rewrite <- sys_len in *.
  exact (within_verify_request flag C sha512 b n s W PO Hs Hc Hl pk rq pf cm cr Hcm Hcr Hk Hr Ho).
Qed.
Lemma request_within ms rs pk cm om cr or_ e : nonneg ms -> nonneg rs -> 0 <= cm -> 0 <= om -> 0 <= cr -> 0 <= or_ -> complete_key len pk ->
  within (fun r => rq_num (fst (fst r)) = length ms /\ complete_request len (fst (fst r)) /\ length (snd r) = length ms) (bb_request_and_proof flag C sha512 b ms rs pk cm om cr or_ e).
Proof.
  intros Hm Hr H1 H2 H3 H4 Hk. destruct (system_facts flag C p b n s g xs ys csk pp num L Sy) as [_ _ W _ _ _ Hl _ _ _ PO _ Hs Hc _ _]. rewrite <- sys_len in *.
  eapply within_weaken; [exact (within_request flag C L sha512 b n s W PO Hs Hc Hl ms rs pk cm om cr or_ e Hm Hr H1 H2 H3 H4 Hk)|].
  cbn beta. intros r (E & [F1 F2] & Es). split; [exact E|]. split; [apply count_complete; assumption|exact Es].
Qed.
Lemma verify_response_within pk rsp pf rq cm cr : 0 <= cm -> 0 <= cr -> complete_request len rq -> within any (bb_verify_response flag C sha512 b pk rsp pf rq cm cr).
Proof.
  intros Hcm Hcr Hr. destruct (system_facts flag C p b n s g xs ys csk pp num L Sy) as [_ _ W _ _ _ Hl _ _ _ PO _ Hs Hc _ _]. rewrite <- sys_len in *.
  apply (within_verify_response flag C L sha512 b n s W PO Hs Hc Hl); try assumption. split; [apply complete_count; assumption|apply Hr].
Qed.
Lemma respond_within pk pk' rq pf cm cr e : 0 <= cm -> 0 <= cr -> bb_verify_request flag C sha512 b pk rq pf cm cr = Ok tt ->
  within (fun r => length (fst r) = rq_num rq) (bb_respond flag C sha512 b rq pk' cm cr csk e).
Proof.
  intros Hcm Hcr Hv. destruct (system_facts flag C p b n s g xs ys csk pp num L Sy) as [_ _ W _ Hk Ey Hl SV SP SX PO _ Hs Hc _ Hb].
  destruct (verified_request flag C sha512 b Hl pk rq pf cm cr Hv) as [_ En].
  apply (within_respond flag C L sha512 b n s W PO Hs Hc Hl csk SV SP); try assumption.
  - rewrite SX. exact (key_xs_nonneg _ _ _ _ _ (w_gt _ _ _ W) Hk).
  - destruct s as [|s']; [exfalso|lia]. change (Z.of_nat 0) with 0 in Hb. rewrite Z.pow_0_r in Hb. pose proof (order_gt1 C L) as Hq.
    assert (1 <= 2 ^ (2 * bp_chal (bb_par C b) + 2 * bp_sec (bb_par C b) + 1)) by (assert (0 < 2 ^ (2 * bp_chal (bb_par C b) + 2 * bp_sec (bb_par C b) + 1)) by (apply Z.pow_pos_nonneg; lia); lia).
    set (T := 2 ^ _) in *. clearbody T. set (q := ec_order C) in *. clearbody q. clear - Hb Hq H. nia.
Qed.
End System.

(** What the issuer does with a request, its proof and any public key: the check ends with OK or an error when the parts that are indexed without a
    size check are there. Full claim: without those hypotheses; refuted below. *)
Theorem C59_request_check_partial : forall flag C sha512 p b n s g xs ys csk pp num pk rq pf cm cr, ec_laws C -> bb_system flag C p b n s g xs ys csk pp num ->
  0 <= cm -> 0 <= cr -> complete_key (length ys) pk -> Forall (complete_ct (length ys)) (rq_cts rq) -> (rq_num rq <= length (m2_as_open (rp_m2 pf)))%nat ->
  survives (bb_verify_request flag C sha512 b pk rq pf cm cr).
Proof. intros. eapply within_survives. eapply verify_request_within; eassumption. Qed.
Print Assumptions C59_request_check_partial.

(** Once a request is accepted, answering it cannot abort either, whatever its ciphertexts are. *)
Theorem C59_answer : forall flag C sha512 p b n s g xs ys csk pp num pk pk' rq pf cm cr e, ec_laws C -> bb_system flag C p b n s g xs ys csk pp num ->
  0 <= cm -> 0 <= cr -> bb_verify_request flag C sha512 b pk rq pf cm cr = Ok tt -> survives (bb_respond flag C sha512 b rq pk' cm cr csk e).
Proof. intros. eapply within_survives. eapply respond_within; eassumption. Qed.
Print Assumptions C59_answer.

(** The keys an issuer generates are complete, and generating them cannot abort. *)
Theorem C59_generated_keys : forall flag C p b n s g xs ys csk pp num rk ry ek ey, ec_laws C -> bb_system flag C p b n s g xs ys csk pp num ->
  survives (bb_generate_keys flag C b rk ry ek ey) /\ forall pk sk, bb_generate_keys flag C b rk ry ek ey = Ok (pk, sk) -> complete_key (length ys) pk.
Proof.
  intros flag C p b n s g xs ys csk pp num rk ry ek ey L Sy. pose proof (sys_len flag C p b n s g xs ys csk pp num L Sy) as El.
  destruct (system_facts flag C p b n s g xs ys csk pp num L Sy) as [_ _ W _ _ _ Hl _ _ _ PO _ Hs Hc _ _].
  pose proof (within_keys flag C L b n s W Hl rk ry ek ey) as H. split; [exact (within_survives _ _ H)|].
  intros pk sk E. rewrite <- El. exact (within_ok _ _ _ H E).
Qed.
Print Assumptions C59_generated_keys.

(** Making a request for a complete key cannot abort; the response to a request so made may be anything: checking it, and taking the results out once the
    check succeeded, cannot abort. *)
Theorem C59_make_request_partial : forall flag C sha512 p b n s g xs ys csk pp num ms rs pk cm om cr or_ e, ec_laws C -> bb_system flag C p b n s g xs ys csk pp num ->
  Forall (fun m => 0 <= m) ms -> Forall (fun r => 0 <= r) rs -> 0 <= cm -> 0 <= om -> 0 <= cr -> 0 <= or_ -> complete_key (length ys) pk ->
  survives (bb_request_and_proof flag C sha512 b ms rs pk cm om cr or_ e).
Proof. intros. eapply within_survives. eapply request_within; eassumption. Qed.
Print Assumptions C59_make_request_partial.
Theorem C59_response_check : forall flag C sha512 p b n s g xs ys csk pp num ms rs pk cm om cr or_ e rq rpf state pk' rsp pf,
  ec_laws C -> bb_system flag C p b n s g xs ys csk pp num ->
  Forall (fun m => 0 <= m) ms -> Forall (fun r => 0 <= r) rs -> 0 <= cm -> 0 <= om -> 0 <= cr -> 0 <= or_ -> complete_key (length ys) pk ->
  bb_request_and_proof flag C sha512 b ms rs pk cm om cr or_ e = Ok (rq, rpf, state) ->
  survives (bb_verify_response flag C sha512 b pk' rsp pf rq cm cr) /\
  (bb_verify_response flag C sha512 b pk' rsp pf rq cm cr = Ok tt -> survives (bb_extract C rsp state)).
Proof.
  intros flag C sha512 p b n s g xs ys csk pp num ms rs pk cm om cr or_ e rq rpf state pk' rsp pf L Sy Hm Hr H1 H2 H3 H4 Hk E.
  pose proof (request_within flag C sha512 p b n s g xs ys csk pp num L Sy ms rs pk cm om cr or_ e Hm Hr H1 H2 H3 H4 Hk) as Wr. apply (within_ok _ _ _ Wr) in E. cbn [fst snd] in E.
  destruct E as (En & Ef & Es). split; [eapply within_survives; eapply verify_response_within; eassumption|]. intros Ev.
  assert (El : length rsp = rq_num rq). { unfold bb_verify_response in Ev. destruct (Nat.eqb_spec (length rsp) (rq_num rq)); [assumption|discriminate]. }
  apply (within_survives any). unfold bb_extract. eapply within_bind; [apply within_parse_points; exact L|]. cbn beta zeta. intros vals Evals.
  eapply within_weaken; [apply (within_mapM any)|intros; exact I]. intros i Hi. apply in_seq in Hi. eapply within_bind; [apply within_at_any; lia|]. intros v _.
  eapply within_bind; [apply within_at_any; rewrite parse_len; lia|]. intros a _. exact I.
Qed.
Print Assumptions C59_response_check.

(** ** Without the hypotheses *)
Definition cut_open (pf : req_proof) : req_proof :=
  let m := rp_m2 pf in
  {| rp_as := rp_as pf; rp_bs := rp_bs pf; rp_alphas := rp_alphas pf; rp_gammas := rp_gammas pf; rp_challenge := rp_challenge pf;
     rp_m2 := {| m2_messages := m2_messages m; m2_messages_open := m2_messages_open m; m2_rs := m2_rs m; m2_rs_open := m2_rs_open m; m2_as := m2_as m; m2_as_open := [];
                 m2_bs := m2_bs m; m2_bs_open := m2_bs_open m; m2_alphas := m2_alphas m; m2_alphas_1 := m2_alphas_1 m; m2_alphas_2 := m2_alphas_2 m; m2_gammas := m2_gammas m;
                 m2_gammas_1 := m2_gammas_1 m; m2_gammas_2 := m2_gammas_2 m; m2_enc := m2_enc m |} |}.
Definition cut_cts (cts : list cs_ct_proto) : list cs_ct_proto := map (fun c => {| cp_u := cp_u c; cp_es := firstn 1 (cp_es c) |}) cts.
(** An honest request whose proof lacks the openings of the commitments to the as; whose ciphertexts lack a component; a public key without entries. *)
Definition exb_bad {A} (k : bb toy -> bb_public -> bb_request -> req_proof -> list bytes -> outcome A) : outcome A :=
  exb_keys (fun b csk pk sk => let* x := exb_request [5; 20] [7; 0] (exb_e 3) b pk in k b pk (fst (fst x)) (snd (fst x)) (snd x)).
Theorem C59_incomplete_messages :
  let cm := exb_com [5; 20] 50 in let cr := exb_com [7; 0] 60 in
  exb_bad (fun b pk rq pf _ => bb_verify_request false toy (const_hash x35) b pk rq pf cm cr) = Ok tt /\
  exb_bad (fun b pk rq pf _ => bb_verify_request false toy (const_hash x35) b pk rq (cut_open pf) cm cr) = UB /\
  exb_bad (fun b pk rq pf _ => bb_verify_request false toy (const_hash x35) b pk {| rq_num := rq_num rq; rq_cts := cut_cts (rq_cts rq) |} pf cm cr) = UB /\
  exb_bad (fun b pk rq pf _ => bb_verify_request false toy (const_hash x35) b {| bpk_k := []; bpk_y := bpk_y pk |} rq pf cm cr) = UB /\
  exb_bad (fun b pk rq pf _ => exb_request [5] [7] (exb_e 3) b {| bpk_k := cut_cts (bpk_k pk); bpk_y := bpk_y pk |}) = UB.
Proof. cbv zeta. split; [|split; [|split; [|split]]]; vm_compute; reflexivity. Qed.
Print Assumptions C59_incomplete_messages.
(** Answering without checking, and extracting without checking. *)
Theorem C59_unchecked_use :
  exb_keys (fun b csk pk sk => bb_respond false toy (const_hash x35) b {| rq_num := 1; rq_cts := [] |} pk 1 1 csk {| s_open := 3; s_betas := fun i => 100; s_xs := fun i => 500; s_dopen := 99 |}) = UB /\
  exb_bad (fun b pk rq pf state => bb_extract toy (repeat (ec_enc toy (pgen toy)) 3) state) = UB.
Proof. split; vm_compute; reflexivity. Qed.
Print Assumptions C59_unchecked_use.
Definition is_ub {A} (o : outcome A) : bool := match o with UB => true | _ => false end.
Definition is_crash {A} (o : outcome A) : bool := match o with Crash => true | _ => false end.
Lemma is_ub_not_survives {A} (o : outcome A) : is_ub o = true -> ~ survives o.
Proof. destruct o; try discriminate. intros _ [_ H]. congruence. Qed.
Lemma exb_objects_system {A} (k : bb toy -> cs_private -> outcome A) a : exb_objects k = Ok a ->
  exists b csk, bb_system false toy exb_p b 77 4 exb_g exb_xs exb_ys csk exb_pp 2 /\ k b csk = Ok a.
Proof.
  intros E. unfold exb_objects in E. destruct (objects_ok false toy exb_p 77 4 exb_g exb_ys exb_xs exb_pp 2) as (b & csk & E1 & E2 & E3 & E4); [vm_compute; reflexivity|].
  exists b, csk. rewrite E1 in E. cbn [bind] in E. rewrite E2 in E. cbn [bind] in E. rewrite E3 in E. cbn [bind] in E. rewrite E4 in E. cbn [bind] in E. split; [|exact E].
  constructor; [exact exb_keypair|discriminate|exact E1|exact E2| | |exact E4|cbn; lia].
  - split; [cbn; lia|]. split; [left; cbn; lia|exact E3].
  - split; [repeat constructor|reflexivity].
Qed.
Definition exb_bad_k (b : bb toy) (csk : cs_private) : outcome bool :=
  let* keys := bb_generate_keys false toy b 1000 2000 (fun i => [7; Z.of_nat i + 5]) (fun i => [Z.of_nat i + 2]) in
  let* x := exb_request [5; 20] [7; 0] (exb_e 3) b (fst keys) in
  Ok (is_ub (bb_verify_request false toy (const_hash x35) b (fst keys) (fst (fst x)) (cut_open (snd (fst x))) (exb_com [5; 20] 50) (exb_com [7; 0] 60))).
Lemma exb_bad_true : exb_objects exb_bad_k = Ok true.
Proof. vm_compute. reflexivity. Qed.
Theorem C59_request_check_refuted : ~ (forall flag C sha512 p b n s g xs ys csk pp num pk rq pf cm cr, ec_laws C -> bb_system flag C p b n s g xs ys csk pp num ->
  0 <= cm -> 0 <= cr -> survives (bb_verify_request flag C sha512 b pk rq pf cm cr)).
Proof.
  intros H. destruct (exb_objects_system _ _ exb_bad_true) as (b & csk & Sy & E). unfold exb_bad_k in E. apply bind_ok in E. destruct E as (keys & _ & E).
  apply bind_ok in E. destruct E as (x & _ & E). assert (E' : is_ub (bb_verify_request false toy (const_hash x35) b (fst keys) (fst (fst x)) (cut_open (snd (fst x))) (exb_com [5; 20] 50) (exb_com [7; 0] 60)) = true) by congruence. apply (is_ub_not_survives _ E'). apply (H _ _ _ _ _ _ _ _ _ _ _ _ _ _ _ _ _ _ toy_laws Sy); vm_compute; discriminate.
Qed.
Print Assumptions C59_request_check_refuted.

(** ** The verifiable random function: no hypothesis about the messages is needed. *)
Theorem C59_vrf_checks : forall C sha512 p pp num v, ec_laws C -> vrf_created C p pp num v ->
  (forall pk pf, survives (dy_verify_keys C sha512 v pk pf)) /\
  (forall evals pk com pf, 0 <= com -> survives (dy_verify_apply C sha512 v evals pk com pf)).
Proof.
  intros C sha p pp num v L Hv. destruct (vrf_created_ok C p pp num v L Hv) as (Ep & Epp & O' & Hs & Hc & _). subst p pp. split.
  - intros pk pf. destruct (verify_keys_cases C sha v O' Hs Hc pk pf) as [[_ E]|[_ E]]; rewrite E; split; discriminate.
  - intros evals pk com pf Hcom. destruct (verify_apply_cases C L sha v O' Hc evals pk com pf Hcom) as [[_ E]|[_ [E|[_ E]]]]; rewrite E; split; discriminate.
Qed.
Print Assumptions C59_vrf_checks.
Example C59_vrf_ex : ex_run (fun v => dy_verify_keys toy (const_hash x35) v [x02] {| kp_masked_key := [xff; xff; xff]; kp_masked_open := []; kp_challenge := [] |}) = Err InvalidArgument.
Proof. vm_compute. reflexivity. Qed.

(** ** Proofs that Pedersen parameters were generated correctly *)
Theorem C59_parameters_check_partial : forall sha512 g h n pf, 0 <= g -> 0 <= h -> 0 < n ->
  Forall (fun d => 0 <= d) (gp_dummy_gs pf) -> Forall (fun z => 0 <= z) (gp_responses pf) -> gp_reps pf <= 120000 ->
  survives (verify_params sha512 g h n pf).
Proof.
  intros sha g h n pf Hg Hh Hn Hd Hz Hr. apply (within_survives any). unfold verify_params. apply within_if_err. intros E0. apply Z.leb_gt in E0.
  do 3 (apply within_if_err; intros _). eapply within_bind with (P := any).
  - unfold gen_challenge, gen_bytes. eapply within_bind.
    + do 3 (eapply within_bind; [apply within_to_bytes; lia|]; intros ? _). eapply within_bind; [apply (within_bytes_nonneg _ Hd)|]. intros ds _. exact (I : any (_ : bytes)).
    + intros x _. rewrite lshift_ok by lia. cbn [bind]. rewrite Z.mul_1_l. destruct (ro_pow2 sha x (gp_reps pf) ltac:(lia)) as (c & -> & _). cbn [bind].
      generalize (Z.to_nat (gp_reps pf)). intros k. revert c. induction k as [|k IH]; intros c; cbn [challenge_bits]; [exact I|]. unfold bn_rshift. cbn [Z.ltb Z.compare bind].
      eapply within_bind; [apply IH|]. intros; exact I.
  - intros cs _. revert cs Hz. generalize (gp_responses pf) as zs. generalize (gp_dummy_gs pf) as ds.
    induction ds as [|d ds IH]; intros zs cs Hz; destruct cs as [|c cs]; try exact I. destruct zs as [|z zs]; [exact I|]. cbn [check_responses]. apply Forall_cons_iff in Hz. destruct Hz as [Hz Hzs].
    eapply within_bind with (P := any); [destruct c; [eapply within_weaken; [apply within_mod_mul; exact Hn|intros; exact I]|exact I]|]. intros ex _.
    eapply within_bind; [apply within_mod_exp; assumption|]. intros v _. apply within_if_err. intros _. apply IH. exact Hzs.
Qed.
Print Assumptions C59_parameters_check_partial.
Theorem C59_trusted_check_partial : forall sha512 g h n pf, 0 <= g -> 0 <= h -> 0 < n -> 0 <= tp_dummy_g pf -> 0 <= tp_response pf -> tp_len pf <= 120000 ->
  survives (verify_trusted sha512 g h n pf).
Proof.
  intros sha g h n pf Hg Hh Hn Hd Hz Hr. apply (within_survives any). unfold verify_trusted. apply within_if_err. intros E0. apply Z.leb_gt in E0. apply within_if_err. intros _.
  eapply within_bind with (P := fun c => 0 <= c).
  - unfold trusted_challenge, gen_bytes. eapply within_bind.
    + do 3 (eapply within_bind; [apply within_to_bytes; lia|]; intros ? _). eapply within_bind; [apply (within_bytes_nonneg [tp_dummy_g pf]); repeat constructor; exact Hd|]. intros ds _. exact (I : any (_ : bytes)).
    + intros x _. rewrite lshift_ok by lia. cbn [bind]. rewrite Z.mul_1_l. destruct (ro_pow2 sha x (tp_len pf) ltac:(lia)) as (c & -> & Hc). apply Hc.
  - intros c Hc. do 2 (eapply within_bind; [apply within_mod_exp; assumption|]; intros ? _). eapply within_bind; [apply within_mod_mul; exact Hn|]. intros e _. apply within_if_err. intros _. exact I.
Qed.
Print Assumptions C59_trusted_check_partial.
(** The challenge length is part of the proof, so whoever supplies the proof can make the verifier abort; so can a negative response. *)
Theorem C59_trusted_length_aborts : forall sha512 g h n pf, 0 <= g -> 0 <= h -> 0 < n -> Z.gcd h n = 1 -> 0 <= tp_dummy_g pf -> 130048 <= tp_len pf ->
  verify_trusted sha512 g h n pf = Crash.
Proof.
  intros sha g h n pf Hg Hh Hn G Hd Hl. unfold verify_trusted. destruct (Z.leb_spec (tp_len pf) 0); [lia|]. unfold bn_gcd. rewrite G. cbn [Z.eqb Pos.eqb negb].
  unfold trusted_challenge, gen_bytes. destruct (to_bytes_of g Hg) as (gb & -> & _). destruct (to_bytes_of h Hh) as (hb & -> & _). destruct (to_bytes_of n ltac:(lia)) as (nb & -> & _).
  cbn [bind mapM]. destruct (to_bytes_of _ Hd) as (db & -> & _). cbn [bind]. rewrite lshift_ok by lia. cbn [bind]. rewrite Z.mul_1_l.
  assert (P2 : 0 < 2 ^ tp_len pf) by (apply Z.pow_pos_nonneg; lia). match goal with |- context [random_oracle 512 sha ?x _] => destruct (random_oracle_total 512 sha x (2 ^ tp_len pf) ltac:(lia) P2) as [_ T] end.
  rewrite T; [reflexivity|]. unfold bit_length. rewrite Z.abs_eq by lia. destruct (Z.eqb_spec (2 ^ tp_len pf) 0); [lia|]. rewrite Z.log2_pow2 by lia.
  unfold ro_iterations. clear - Hl. Z.to_euclidean_division_equations. lia.
Qed.
Print Assumptions C59_trusted_length_aborts.
Theorem C59_trusted_check_refuted : ~ (forall sha512 g h n pf, 0 <= g -> 0 <= h -> 0 < n -> 0 <= tp_dummy_g pf -> 0 <= tp_response pf -> survives (verify_trusted sha512 g h n pf)).
Proof.
  intros H. destruct (H (fun x => x) 4 2 15 {| tp_len := 130048; tp_dummy_g := 1; tp_response := 0 |}) as [H1 _]; try (cbn; lia).
  apply H1. apply C59_trusted_length_aborts; cbn; lia.
Qed.
Print Assumptions C59_trusted_check_refuted.
Example C59_negative_response_ex : verify_trusted (const_hash x35) 4 2 15 {| tp_len := 3; tp_dummy_g := 1; tp_response := -1 |} = Crash.
Proof. vm_compute. reflexivity. Qed.
