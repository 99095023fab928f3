(** What the functions of the oblivious signature do with arbitrary messages from the other party. *)
From Verif Require Import Base M_BigNum M_Num M_DJ M_EC M_Proto M_CS M_Pedersen M_Wire M_VRF M_BB S_Safe
  L_BigNum L_Num L_DJ L_CS L_EC L_Cipher L_ElGamal L_Pedersen L_VRF L_Within.

Lemma Forall_tabulate {A} (P : A -> Prop) (f : nat -> A) k : (forall i, (i < k)%nat -> P (f i)) -> Forall P (map f (seq 0 k)).
Proof. intros H. apply Forall_forall. intros x Hx. apply in_map_iff in Hx. destruct Hx as (i & <- & Hi). apply in_seq in Hi. apply H. lia. Qed.
Lemma num_cts_spec len num i : (0 < len)%nat -> (i < num_cts len num)%nat -> (i * len < num)%nat.
Proof.
  intros Hl Hi. unfold num_cts in Hi. pose proof (Nat.mul_div_le (num + len - 1) len ltac:(lia)) as H.
  assert (S i <= (num + len - 1) / len)%nat by lia. nia.
Qed.
Lemma num_cts_enough len num : (0 < len)%nat -> (num <= num_cts len num * len)%nat.
Proof.
  intros Hl. unfold num_cts. pose proof (Nat.div_mod (num + len - 1) len ltac:(lia)) as H. pose proof (Nat.mod_upper_bound (num + len - 1) len ltac:(lia)) as H2. nia.
Qed.

Section BBsafe.
Variable flag : bool.
Variable C : ec.
Hypothesis L : ec_laws C.
Variable sha : bytes -> bytes.
Variable b : bb C.
Notation par := (bb_par C b).
Notation cs := (bb_cs C b).
Notation ped := (bb_ped C b).
Notation vlen := (cs_len cs).
Notation num_gs := (length (pp_gs (pd_par ped))).
Notation N := (pp_n (pd_par ped)).
Notation M := (cs_modulus cs).
Notation q := (ec_order C).
Variables (n : Z) (s : nat).
Hypothesis W : cs_valid n s cs.
Hypothesis PO : ped_ok ped.
Hypothesis Hsec : 0 < bp_sec par.
Hypothesis Hchal : 0 < bp_chal par <= 120000.
Hypothesis Hlen : (0 < vlen)%nat.

Lemma N_pos : 0 < N. Proof. destruct PO. lia. Qed.
Lemma M_pos : 0 < M. Proof. exact (cs_M_pos n s cs W). Qed.
Lemma q_pos : 0 < q. Proof. pose proof (order_gt1 C L). lia. Qed.
Notation fullct := (full cs).

Lemma within_ped_multiply c k : 0 <= k -> within (inz N) (ped_multiply ped c k).
Proof. intros Hk. apply within_mod_exp; [apply N_pos|exact Hk]. Qed.
Lemma within_ped_add c d : within (inz N) (ped_add ped c d).
Proof. apply within_mod_mul. apply N_pos. Qed.

Lemma within_accumulate_verify coms : forall es acc, nonneg es -> inz N acc -> within (inz N) (accumulate_verify C b acc coms es).
Proof.
  induction coms as [|c coms IH]; intros es acc He Ha; cbn [accumulate_verify]; [exact Ha|]. destruct es as [|e es]; [exact Ha|]. apply Forall_cons_iff in He. destruct He as [He Hes].
  eapply within_bind; [apply within_ped_multiply; exact He|]. intros p _. eapply within_bind; [apply within_ped_add|]. intros a Ha'. apply IH; assumption.
Qed.
Lemma within_commit_each as_ opens k : (k <= length as_)%nat -> (k <= length opens)%nat -> within (fun l => length l = k /\ Forall (inz N) l) (commit_each C b as_ opens k).
Proof.
  intros H1 H2. unfold commit_each. eapply within_weaken; [apply (within_mapM (inz N))|cbn beta; intros l [E F]; rewrite seq_length in E; split; assumption].
  intros i Hi. apply in_seq in Hi. eapply within_bind; [apply within_at_any; lia|]. intros a _. eapply within_bind; [apply within_at_any; lia|]. intros o _. apply within_commit. exact PO.
Qed.

(** ** Ciphertexts computed from the masked values *)
Lemma within_add_slot ks ys as_ gammas start j ct : (j < length ks)%nat -> (j < length ys)%nat -> (start + j < length as_)%nat -> (start + j < length gammas)%nat ->
  Forall fullct ks -> Forall fullct ys -> nonneg as_ -> nonneg gammas -> fullct ct -> within fullct (add_slot C b ks ys as_ gammas start ct j).
Proof.
  intros H1 H2 H3 H4 F1 F2 F3 F4 Hc. unfold add_slot.
  eapply within_bind; [apply within_at; [exact H1|exact F1]|]. intros k Hk. eapply within_bind; [apply within_at; [exact H3|exact F3]|]. cbn beta. intros a Ha.
  eapply within_bind; [apply (within_multiply n s cs W); [exact Ha|destruct Hk as (_ & -> & _); lia]|]. intros ka Hka.
  eapply within_bind; [apply (within_add n s cs W); [apply Hc|apply Hka]|]. intros ct1 H5.
  eapply within_bind; [apply within_at; [exact H2|exact F2]|]. intros y Hy. eapply within_bind; [apply within_at; [exact H4|exact F4]|]. cbn beta. intros g Hg.
  eapply within_bind; [apply (within_multiply n s cs W); [exact Hg|destruct Hy as (_ & -> & _); lia]|]. intros yg Hyg.
  apply (within_add n s cs W); [apply H5|apply Hyg].
Qed.
Lemma within_homomorphic ms as_ gammas rnd ks ys : length as_ = length ms -> length gammas = length ms -> length rnd = num_cts vlen (length ms) ->
  (vlen <= length ks)%nat -> (vlen <= length ys)%nat -> Forall fullct ks -> Forall fullct ys -> nonneg as_ -> nonneg gammas ->
  within (fun l => length l = num_cts vlen (length ms) /\ Forall fullct l) (homomorphic_cts flag C b ms as_ gammas rnd ks ys).
Proof.
  intros E1 E2 E3 H1 H2 F1 F2 F3 F4. unfold homomorphic_cts. destruct (Nat.eqb_spec vlen 0); [lia|].
  eapply within_weaken; [apply (within_mapM fullct)|cbn beta; intros l [E F]; rewrite seq_length in E; split; assumption].
  intros i Hi. apply in_seq in Hi. pose proof (num_cts_spec vlen (length ms) i Hlen ltac:(lia)) as Hs. cbv zeta. set (start := (i * vlen)%nat) in *.
  eapply within_bind; [apply (within_slice any); [lia|lia|apply Forall_forall; intros; exact I]|]. intros batch _.
  eapply within_bind; [apply within_at_any; lia|]. intros r _. eapply within_bind; [apply (within_encrypt flag n s cs W)|]. intros ct Hct.
  apply within_foldM; [|exact Hct]. intros a j Hj Ha. apply in_seq in Hj. apply within_add_slot; try assumption; lia.
Qed.

(** The public key has an entry for every slot, and every entry all its components. *)
Definition full_public (pk : bb_public) : Prop :=
  (vlen <= length (bpk_k pk))%nat /\ (vlen <= length (bpk_y pk))%nat /\
  Forall (fun c => (vlen <= length (cp_es c))%nat) (bpk_k pk) /\ Forall (fun c => (vlen <= length (cp_es c))%nat) (bpk_y pk).
Lemma within_parse_public pk : full_public pk -> within (fun l => length l = vlen /\ Forall (fun c => fullct (fst c) /\ fullct (snd c)) l) (parse_public C b pk).
Proof.
  intros (H1 & H2 & F1 & F2). unfold parse_public.
  eapply within_weaken; [apply (within_mapM (fun c => fullct (fst c) /\ fullct (snd c)))|cbn beta; intros l [E F]; rewrite seq_length in E; split; assumption].
  intros i Hi. apply in_seq in Hi. eapply within_bind; [apply within_at; [|exact F1]; lia|]. cbn beta. intros ek Hek.
  eapply within_bind; [apply (within_parse_full cs); exact Hek|]. intros k Hk. eapply within_bind; [apply within_at; [|exact F2]; lia|]. cbn beta. intros ey Hey.
  eapply within_bind; [apply (within_parse_full cs); exact Hey|]. intros y Hy. cbn. split; assumption.
Qed.

(** ** Checking a request *)
(** What the checks of the sizes leave. *)
Record sized (num : nat) (v : req_values) : Prop := {
  z_as : length (v_as v) = num; z_as_open : (num <= length (v_as_open v))%nat; z_bs : length (v_bs v) = num; z_alphas : length (v_alphas v) = num;
  z_gammas : length (v_gammas v) = num; z_enc : length (v_enc v) = num_cts vlen num;
  y_messages : nonneg (v_messages v); y_rs : nonneg (v_rs v); y_as : nonneg (v_as v); y_gammas : nonneg (v_gammas v) }.
Record first_ok (num : nat) (f : req_first) : Prop := {
  o_messages : inz N (f_messages f); o_rs : inz N (f_rs f); o_as : length (f_as f) = num /\ Forall (inz N) (f_as f); o_bs : inz N (f_bs f);
  o_alphas_1 : inz N (f_alphas_1 f); o_alphas_2 : inz N (f_alphas_2 f); o_gammas_1 : inz N (f_gammas_1 f); o_gammas_2 : inz N (f_gammas_2 f);
  o_cts : length (f_cts f) = num_cts vlen num /\ Forall fullct (f_cts f) }.

Lemma within_masked_composites num cas pk v : length cas = num -> full_public pk -> sized num v -> within (first_ok num) (masked_composites flag C b cas pk v).
Proof.
  intros Ec Hpk Z. destruct Z as [Z1 Z2 Z3 Z4 Z5 Z6 Y1 Y2 Y3 Y4]. unfold masked_composites.
  eapply within_bind; [apply within_commit; exact PO|]. intros cm Hcm. eapply within_bind; [apply within_commit; exact PO|]. intros cr Hcr.
  eapply within_bind; [apply within_commit_each; lia|]. intros ca Hca. eapply within_bind; [apply within_commit; exact PO|]. intros cb Hcb.
  eapply within_bind; [apply within_commit; exact PO|]. intros al1 Hal1. eapply within_bind; [apply within_commit; exact PO|]. intros ga1 Hga1.
  eapply within_bind; [apply within_commit; exact PO|]. intros al0 Hal0. eapply within_bind; [apply within_commit; exact PO|]. intros ga0 Hga0.
  eapply within_bind; [apply within_accumulate_verify; assumption|]. intros al2 Hal2. eapply within_bind; [apply within_accumulate_verify; assumption|]. intros ga2 Hga2.
  eapply within_bind; [apply within_parse_public; exact Hpk|]. intros keys [Ek Fk].
  set (ms := map2 _ (v_alphas v) (v_bs v)). assert (Em : length ms = num) by (unfold ms; rewrite map2_len; congruence).
  eapply within_bind.
  - apply within_homomorphic; rewrite ?map_length; try congruence; try lia; try assumption.
    + apply Forall_map. eapply Forall_impl; [|exact Fk]. cbn beta. tauto.
    + apply Forall_map. eapply Forall_impl; [|exact Fk]. cbn beta. tauto.
  - cbn beta. intros cts [E F]. rewrite Em in E. cbn [within]. subst num. constructor; cbn [f_messages f_rs f_as f_bs f_alphas_1 f_alphas_2 f_gammas_1 f_gammas_2 f_cts]; try assumption.
    split; assumption.
Qed.

Lemma within_power_inverse com c : 0 <= c -> within (inz N) (power_inverse C b com c).
Proof. intros Hc. unfold power_inverse. eapply within_bind; [apply within_ped_multiply; exact Hc|]. intros p _. apply within_mod_inverse. apply N_pos. Qed.
Lemma within_unmask m com c : 0 <= c -> within (inz N) (unmask C b m com c).
Proof. intros Hc. unfold unmask. eapply within_bind; [apply within_power_inverse; exact Hc|]. intros i _. apply within_ped_add. Qed.
Lemma within_unmask_ct m ct c : 0 <= c -> fullct m -> fullct ct -> within fullct (unmask_ct C b m ct c).
Proof.
  intros Hc Hm Hct. unfold unmask_ct. eapply within_bind; [apply (within_multiply n s cs W); [exact Hc|destruct Hct as (_ & -> & _); lia]|]. intros p Hp.
  eapply within_bind; [apply within_mod_inverse; apply M_pos|]. intros u _. eapply within_bind; [apply (within_mapM (inz M)); intros; apply within_mod_inverse; apply M_pos|].
  cbn beta. intros es [E _]. apply (within_add n s cs W); [apply Hm|]. cbn [ct_es]. rewrite E. apply Hp.
Qed.
Lemma within_unmask_all num m cm cr cas cb cal cga cts c : 0 <= c -> first_ok num m -> length cas = num -> length cts = num_cts vlen num -> Forall fullct cts ->
  within (first_ok num) (unmask_all C b m cm cr cas cb cal cga cts c).
Proof.
  intros Hc O' E1 E2 F. destruct O' as [O1 O2 [O3 O3'] O4 O5 O6 O7 O8 [O9 O9']]. unfold unmask_all.
  eapply within_bind; [apply within_unmask; exact Hc|]. intros dm Hdm. eapply within_bind; [apply within_unmask; exact Hc|]. intros dr Hdr.
  eapply within_bind.
  { apply (within_mapM (inz N)). intros i Hi. apply in_seq in Hi. eapply within_bind; [apply within_at_any; lia|]. intros com _.
    eapply within_bind; [apply within_at_any; lia|]. intros x _. apply within_unmask. exact Hc. }
  cbn beta. intros da [Eda Fda]. rewrite seq_length in Eda. eapply within_bind; [apply within_unmask; exact Hc|]. intros db Hdb.
  eapply within_bind; [apply within_power_inverse; exact Hc|]. intros ial _. eapply within_bind; [apply within_ped_add|]. intros al1 H1. eapply within_bind; [apply within_ped_add|]. intros al2 H2.
  eapply within_bind; [apply within_power_inverse; exact Hc|]. intros iga _. eapply within_bind; [apply within_ped_add|]. intros ga1 H3. eapply within_bind; [apply within_ped_add|]. intros ga2 H4.
  eapply within_bind.
  { apply (within_mapM fullct). intros i Hi. apply in_seq in Hi. eapply within_bind; [apply within_at; [|exact O9']; lia|]. intros x Hx.
    eapply within_bind; [apply within_at; [|exact F]; lia|]. intros ct Hct. apply within_unmask_ct; assumption. }
  cbn beta. intros dc [Edc Fdc]. rewrite seq_length in Edc. cbn [within]. constructor; cbn [f_messages f_rs f_as f_bs f_alphas_1 f_alphas_2 f_gammas_1 f_gammas_2 f_cts]; try assumption;
    (split; [congruence|assumption]).
Qed.
Lemma within_first_to_proto num f : first_ok num f -> within any (first_to_proto f).
Proof.
  intros [O1 O2 [O3 O3'] O4 O5 O6 O7 O8 [O9 O9']]. unfold first_to_proto.
  eapply within_bind; [apply within_to_bytes; lia|]. intros b1 _. eapply within_bind; [apply within_to_bytes; lia|]. intros b2 _.
  eapply within_bind; [apply (within_bytes_vector _ N O3')|]. intros b3 _.
  do 5 (eapply within_bind; [apply within_to_bytes; lia|]; intros ? _).
  eapply within_bind; [apply (within_mapM any)|intros; exact I]. intros c Hc. eapply within_weaken; [apply (within_ct_proto cs)|intros; exact I]. exact (proj1 (Forall_forall _ _) O9' c Hc).
Qed.
Lemma within_ro x : within any (let* bound := bn_lshift 1 (bp_chal par) in random_oracle 512 sha x bound).
Proof. rewrite lshift_ok by lia. cbn [bind]. rewrite Z.mul_1_l. destruct (ro_pow2 sha x (bp_chal par) Hchal) as (c & -> & _). exact I. Qed.
Lemma within_req_challenge st m : within any (req_challenge C sha b st m).
Proof. apply within_ro. Qed.
Lemma within_bounds v : within any (values_in_bounds C b v).
Proof. unfold values_in_bounds. rewrite !lshift_ok by lia. exact I. Qed.

Lemma within_verify_request pk rq pf cm cr : 0 <= cm -> 0 <= cr -> full_public pk -> Forall (fun c => (vlen <= length (cp_es c))%nat) (rq_cts rq) ->
  (rq_num rq <= length (m2_as_open (rp_m2 pf)))%nat -> within any (bb_verify_request flag C sha b pk rq pf cm cr).
Proof.
  intros Hcm Hcr Hpk Hcts Hop. unfold bb_verify_request. apply within_if_err. intros _.
  do 7 (apply within_if_err; let E := fresh "E" in intros E; apply negb_false_iff, Nat.eqb_eq in E).
  destruct (Nat.eqb_spec vlen 0); [lia|]. do 2 (apply within_if_err; let E := fresh "E" in intros E; apply negb_false_iff, Nat.eqb_eq in E).
  eapply within_bind; [apply within_to_bytes; exact Hcm|]. intros cmb _. eapply within_bind; [apply within_to_bytes; exact Hcr|]. intros crb _. cbv zeta.
  eapply within_bind; [apply (within_mapM fullct); intros c Hc; apply (within_parse_full cs); exact (proj1 (Forall_forall _ _) Hcts c Hc)|]. cbn beta. intros cts [Ec Fc].
  eapply within_bind; [apply within_bounds|]. intros inb _. apply within_if_err. intros _.
  eapply within_bind; [apply (within_masked_composites (rq_num rq)); [rewrite parse_len; assumption|exact Hpk|]|].
  - constructor; cbn [values_of_proto v_as v_as_open v_bs v_alphas v_gammas v_enc v_messages v_rs]; rewrite ?parse_len; try assumption; apply of_bytes_all.
  - intros m Hm. eapply within_bind; [apply (within_unmask_all (rq_num rq)); try assumption; [apply of_bytes_nonneg|rewrite parse_len; assumption|congruence]|].
    intros f Hf. eapply within_bind; [apply (within_first_to_proto (rq_num rq)); exact Hf|]. intros m1 _. eapply within_bind; [apply within_req_challenge|]. intros c' _.
    apply within_if_err. intros _. exact I.
Qed.
(** What an accepted request looks like. *)
Lemma verified_request pk rq pf cm cr : bb_verify_request flag C sha b pk rq pf cm cr = Ok tt ->
  (rq_num rq <= num_gs)%nat /\ length (rq_cts rq) = num_cts vlen (rq_num rq).
Proof.
  unfold bb_verify_request. destruct (Nat.ltb_spec num_gs (rq_num rq)); [discriminate|].
  do 7 (match goal with |- context [negb ?x] => destruct (negb x); [discriminate|] end). destruct (Nat.eqb_spec vlen 0); [lia|].
  destruct (Nat.eqb_spec (length (rq_cts rq)) (num_cts vlen (rq_num rq))); [|discriminate]. intros _. split; assumption.
Qed.

(** ** Checking a response *)
Lemma within_rsp_challenge pk cm cr rq rsp cb m : 0 <= cm -> 0 <= cr -> 0 <= cb -> within any (rsp_challenge C sha b pk cm cr rq rsp cb m).
Proof.
  intros H1 H2 H3. unfold rsp_challenge. rewrite lshift_ok by lia. cbn [bind]. rewrite Z.mul_1_l.
  do 3 (eapply within_bind; [apply within_to_bytes; assumption|]; intros ? _). match goal with |- context [random_oracle 512 sha ?x] => destruct (ro_pow2 sha x (bp_chal par) Hchal) as (c & -> & _) end. exact I.
Qed.
Lemma batch_ok num i : (i < num_cts vlen num)%nat -> (i * vlen + batch_size C b num i <= num)%nat /\ (batch_size C b num i <= vlen)%nat.
Proof. intros Hi. pose proof (num_cts_spec vlen num i Hlen Hi) as H. unfold batch_size. destruct (Nat.ltb_spec num (i * vlen)); lia. Qed.
Lemma within_recover_es num mbetas mxs cts c i : (i < length cts)%nat -> length cts = num_cts vlen num -> length mbetas = num -> length mxs = vlen -> nonneg mxs -> 0 <= c ->
  Forall fullct cts -> within (fun l => Forall (inz M) l) (recover_es flag C b num mbetas mxs cts c i).
Proof.
  intros Hi E1 E2 E3 Hx Hc F. unfold recover_es. cbv zeta. destruct (batch_ok num i ltac:(lia)) as [B1 B2].
  eapply within_bind; [apply (within_slice any); [lia|lia|apply Forall_forall; intros; exact I]|]. intros batch _.
  eapply within_bind; [apply (within_encrypt flag n s cs W)|]. intros ict (_ & Ei & _). eapply within_bind; [apply within_at; [exact Hi|exact F]|]. intros ct (_ & Ect & _).
  eapply within_weaken; [apply (within_mapM (inz M))|cbn beta; tauto]. intros j Hj. apply in_seq in Hj.
  eapply within_bind; [apply within_at_any; lia|]. intros e _. eapply within_bind; [apply within_at; [|exact Hx]; lia|]. cbn beta. intros x Px.
  eapply within_bind; [apply within_mod_exp; [apply M_pos|exact Px]|]. intros ux _. eapply within_bind; [apply within_mod_mul; apply M_pos|]. intros me _.
  eapply within_bind; [apply within_at_any; lia|]. intros e0 _. eapply within_bind; [apply within_mod_exp; [apply M_pos|exact Hc]|]. intros ec _.
  eapply within_bind; [apply within_mod_inverse; apply M_pos|]. intros inv _. apply within_mod_mul. apply M_pos.
Qed.
Lemma within_recover_ys mxs c : length mxs = vlen -> nonneg mxs -> 0 <= c -> within (fun l => Forall (inz M) l) (recover_ys C b mxs c).
Proof.
  intros E Hx Hc. unfold recover_ys. eapply within_weaken; [apply (within_mapM (inz M))|cbn beta; tauto]. intros i Hi. apply in_seq in Hi.
  eapply within_bind; [apply within_at; [|exact Hx]; lia|]. cbn beta. intros x Px. eapply within_bind; [apply within_mod_exp; [apply M_pos|exact Px]|]. intros gx _.
  eapply within_bind; [apply within_at_any; unfold cs_len in *; lia|]. intros y _. eapply within_bind; [apply within_mod_exp; [apply M_pos|exact Hc]|]. intros yc _.
  eapply within_bind; [apply within_mod_inverse; apply M_pos|]. intros inv _. apply within_mod_mul. apply M_pos.
Qed.
(** A request with as many ciphertexts as its messages need, each with all its components. *)
Definition full_request (rq : bb_request) : Prop :=
  length (rq_cts rq) = num_cts vlen (rq_num rq) /\ Forall (fun c => (vlen <= length (cp_es c))%nat) (rq_cts rq).
Lemma within_cube extra : 0 <= extra -> within (fun z => z = 2 ^ (2 * bp_chal par + 2 * bp_sec par + extra) * q * q * q) (cube_bound C par extra).
Proof. intros H. unfold cube_bound. rewrite lshift_ok by lia. cbn [bind within]. rewrite Z.mul_1_l. reflexivity. Qed.
Lemma within_verify_response pk rsp pf rq cm cr : 0 <= cm -> 0 <= cr -> full_request rq -> within any (bb_verify_response flag C sha b pk rsp pf rq cm cr).
Proof.
  intros Hcm Hcr [Hn Hf]. unfold bb_verify_response. do 3 (apply within_if_err; let E := fresh "E" in intros E; apply negb_false_iff, Nat.eqb_eq in E).
  eapply within_bind; [apply (within_mapM fullct); intros c Hc; apply (within_parse_full cs); exact (proj1 (Forall_forall _ _) Hf c Hc)|]. cbn beta. intros cts [Ec Fc].
  eapply within_bind; [apply within_parse_points; exact L|]. cbn beta. intros vals Ev. cbv zeta.
  assert (Hc : 0 <= of_bytes (sp_challenge pf)) by apply of_bytes_nonneg. set (c := of_bytes (sp_challenge pf)) in *.
  eapply within_bind; [apply (within_cube 1); lia|]. intros bound _. apply within_if_err. intros _.
  eapply within_bind; [apply (within_mapM any)|].
  { intros i Hi. apply in_seq in Hi. eapply within_bind; [apply within_at_any; lia|]. intros v _. eapply within_bind; [apply within_at_any; rewrite parse_len; lia|]. intros m _. exact I. }
  intros dgs _. eapply within_bind; [apply within_points_proto|]. intros dgsb _.
  eapply within_bind; [apply (within_mapM any)|].
  { intros i Hi. apply in_seq in Hi. eapply within_bind; [apply within_recover_es; rewrite ?parse_len; try assumption; try lia; apply of_bytes_all|]. cbn beta. intros l Hl.
    eapply within_weaken; [apply (within_bytes_vector l M Hl)|intros; exact I]. }
  intros des _. eapply within_bind; [apply within_commit; exact PO|]. intros mcom _. eapply within_bind; [apply within_unmask; exact Hc|]. cbn beta. intros dcb Hd.
  eapply within_bind; [apply within_to_bytes; lia|]. intros dcbb _. eapply within_bind; [apply within_recover_ys; [rewrite parse_len; assumption|apply of_bytes_all|exact Hc]|]. cbn beta. intros dys Hy.
  eapply within_bind; [apply (within_bytes_vector dys M Hy)|]. intros dysb _. eapply within_bind; [apply within_rsp_challenge; try assumption; apply of_bytes_nonneg|]. intros c' _.
  apply within_if_err. intros _. exact I.
Qed.

(** ** Generated keys *)
Lemma within_relprime raws m : 0 < m -> within any (relatively_prime_random raws m).
Proof.
  intros Hm. induction raws as [|r raws IH]; [exact I|]. cbn [relatively_prime_random]. eapply within_bind; [apply within_rand; exact Hm|]. intros x _.
  destruct (_ <? _); [exact IH|exact I].
Qed.
Lemma within_cs_encrypt ms raws : within fullct (cs_encrypt flag cs ms raws).
Proof.
  unfold cs_encrypt. eapply within_bind with (P := fun x => fullct (fst x)).
  - unfold cs_encrypt_and_get_rand. apply within_if_err. intros _. eapply within_bind; [apply within_relprime; rewrite (w_n _ _ _ W); pose proof (w_gt _ _ _ W); lia|]. intros r _.
    eapply within_bind; [apply (within_encrypt flag n s cs W)|]. intros ct Hct. exact Hct.
  - intros [ct r] H. exact H.
Qed.
Lemma within_keys rk ry ek ey : within (fun k => full_public (fst k)) (bb_generate_keys flag C b rk ry ek ey).
Proof.
  unfold bb_generate_keys. cbv zeta. pose proof (private_key_range C L rk). pose proof (private_key_range C L ry).
  do 2 (eapply within_bind; [apply within_to_bytes; lia|]; intros ? _).
  eapply within_bind; [apply (within_mapM (fun x => length (cp_es (fst x)) = vlen /\ length (cp_es (snd x)) = vlen))|].
  - intros i _. eapply within_bind; [apply within_cs_encrypt|]. intros ck Hk. eapply within_bind; [apply (within_ct_proto cs); exact Hk|]. cbn beta. intros pk Epk.
    eapply within_bind; [apply within_cs_encrypt|]. intros cy Hy. eapply within_bind; [apply (within_ct_proto cs); exact Hy|]. cbn beta. intros py Epy. split; assumption.
  - cbn beta. intros cts [E F]. rewrite seq_length in E. cbn [within fst snd]. unfold full_public. cbn [bpk_k bpk_y]. rewrite !map_length, E. split; [lia|]. split; [lia|].
    split; apply Forall_map; (eapply Forall_impl; [|exact F]); cbn beta; intros z [E1 E2]; lia.
Qed.

(** ** Making a request *)
Lemma within_accumulate coms : forall es acc, nonneg es -> inz N acc -> within (inz N) (accumulate C b acc coms es).
Proof.
  induction coms as [|c coms IH]; intros es acc He Ha; cbn [accumulate]; [exact Ha|]. destruct es as [|e es]; [exact Ha|]. apply Forall_cons_iff in He. destruct He as [He Hes].
  eapply within_bind; [apply within_ped_multiply; exact He|]. intros p _. eapply within_bind; [apply within_ped_add|]. intros a Ha'. apply IH; assumption.
Qed.
Lemma dot_nonneg os : forall es acc, 0 <= acc -> nonneg os -> nonneg es -> 0 <= dot acc os es.
Proof.
  induction os as [|o os IH]; intros es acc Ha Ho He; cbn [dot]; [exact Ha|]. destruct es as [|e es]; [exact Ha|]. apply Forall_cons_iff in Ho, He. destruct Ho, He.
  apply IH; try assumption. nia.
Qed.
Lemma within_ped_commit ms r : within (fun x => inz N (fst x) /\ inz N (snd x)) (ped_commit ped ms r).
Proof.
  unfold ped_commit. eapply within_bind; [apply within_rand; apply N_pos|]. intros r' Hr. eapply within_bind; [apply within_commit; exact PO|]. intros c Hc. split; assumption.
Qed.
(** Values whose sizes fit [num] messages. *)
Record values_ok (num : nat) (v : req_values) : Prop := {
  k_lm : length (v_messages v) = num; k_lr : length (v_rs v) = num; k_la : length (v_as v) = num; k_lao : length (v_as_open v) = num; k_lb : length (v_bs v) = num;
  k_lal : length (v_alphas v) = num; k_lga : length (v_gammas v) = num; k_le : length (v_enc v) = num_cts vlen num;
  k_m : nonneg (v_messages v); k_r : nonneg (v_rs v); k_a : nonneg (v_as v); k_ao : nonneg (v_as_open v); k_b : nonneg (v_bs v); k_al : nonneg (v_alphas v); k_ga : nonneg (v_gammas v);
  k_e : nonneg (v_enc v); k_mo : 0 <= v_messages_open v; k_ro : 0 <= v_rs_open v; k_bo : 0 <= v_bs_open v; k_al1 : 0 <= v_alphas_1 v; k_al2 : 0 <= v_alphas_2 v;
  k_ga1 : 0 <= v_gammas_1 v; k_ga2 : 0 <= v_gammas_2 v }.
Lemma nonneg_mul2 xs ys : nonneg xs -> nonneg ys -> nonneg (map2 Z.mul xs ys).
Proof. intros. unfold nonneg. apply (map2_Forall (fun z => 0 <= z) (fun z => 0 <= z)); try assumption. intros; nia. Qed.
Lemma within_commit_secrets ms rs as_ bs om or_ enc e : length rs = length ms -> length as_ = length ms -> length bs = length ms -> length enc = num_cts vlen (length ms) ->
  nonneg ms -> nonneg rs -> nonneg as_ -> nonneg bs -> nonneg enc -> 0 <= om -> 0 <= or_ ->
  within (fun r => (length (rc_as (fst r)) = length ms /\ Forall (inz N) (rc_as (fst r)) /\ inz N (rc_bs (fst r)) /\ inz N (rc_alphas (fst r)) /\ inz N (rc_gammas (fst r))) /\
                   values_ok (length ms) (snd r)) (commit_secrets C b ms rs as_ bs om or_ enc e).
Proof.
  intros E1 E2 E3 E4 Hm Hr Ha Hb He Hom Hor. unfold commit_secrets.
  eapply within_bind; [apply (within_mapM (fun x => inz N (fst x) /\ inz N (snd x)))|].
  { intros i Hi. apply in_seq in Hi. eapply within_bind; [apply within_at_any; lia|]. intros a _. apply within_ped_commit. }
  cbn beta. intros cas [Ec Fc]. rewrite seq_length in Ec. eapply within_bind; [apply within_ped_commit|]. intros [cb ob] [Hcb Hob]. cbn [fst snd] in *.
  eapply within_bind; [apply within_ped_commit|]. intros [al0 oal] [Hal0 Hoal]. cbn [fst snd] in *. eapply within_bind; [apply within_ped_commit|]. intros [ga0 oga] [Hga0 Hoga]. cbn [fst snd] in *.
  eapply within_bind; [apply within_accumulate; [exact Hm|exact Hal0]|]. intros al Hal. eapply within_bind; [apply within_accumulate; [exact Hr|exact Hga0]|]. intros ga Hga.
  assert (F1 : Forall (inz N) (map fst cas)) by (apply Forall_map; eapply Forall_impl; [|exact Fc]; cbn beta; tauto).
  assert (F2 : Forall (inz N) (map snd cas)) by (apply Forall_map; eapply Forall_impl; [|exact Fc]; cbn beta; tauto).
  apply inz_nonneg in F2. cbn [within fst snd rc_as rc_bs rc_alphas rc_gammas]. split; [rewrite map_length; repeat (split; [assumption || congruence|]); assumption|].
  constructor; cbn [v_messages v_messages_open v_rs v_rs_open v_as v_as_open v_bs v_bs_open v_alphas v_alphas_1 v_alphas_2 v_gammas v_gammas_1 v_gammas_2 v_enc];
    rewrite ?map_length, ?map2_len by congruence; try assumption; try congruence; try lia; try (apply nonneg_mul2; assumption); apply dot_nonneg; try assumption; lia.
Qed.
Lemma within_draw_dummies num e : within (values_ok num) (draw_dummies C b num e).
Proof.
  pose proof q_pos as Hq. pose proof N_pos as HN. pose proof (w_gt _ _ _ W) as Hn1. unfold draw_dummies.
  assert (H2 : 0 < 2 ^ (bp_chal par + bp_sec par)) by (apply Z.pow_pos_nonneg; lia).
  do 3 (eapply within_bind; [apply within_lshift; lia|]; cbn beta; intros ? ->). cbv zeta.
  do 2 (eapply within_bind; [apply within_lshift; lia|]; cbn beta; intros ? ->). rewrite (w_n _ _ _ W). set (T := 2 ^ (bp_chal par + bp_sec par)) in *.
  assert (P1 : 0 < q * T) by (apply Z.mul_pos_pos; assumption). assert (P2 : 0 < N * T) by (apply Z.mul_pos_pos; assumption). assert (P3 : 0 < q * q * T * T) by (repeat apply Z.mul_pos_pos; assumption).
  assert (P4 : 0 < q * T * q) by (repeat apply Z.mul_pos_pos; assumption). assert (P5 : 0 < N * T * q * Z.of_nat (num + 1)) by (repeat apply Z.mul_pos_pos; try assumption; lia).
  assert (P6 : 0 < n * T) by (apply Z.mul_pos_pos; lia).
  do 7 (eapply within_bind; [apply within_draws; assumption|]; cbn beta; intros ? [? ?]).
  do 7 (eapply within_bind; [apply within_rand; assumption|]; cbn beta; intros ? [? _]).
  eapply within_bind; [apply within_draws; assumption|]; cbn beta; intros ? [? ?]. cbn [within].
  constructor; cbn [v_messages v_messages_open v_rs v_rs_open v_as v_as_open v_bs v_bs_open v_alphas v_alphas_1 v_alphas_2 v_gammas v_gammas_1 v_gammas_2 v_enc]; try assumption;
    eapply inz_nonneg; eassumption.
Qed.
Lemma within_composites num cas keys v : length keys = vlen -> Forall (fun c => fullct (fst c) /\ fullct (snd c)) keys -> values_ok num v -> within (first_ok num) (composites flag C b cas keys v).
Proof.
  intros Ek Fk [L1 L2 L3 L4 L5 L6 L7 L8 K1 K2 K3 K4 K5 K6 K7 K8 _ _ _ _ _ _ _]. unfold composites.
  eapply within_bind; [apply within_commit; exact PO|]. intros cm Hcm. eapply within_bind; [apply within_commit; exact PO|]. intros cr Hcr.
  eapply within_bind; [apply within_commit_each; lia|]. cbn beta. intros ca Hca. rewrite L1 in Hca. eapply within_bind; [apply within_commit; exact PO|]. intros cb Hcb.
  eapply within_bind; [apply within_commit; exact PO|]. intros al1 Hal1. eapply within_bind; [apply within_commit; exact PO|]. intros ga1 Hga1.
  eapply within_bind; [apply within_commit; exact PO|]. intros al0 Hal0. eapply within_bind; [apply within_commit; exact PO|]. intros ga0 Hga0.
  eapply within_bind; [apply within_accumulate; assumption|]. intros al2 Hal2. eapply within_bind; [apply within_accumulate; assumption|]. intros ga2 Hga2.
  set (ms := map2 _ (v_alphas v) (v_bs v)). assert (Em : length ms = num) by (unfold ms; rewrite map2_len; congruence).
  eapply within_bind.
  - apply within_homomorphic; rewrite ?map_length; try congruence; try lia; try assumption.
    + apply Forall_map. eapply Forall_impl; [|exact Fk]. cbn beta. tauto.
    + apply Forall_map. eapply Forall_impl; [|exact Fk]. cbn beta. tauto.
  - cbn beta. intros cts [E F]. rewrite Em in E. cbn [within]. constructor; cbn [f_messages f_rs f_as f_bs f_alphas_1 f_alphas_2 f_gammas_1 f_gammas_2 f_cts]; try assumption.
    split; assumption.
Qed.
Lemma nonneg_mask c xs ys : 0 <= c -> nonneg xs -> nonneg ys -> nonneg (map2 (mask c) xs ys).
Proof. intros. unfold nonneg. apply (map2_Forall (fun z => 0 <= z) (fun z => 0 <= z)); try assumption. intros; unfold mask; nia. Qed.
Lemma mask_nonneg c d w : 0 <= c -> 0 <= d -> 0 <= w -> 0 <= mask c d w. Proof. unfold mask. nia. Qed.
Lemma within_values_to_proto num v : values_ok num v -> within any (values_to_proto v).
Proof.
  intros [_ _ _ _ _ _ _ _ K1 K2 K3 K4 K5 K6 K7 K8 J1 J2 J3 J4 J5 J6 J7]. unfold values_to_proto.
  repeat first [eapply within_bind; [first [apply within_bytes_nonneg; assumption|apply within_to_bytes; assumption]|]; intros ? _]. exact I.
Qed.
Lemma masked_ok num c d w : 0 <= c -> values_ok num d -> values_ok num w -> values_ok num (masked_values c d w).
Proof.
  intros Hc [L1 L2 L3 L4 L5 L6 L7 L8 K1 K2 K3 K4 K5 K6 K7 K8 J1 J2 J3 J4 J5 J6 J7] [L1' L2' L3' L4' L5' L6' L7' L8' K1' K2' K3' K4' K5' K6' K7' K8' J1' J2' J3' J4' J5' J6' J7'].
  constructor; cbn [masked_values v_messages v_messages_open v_rs v_rs_open v_as v_as_open v_bs v_bs_open v_alphas v_alphas_1 v_alphas_2 v_gammas v_gammas_1 v_gammas_2 v_enc];
    rewrite ?map2_len by congruence; try assumption; try (apply nonneg_mask; assumption); apply mask_nonneg; assumption.
Qed.
Lemma within_request ms rs pk cm om cr or_ e : nonneg ms -> nonneg rs -> 0 <= cm -> 0 <= om -> 0 <= cr -> 0 <= or_ -> full_public pk ->
  within (fun r => rq_num (fst (fst r)) = length ms /\ full_request (fst (fst r)) /\ length (snd r) = length ms) (bb_request_and_proof flag C sha b ms rs pk cm om cr or_ e).
Proof.
  intros Hm Hr Hcm Hom Hcr Hor Hpk. pose proof q_pos as Hq. pose proof N_pos as HN. pose proof (w_gt _ _ _ W) as Hn1. unfold bb_request_and_proof. apply within_if_err. intros _.
  apply within_if_err. intros E. apply negb_false_iff, Nat.eqb_eq in E.
  eapply within_bind with (P := fun x => length (fst x) = length ms /\ nonneg (fst x) /\ length (snd x) = length ms /\ nonneg (snd x)).
  { unfold draw_masks. cbv zeta. eapply within_bind; [apply within_lshift; lia|]. cbn beta. intros ? ->.
    assert (H2 : 0 < 2 ^ (bp_chal par + bp_sec par)) by (apply Z.pow_pos_nonneg; lia). eapply within_bind; [apply within_draws; repeat apply Z.mul_pos_pos; assumption|].
    cbn beta. intros bs [E1 F1]. cbn [within fst snd]. rewrite map_length, seq_length. split; [reflexivity|]. split; [|split; [exact E1|eapply inz_nonneg; exact F1]].
    unfold nonneg. apply Forall_tabulate. intros i _. pose proof (private_key_range C L (e_a e i)). lia. }
  intros [as_ bs] (E1 & Ha & E2 & Hb). cbn [fst snd] in *. cbv zeta. eapply within_bind; [apply within_parse_public; exact Hpk|]. intros keys [Ek Fk].
  destruct (Nat.eqb_spec vlen 0); [lia|]. rewrite (w_n _ _ _ W). eapply within_bind; [apply within_draws; lia|]. cbn beta. intros enc [Ee Fe]. apply inz_nonneg in Fe.
  assert (Lg : length (map2 Z.mul rs as_) = length ms) by (rewrite map2_len; congruence).
  set (msk := map2 _ (map2 Z.mul ms as_) bs). assert (Em : length msk = length ms) by (unfold msk; rewrite !map2_len; rewrite ?map2_len; congruence).
  eapply within_bind.
  { apply within_homomorphic; rewrite ?map_length; try congruence; try lia; try assumption.
    - apply Forall_map. eapply Forall_impl; [|exact Fk]. cbn beta. tauto.
    - apply Forall_map. eapply Forall_impl; [|exact Fk]. cbn beta. tauto.
    - apply nonneg_mul2; assumption. }
  cbn beta. intros cts [Ec Fc]. rewrite Em in Ec. eapply within_bind; [apply within_bytes_nonneg; exact Ha|]. cbn beta. intros state Est.
  eapply within_bind; [apply (within_mapM (fun p => length (cp_es p) = vlen)); intros c Hc; apply (within_ct_proto cs); exact (proj1 (Forall_forall _ _) Fc c Hc)|]. cbn beta. intros ctsb [Eb Fb].
  eapply within_bind; [apply within_commit_secrets; assumption|]. intros [rc w] [(R1 & R2 & R3 & R4 & R5) Hw]. cbn [fst snd] in *.
  eapply within_bind; [apply within_draw_dummies|]. intros d Hd. eapply within_bind; [apply (within_composites (length ms)); assumption|]. intros f Hf.
  do 2 (eapply within_bind; [apply within_to_bytes; assumption|]; intros ? _). eapply within_bind; [apply (within_bytes_vector _ N R2)|]. intros cas _.
  do 3 (eapply within_bind; [apply within_to_bytes; lia|]; intros ? _). eapply within_bind; [apply (within_first_to_proto (length ms)); exact Hf|]. intros m1 _.
  eapply within_bind with (P := fun c => 0 <= c).
  { unfold req_challenge. rewrite lshift_ok by lia. cbn [bind]. rewrite Z.mul_1_l. match goal with |- context [random_oracle 512 sha ?x] => destruct (ro_pow2 sha x (bp_chal par) Hchal) as (c & -> & Hc) end. apply Hc. }
  intros c Hc. eapply within_bind; [apply within_to_bytes; exact Hc|]. intros chb _. eapply within_bind; [apply (within_values_to_proto (length ms)); apply masked_ok; assumption|]. intros m2 _.
  cbn [within fst snd rq_num]. split; [reflexivity|]. unfold full_request. cbn [rq_num rq_cts]. split; [|congruence]. split; [congruence|]. eapply Forall_impl; [|exact Fb]. cbn beta. intros; lia.
Qed.

(** ** Answering a request *)
Variable csk : cs_private.
Hypothesis SV : cs_priv_valid n s csk.
Hypothesis SP : cs_pub csk = cs.
Hypothesis SX : nonneg (cs_xs csk).
Hypothesis Hs : (1 <= s)%nat.

Lemma sk_len : length (cs_xs csk) = vlen.
Proof. unfold cs_len. rewrite <- SP. apply (x_len _ _ _ SV). Qed.
Lemma within_decrypt_ct c : within (fun l => length l = vlen /\ nonneg l) (cs_decrypt csk c).
Proof.
  destruct (cs_decrypt_total n s csk SV c Hs SX) as [(ms & E & F & O')|[E _]]; rewrite E; [|exact I]. cbn [within]. destruct (opens_all_length _ _ _ _ _ _ O') as [L1 L2].
  rewrite sk_len in L1. split; [congruence|]. eapply Forall_impl; [|exact F]. cbn beta. intros; lia.
Qed.
Lemma within_decrypt_request rq : length (rq_cts rq) = num_cts vlen (rq_num rq) ->
  within (fun r => length (fst r) = num_cts vlen (rq_num rq) /\ length (snd r) = rq_num rq /\ nonneg (snd r)) (decrypt_request C b csk rq).
Proof.
  intros E. unfold decrypt_request. eapply within_bind; [apply (within_mapM (fun cb => length (snd cb) = vlen /\ nonneg (snd cb)))|].
  { intros c _. eapply within_bind; [apply (within_parse_ct cs)|]. intros ct _. eapply within_bind; [apply within_decrypt_ct|]. intros bt Hb. exact Hb. }
  cbn beta. intros dec [El F]. cbv zeta. assert (El' : length (concat (map snd dec)) = (length dec * vlen)%nat /\ nonneg (concat (map snd dec))).
  { clear - F. induction F as [|x l [H1 H2] F [IH1 IH2]]; cbn [map concat length]; [split; [reflexivity|constructor]|]. rewrite app_length, H1, IH1. split; [lia|]. apply Forall_app. split; assumption. }
  destruct El' as [El1 El2]. pose proof (num_cts_enough vlen (rq_num rq) Hlen) as Hn. destruct (Nat.ltb_spec (length (concat (map snd dec))) (rq_num rq)) as [H|H]; [rewrite El1, El, E in H; lia|].
  cbn [within fst snd]. split; [rewrite map_length; congruence|]. split; [rewrite firstn_length; lia|].
  apply Forall_forall. intros x Hx. apply (proj1 (Forall_forall _ _) El2). rewrite <- (firstn_skipn (rq_num rq)). apply in_or_app. left. exact Hx.
Qed.
Lemma within_dummy_es num dbetas dxs cts i : (i < length cts)%nat -> length cts = num_cts vlen num -> length dbetas = num -> length dxs = vlen -> nonneg dxs ->
  within (fun l => Forall (inz M) l) (dummy_es flag C b csk num dbetas dxs cts i).
Proof.
  intros Hi E1 E2 E3 Hx. unfold dummy_es. rewrite SP. cbv zeta. destruct (batch_ok num i ltac:(lia)) as [B1 B2].
  eapply within_bind; [apply (within_slice any); [lia|lia|apply Forall_forall; intros; exact I]|]. intros batch _.
  eapply within_bind; [apply (within_encrypt flag n s cs W)|]. intros ict (_ & Ei & _). eapply within_bind; [apply within_at_any; exact Hi|]. intros ct _.
  eapply within_weaken; [apply (within_mapM (inz M))|cbn beta; tauto]. intros j Hj. apply in_seq in Hj.
  eapply within_bind; [apply within_at; [|exact Hx]; lia|]. cbn beta. intros x Px. eapply within_bind; [apply within_mod_exp; [apply M_pos|exact Px]|]. intros ux _.
  eapply within_bind; [apply within_at_any; lia|]. intros e _. apply within_mod_mul. apply M_pos.
Qed.
Lemma within_respond rq pk cm cr e : 0 <= cm -> 0 <= cr -> length (rq_cts rq) = num_cts vlen (rq_num rq) ->
  within (fun r => length (fst r) = rq_num rq) (bb_respond flag C sha b rq pk cm cr csk e).
Proof.
  intros Hcm Hcr Hn. pose proof q_pos as Hq. pose proof N_pos as HN. unfold bb_respond. apply within_if_err. intros _.
  eapply within_bind; [apply within_decrypt_request; exact Hn|]. intros [cts betas] (E1 & E2 & Hb). cbn [fst snd] in *.
  eapply within_bind; [unfold signature_values; apply (within_mapM any)|].
  { intros x _. eapply within_bind; [apply within_mod_inverse; exact Hq|]. intros i _. exact I. }
  cbn beta. intros vals [Ev _]. eapply within_bind; [apply within_points_proto|]. cbn beta. intros rsp Ersp.
  eapply within_bind with (P := fun x => inz N (fst x) /\ inz N (snd x)).
  { unfold ped_commit. eapply within_bind; [apply within_rand; exact HN|]. intros r Hr. eapply within_bind; [apply within_commit; exact PO|]. intros c Hc. split; assumption. }
  intros [cb ob] [Hcb Hob]. cbn [fst snd] in *. eapply within_bind; [apply within_to_bytes; lia|]. intros cbb _.
  eapply within_bind; [apply (within_cube 0); lia|]. cbn beta. intros bb_ ->.
  assert (HB : 0 < 2 ^ (2 * bp_chal par + 2 * bp_sec par + 0) * q * q * q).
  { assert (0 < 2 ^ (2 * bp_chal par + 2 * bp_sec par + 0)) by (apply Z.pow_pos_nonneg; lia). repeat apply Z.mul_pos_pos; assumption. }
  eapply within_bind; [apply within_draws; exact HB|]. cbn beta. intros dbetas [Edb Fdb]. apply inz_nonneg in Fdb. clear HB.
  rewrite (w_n _ _ _ W). eapply within_bind; [apply within_lshift; lia|]. cbn beta. intros bx ->.
  assert (HB : 0 < n * 2 ^ (bp_chal par + bp_sec par)).
  { pose proof (w_gt _ _ _ W). assert (0 < 2 ^ (bp_chal par + bp_sec par)) by (apply Z.pow_pos_nonneg; lia). apply Z.mul_pos_pos; [lia|assumption]. }
  eapply within_bind; [apply within_draws; exact HB|]. cbn beta. intros dxs [Edx Fdx]. apply inz_nonneg in Fdx.
  eapply within_bind; [apply within_rand; exact HB|]. cbn beta. intros dopen [Hdo _]. clear HB.
  eapply within_bind; [apply within_commit; exact PO|]. cbn beta. intros dcb Hdcb.
  eapply within_bind; [apply (within_mapM (inz M))|].
  { intros i Hi. apply in_seq in Hi. eapply within_bind; [apply within_at; [|exact Fdx]; lia|]. cbn beta. intros x Px. rewrite SP. apply within_mod_exp; [apply M_pos|exact Px]. }
  cbn beta. intros dys [_ Fdy]. eapply within_bind; [apply (within_mapM any)|].
  { intros i Hi. apply in_seq in Hi. eapply within_bind; [apply within_at_any; lia|]. intros v _. eapply within_bind; [apply within_at_any; lia|]. intros d _. exact I. }
  intros dgs _. eapply within_bind; [apply (within_bytes_vector dys M Fdy)|]. intros dysb _. eapply within_bind; [apply within_to_bytes; lia|]. intros dcbb _.
  eapply within_bind; [apply within_points_proto|]. intros dgsb _. eapply within_bind; [apply (within_mapM any)|].
  { intros i Hi. apply in_seq in Hi. eapply within_bind; [apply within_dummy_es; try assumption; lia|]. cbn beta. intros l Hl.
    eapply within_weaken; [apply (within_bytes_vector l M Hl)|intros; exact I]. }
  intros des _. eapply within_bind with (P := fun c => 0 <= c).
  { unfold rsp_challenge. rewrite lshift_ok by lia. cbn [bind]. rewrite Z.mul_1_l. do 2 (eapply within_bind; [apply within_to_bytes; assumption|]; intros ? _). eapply within_bind; [apply within_to_bytes; lia|]. intros ? _.
    match goal with |- context [random_oracle 512 sha ?x] => destruct (ro_pow2 sha x (bp_chal par) Hchal) as (c & -> & Hc) end. apply Hc. }
  cbn beta. intros c Hc. eapply within_bind; [apply within_to_bytes; exact Hc|]. intros chb _. eapply within_bind; [apply (within_mapM (fun z => 0 <= z))|].
  { intros i Hi. apply in_seq in Hi. eapply within_bind; [apply within_at; [|exact Fdx]; lia|]. cbn beta. intros d Pd. eapply within_bind; [apply within_at; [|exact SX]; rewrite sk_len; lia|]. cbn beta. intros x Px. cbn. nia. }
  cbn beta. intros mx [_ Fmx]. eapply within_bind.
  { apply within_bytes_nonneg. unfold nonneg. apply (map2_Forall (fun z => 0 <= z) (fun z => 0 <= z)); [intros x y Hx Hy; nia|exact Fdb|exact Hb]. }
  intros mbb _. eapply within_bind; [apply within_bytes_nonneg; exact Fmx|]. intros mxb _. eapply within_bind; [apply within_to_bytes; nia|]. intros mob _. cbn. congruence.
Qed.
End BBsafe.
