(** Theorems on observers of the oblivious signature who query the hash function (C79). *)
From Coq Require Import Znumtheory.
From Verif Require Import Base M_BigNum M_Num M_EC M_Proto M_CS M_Pedersen M_VRF M_BB S_CS S_Pedersen S_BB S_BBquery S_BBrequest S_Hide S_HideBB L_BigNum L_Num L_Mod L_DJ L_CS L_EC L_Cipher L_Protocol
  L_Toy L_Pedersen L_VRF L_BBct L_BBhom L_BBped L_BBreq L_BBrsp L_BB L_BBsound L_BBrequest L_Hide L_HideRsp L_HideReq P_CS P_Pedersen P_BB P_Hide P_HideBB S_Oracle L_Oracle P_Oracle S_Zk L_Zk S_ZkQuery P_Zk.

(** The same answer to the only question leads to the same message. *)
Lemma same_answer {A} k (run : (bytes -> bytes) -> outcome A) z next sha sha' c : asks (Ask z next) 1 -> is_code k run (Ask z next) ->
  random_oracle 512 sha z (2 ^ k) = Ok c -> random_oracle 512 sha' z (2 ^ k) = Ok c -> run sha = run sha'.
Proof.
  intros Ha Hc E1 E2. rewrite <- (Hc sha), <- (Hc sha'). cbn [answered]. rewrite E1, E2. cbn [bind]. cbn [asks] in Ha. specialize (Ha c). destruct (next c); [reflexivity|contradiction].
Qed.

Definition respond_tree flag C b rq pk cm cr csk e : as_tree (bp_chal (bb_par C b)) 1 (fun sha512 => bb_respond flag C sha512 b rq pk cm cr csk e).
Proof.
  unfold bb_respond. repeat (cbv beta; lazymatch goal with |- as_tree _ _ (fun sha => bind (rsp_challenge _ _ _ _ _ _ _ _ _ _) _) => fail | _ => code_step end).
  apply code_after. unfold rsp_challenge. apply code_bind. intros bound E. assert (Hb : bound = 2 ^ bp_chal (bb_par C b)).
  { unfold bn_lshift in E. destruct (_ <? 0); [discriminate|]. injection E as <-. apply Z.mul_1_l. }
  rewrite Hb. do 3 code_step. apply code_oracle.
Defined.
Definition request_tree flag C b ms rs pk cm om cr or_ e : as_tree (bp_chal (bb_par C b)) 1 (fun sha512 => bb_request_and_proof flag C sha512 b ms rs pk cm om cr or_ e).
Proof.
  unfold bb_request_and_proof. cbv zeta. repeat (cbv beta; lazymatch goal with |- as_tree _ _ (fun sha => bind (req_challenge _ _ _ _ _) _) => fail | _ => code_step end).
  apply code_after. unfold req_challenge. apply code_bind. intros bound E. assert (Hb : bound = 2 ^ bp_chal (bb_par C b)).
  { unfold bn_lshift in E. destruct (_ <? 0); [discriminate|]. injection E as <-. apply Z.mul_1_l. }
  rewrite Hb. apply code_oracle.
Defined.

(** The response to an honest request, which shows the signature values and a commitment: whoever may query the hash function learns nothing else from it. *)
Theorem C79_response : forall flag C sha0 p b n s g xs ys csk pp num rk ry ek ey pk sk ms rs om or_ e rq pf st u,
  ec_laws C -> bb_system flag C p b n s g xs ys csk pp num -> bb_generate_keys flag C b rk ry ek ey = Ok (pk, sk) ->
  Forall (fun x => 0 <= x < ec_order C) ms -> Forall (fun x => 0 <= x < ec_order C) rs -> 0 <= om -> 0 <= or_ ->
  let k := of_bytes (bsk_k sk) in let y := of_bytes (bsk_y sk) in
  let cm := commitment (pp_gs pp) (pp_h pp) (pp_n pp) ms om in let cr := commitment (pp_gs pp) (pp_h pp) (pp_n pp) rs or_ in
  bb_request_and_proof flag C sha0 b ms rs pk cm om cr or_ e = Ok (rq, pf, st) ->
  (forall m r, In (m, r) (combine ms rs) -> (m + k + y * r) mod ec_order C <> 0) ->
  Forall (fun x => x <= n) xs -> 0 <= u -> pp_n pp <= u * n ->
  let m := length ms in
  exists Ps betas, Forall2 (fun mr P => bb_value C (bb_base C b) k y (fst mr) (snd mr) P) (combine ms rs) Ps /\ length betas = m /\ Forall (fun x => 0 <= x) betas /\
  let vals := sent_points C st Ps in
  forall o, exists cbb, to_bytes (commitment (pp_gs pp) (pp_h pp) (pp_n pp) betas (o mod pp_n pp)) = Ok cbb /\
    shows_nothing (bp_chal p) (2 * Z.of_nat m + Z.of_nat (length ys) + u) (bp_sec p) (response_bounds C b m) (fun _ => respond_draws_bad (ec_order C) m)
      (fun sha512 ds => bb_respond flag C sha512 b rq pk cm cr csk (response_entropy C b m o ds))
      (fun a => response_query flag C b pk (fst a) (snd a) rq cm cr)
      (fun c ds => simulated_response C b vals (map (ec_enc C) vals) cbb m c ds).
Proof.
  intros flag C sha0 p b n s g xs ys csk pp num rk ry ek ey pk sk ms rs om or_ e rq pf st u L Sy E Hm Hr Hom Hor k y cm cr Er Hdf Hxs Hu HuN m.
  destruct (C65_response_hides flag C sha0 p b n s g xs ys csk pp num rk ry ek ey pk sk ms rs om or_ e rq pf st u L Sy E Hm Hr Hom Hor Er Hdf Hxs Hu HuN) as (Ps & betas & Vs & Lv & Nv & Hd).
  exists Ps, betas. split; [exact Vs|]. split; [exact Lv|]. split; [exact Nv|]. intros vals o. destruct (Hd o) as (cbb & Ecb & D). exists cbb. split; [exact Ecb|]. fold m cm cr vals in D.
  destruct (system_facts _ _ _ _ _ _ _ _ _ _ _ _ L Sy) as [sf_par0 sf_pp0 sf_W0 sf_g0 sf_k0 sf_ys0 sf_len0 sf_sv0 sf_sp0 sf_sx0 sf_po0 sf_un0 sf_sec0 sf_chal0 sf_base0 sf_bound0].
  assert (Hchal : 0 < bp_chal p <= 120000) by (rewrite <- sf_par0; exact sf_chal0). assert (Hsec : 0 < bp_sec p) by (rewrite <- sf_par0; exact sf_sec0).
  pose proof (n1 n s _ sf_W0) as Hn. pose proof (order_gt1 C L) as Hq.
  assert (Hb : Forall (fun x => 0 <= x) (response_bounds C b m)).
  { assert (P2 : 0 <= 2 ^ (bp_chal (bb_par C b) + bp_sec (bb_par C b))) by (apply Z.pow_nonneg; lia). assert (P3 : 0 <= 2 ^ (2 * bp_chal (bb_par C b) + 2 * bp_sec (bb_par C b))) by (apply Z.pow_nonneg; lia).
    unfold response_bounds. cbv zeta. rewrite (w_n _ _ _ sf_W0). apply Forall_app. split; [|apply Forall_app; split].
    - apply Forall_forall. intros x Hx. apply repeat_spec in Hx. subst x. repeat (apply Z.mul_nonneg_nonneg; try lia).
    - apply Forall_forall. intros x Hx. apply repeat_spec in Hx. subst x. apply Z.mul_nonneg_nonneg; lia.
    - repeat constructor. apply Z.mul_nonneg_nonneg; lia. }
  pose proof (every_answer (bp_chal p) ltac:(lia)) as EA.
  assert (Run : forall ds, respond_draws_bad (ec_order C) m ds = false -> forall sha, exists a x, bb_respond flag C sha b rq pk cm cr csk (response_entropy C b m o ds) = Ok a /\
      response_query flag C b pk (fst a) (snd a) rq cm cr = Ok x /\ random_oracle 512 sha x (2 ^ bp_chal p) = Ok (of_bytes (sp_challenge (snd a)))).
  { intros ds Bad sha. destruct (C50_evaluation flag C sha0 sha p b n s g xs ys csk pp num rk ry ek ey pk sk ms rs om or_ e rq pf st (response_entropy C b m o ds) L Sy E Hm Hr Hom Hor Er) as (_ & _ & A).
    destruct (A Hdf) as (rsp & pf2 & Ps' & E1 & E2 & _).
    { intros j Hj H0. cbn [response_entropy s_betas] in H0. assert (X : respond_draws_bad (ec_order C) m ds = true); [|congruence]. apply existsb_exists. exists j. split; [apply in_seq; lia|]. apply Z.eqb_eq. exact H0. }
    fold cm cr in E1, E2. rewrite verify_query in E2 by (rewrite sf_par0; lia). rewrite sf_par0 in E2. apply bind_ok in E2. destruct E2 as (x & Ex & A2). apply bind_ok in A2. destruct A2 as (c & Ec & A2).
    destruct (Z.eqb_spec c (of_bytes (sp_challenge pf2))); [|discriminate]. subst c. exists (rsp, pf2), x. split; [exact E1|]. split; [exact Ex|exact Ec]. }
  rewrite <- sf_par0 in *.
  apply (games_close _ _ _ _ (fun _ => respond_draws_bad (ec_order C) m) _ _ _ (fun ds => proj1_sig (respond_tree flag C b rq pk cm cr csk (response_entropy C b m o ds)))); try lia; try assumption.
  - intros ds _. exact (proj2_sig (respond_tree flag C b rq pk cm cr csk (response_entropy C b m o ds))).
  - intros ds c _ Hc Bad. destruct (respond_tree flag C b rq pk cm cr csk (response_entropy C b m o ds)) as (tree & T1 & T2). cbn [proj1_sig].
    apply (accepted_one_question (bp_chal (bb_par C b)) _ (fun a => of_bytes (sp_challenge (snd a))) _ _ _ (proj1 Hchal) Hc EA T1 T2).
    + intros sha z _ _ _. apply Run. exact Bad.
    + apply (not_silent (bp_chal (bb_par C b)) (fun a => response_query flag C b pk (fst a) (snd a) rq cm cr) (fun a => of_bytes (sp_challenge (snd a))) _ _ (proj1 Hchal) EA T2).
      intros sha _. destruct (Run ds Bad sha) as (a & x & Ea & _ & Ec). exists a. split; [exact Ea|]. exists x. exact Ec.
  - intros sha c Hc test. specialize (D sha c Hc test). pose proof (count_bound (response_bounds C b m) (respond_draws_bad (ec_order C) m) Hb). assert (0 < 2 ^ bp_sec (bb_par C b)) by (apply Z.pow_pos_nonneg; lia). cbv beta in D |- *. nia.
Qed.
Print Assumptions C79_response.

(** The masked encryption randomness in a request proof. *)
Lemma vector_parsed xs bs : bignum_vector_to_proto xs = Ok bs -> parse_bignum_vector bs = xs.
Proof.
  intros H. apply mapM_Forall2 in H. unfold parse_bignum_vector. induction H as [|x y l l' Hx _ IH]; [reflexivity|]. cbn [map]. rewrite IH. f_equal. apply (to_bytes_ok x y Hx).
Qed.
Ltac next H := apply bind_ok in H; let x := fresh "x" in let E := fresh "E" in destruct H as (x & E & H).
Lemma request_enc flag C b n s sha ms rs pk cm om cr or_ e rq pf st : cs_valid n s (bb_cs C b) -> 1 < n -> 0 <= bp_chal (bb_par C b) ->
  bb_request_and_proof flag C sha b ms rs pk cm om cr or_ e = Ok (rq, pf, st) ->
  exists x c d, random_oracle 512 sha x (2 ^ bp_chal (bb_par C b)) = Ok c /\ of_bytes (rp_challenge pf) = c /\ draw_dummies C b (length ms) e = Ok d /\
    parse_bignum_vector (m2_enc (rp_m2 pf)) = map2 (mask c) (v_enc d) (enc_rand C b n e (length ms)).
Proof.
  intros W Hn Hc H. unfold bb_request_and_proof in H. destruct (_ <? _)%nat; [discriminate|]. destruct (negb _); [discriminate|].
  apply bind_ok in H. destruct H as ([as_ bs] & _ & H). cbv zeta in H. apply bind_ok in H. destruct H as (keys & _ & H). destruct (_ =? 0)%nat; [discriminate|].
  apply bind_ok in H. destruct H as (en & Een & H). rewrite (w_n _ _ _ W), draws_ok in Een by lia. injection Een as <-.
  apply bind_ok in H. destruct H as (cts & _ & H). apply bind_ok in H. destruct H as (state & _ & H). apply bind_ok in H. destruct H as (ctsb & _ & H).
  apply bind_ok in H. destruct H as ([rc w] & Ew & H). apply bind_ok in H. destruct H as (d & Ed & H).
  do 8 (apply bind_ok in H; destruct H as (? & _ & H)).
  apply bind_ok in H. destruct H as (c & Ec & H). apply bind_ok in H. destruct H as (chb & Ech & H). apply bind_ok in H. destruct H as (m2 & Em & H).
  assert (P : rp_challenge pf = chb /\ rp_m2 pf = m2) by (injection H as _ <- _; split; reflexivity). destruct P as [P1 P2].
  unfold req_challenge in Ec. rewrite lshift_ok in Ec by exact Hc. cbn [bind] in Ec. rewrite Z.mul_1_l in Ec.
  eexists. exists c, d. split; [exact Ec|]. split; [rewrite P1; apply (to_bytes_ok c chb Ech)|]. split; [exact Ed|]. rewrite P2.
  assert (Vw : v_enc w = enc_rand C b n e (length ms)).
  { unfold commit_secrets in Ew. next Ew. apply bind_ok in Ew. destruct Ew as ([? ?] & _ & Ew). apply bind_ok in Ew. destruct Ew as ([? ?] & _ & Ew). apply bind_ok in Ew. destruct Ew as ([? ?] & _ & Ew).
    next Ew. next Ew. injection Ew as _ <-. reflexivity. }
  rewrite <- Vw. change (map2 (mask c) (v_enc d) (v_enc w)) with (v_enc (masked_values c d w)). unfold values_to_proto in Em.
  do 14 (apply bind_ok in Em; destruct Em as (? & _ & Em)). apply bind_ok in Em. destruct Em as (a16 & E16 & Em). injection Em as <-. cbn [m2_enc]. apply vector_parsed. exact E16.
Qed.

(** An honest request with its proof: fix everything but the masks. *)
Theorem C79_request : forall flag C p b n s g xs ys csk pp num rk ry ek ey pk sk ms rs om or_ e,
  ec_laws C -> bb_system flag C p b n s g xs ys csk pp num -> bb_generate_keys flag C b rk ry ek ey = Ok (pk, sk) ->
  (length ms <= length (pp_gs pp))%nat -> length rs = length ms -> Forall (fun x => 0 <= x < ec_order C) ms -> Forall (fun x => 0 <= x < ec_order C) rs -> 0 <= om < pp_n pp -> 0 <= or_ < pp_n pp ->
  (forall i, (i * length ys < length ms)%nat -> usable n (e_enc e i mod n)) ->
  let cm := commitment (pp_gs pp) (pp_h pp) (pp_n pp) ms om in let cr := commitment (pp_gs pp) (pp_h pp) (pp_n pp) rs or_ in
  let m := length ms in let k := num_cts (length ys) m in
  exists rq cas cbs cal cga st,
    shows_nothing (bp_chal p) (Z.of_nat (7 * m + 7 + k)) (bp_sec p) (request_bounds C b m k) (request_draws_bad n m k e)
      (fun sha512 ds => bb_request_and_proof flag C sha512 b ms rs pk cm om cr or_ (with_dummies e m ds))
      (fun a => request_query flag C b pk (fst (fst a)) (snd (fst a)) cm cr)
      (fun c ds => simulated_request rq cas cbs cal cga st m k c ds).
Proof.
  intros flag C p b n s g xs ys csk pp num rk ry ek ey pk sk ms rs om or_ e L Sy E Hl Lr Hm Hr Hom Hor He cm cr m k.
  destruct (C65_request_hides flag C p b n s g xs ys csk pp num rk ry ek ey pk sk ms rs om or_ e L Sy E Hl Lr Hm Hr Hom Hor He) as (rq & cas & cbs & cal & cga & st & D). fold cm cr m k in D.
  exists rq, cas, cbs, cal, cga, st.
  destruct (system_facts _ _ _ _ _ _ _ _ _ _ _ _ L Sy) as [sf_par0 sf_pp0 sf_W0 sf_g0 sf_k0 sf_ys0 sf_len0 sf_sv0 sf_sp0 sf_sx0 sf_po0 sf_un0 sf_sec0 sf_chal0 sf_base0 sf_bound0].
  assert (El : cs_len (bb_cs C b) = length ys) by (unfold cs_len; rewrite sf_ys0; reflexivity).
  pose proof (n1 n s _ sf_W0) as Hn. pose proof (order_gt1 C L) as Hq. assert (HN : 1 < pp_n (pd_par (bb_ped C b))) by apply sf_po0.
  assert (P2 : 0 < 2 ^ (bp_chal (bb_par C b) + bp_sec (bb_par C b))) by (apply Z.pow_pos_nonneg; lia).
  assert (Hb : Forall (fun x => 0 <= x) (request_bounds C b m k)).
  { unfold request_bounds. cbv zeta. rewrite (w_n _ _ _ sf_W0). repeat (apply Forall_app; split); try (apply Forall_forall; intros x Hx; apply repeat_spec in Hx; subst x; repeat (apply Z.mul_nonneg_nonneg; try lia)).
    repeat constructor; repeat (apply Z.mul_nonneg_nonneg; try lia). }
  assert (Lbd : length (request_bounds C b m k) = (7 * m + 7 + k)%nat) by (unfold request_bounds; cbv zeta; rewrite !app_length, !repeat_length; cbn [length]; lia).
  assert (Nm : Forall (fun x => 0 <= x) ms) by (eapply Forall_impl; [|exact Hm]; cbn beta; lia). assert (Nr : Forall (fun x => 0 <= x) rs) by (eapply Forall_impl; [|exact Hr]; cbn beta; lia).
  assert (Um : Forall (fun x => x < ec_order C) ms) by (eapply Forall_impl; [|exact Hm]; cbn beta; lia). assert (Ur : Forall (fun x => x < ec_order C) rs) by (eapply Forall_impl; [|exact Hr]; cbn beta; lia).
  subst p pp. pose proof (every_answer (bp_chal (bb_par C b)) ltac:(lia)) as EA.
  (* a good proof, whatever the hash function, as long as its challenge is c *)
  assert (Sent : forall ds c, in_range (request_bounds C b m k) ds -> request_draws_bad n m k e c ds = false -> forall sha, exists rq pf st,
      bb_request_and_proof flag C sha b ms rs pk cm om cr or_ (with_dummies e m ds) = Ok (rq, pf, st) /\ exists x c', random_oracle 512 sha x (2 ^ bp_chal (bb_par C b)) = Ok c' /\ of_bytes (rp_challenge pf) = c' /\
      (c' = c -> exists x, request_query flag C b pk rq pf cm cr = Ok x /\ random_oracle 512 sha x (2 ^ bp_chal (bb_par C b)) = Ok c)).
  { intros ds c Rd Bad sha. unfold request_draws_bad in Bad. apply orb_false_iff in Bad. destruct Bad as [B1 B2]. unfold unusable_draw in B1. apply negb_false_iff in B1, B2. rewrite forallb_forall in B1, B2.
    destruct (C50_request flag C sha (bb_par C b) b n s g xs ys csk _ num rk ry ek ey pk sk ms rs om or_ (with_dummies e m ds) L Sy E Hl Lr Nm Nr ltac:(lia) ltac:(lia)) as [A _]. fold cm cr in A.
    assert (Rk : forall i, (i < k)%nat -> 0 <= nth (7 * m + 7 + i) ds 0 < n * 2 ^ (bp_chal (bb_par C b) + bp_sec (bb_par C b))).
    { intros i Hi. pose proof Rd as R. unfold in_range, request_bounds in R. cbv zeta in R. rewrite (w_n _ _ _ sf_W0), !app_assoc in R.
      match type of R with Forall2 _ (?pre ++ repeat ?B k) _ => pose proof (part_range pre B k [] ds) as Q; assert (Lp : length pre = (7 * m + 7)%nat) end.
      { rewrite !app_length, !repeat_length. cbn [length]. lia. }
      rewrite app_nil_r, Lp in Q. apply Q; assumption. }
    destruct A as (rq' & pf' & st' & E1 & _ & V).
    { intros i Hi. cbn [with_dummies e_enc d_enc]. split; [apply He; exact Hi|]. rewrite <- El in Hi. apply num_cts_iff in Hi; [|exact sf_len0]. rewrite El in Hi. fold m k in Hi.
      rewrite Z.mod_small by (apply Rk; exact Hi). specialize (B1 (nth (7 * m + 7 + i) ds 0)). unfold usable. apply orb_true_iff in B1; [lia|]. unfold part. apply in_map_iff. exists i. split; [reflexivity|apply in_seq; lia]. }
    exists rq', pf', st'. split; [exact E1|]. destruct (request_enc flag C b n s sha ms rs pk cm om cr or_ (with_dummies e m ds) rq' pf' st' sf_W0 Hn ltac:(lia) E1) as (x & c' & d & Ec & Pc & Ed & Pe). fold m in Ed, Pe.
    exists x, c'. split; [exact Ec|]. split; [exact Pc|]. intros ->.
    assert (Ev : v_enc d = part (7 * m + 7) k ds).
    { unfold m, k in Rd. rewrite <- El in Rd. fold m in Rd. pose proof (dummies_arranged C b n s sf_W0 sf_len0 sf_po0 L sf_sec0 sf_chal0 e m ds Rd) as Q. rewrite Ed in Q. injection Q as ->. cbn [arrange v_enc]. rewrite El. reflexivity. }
    destruct (V Um Ur) as [V1 _]. assert (Acc : bb_verify_request flag C sha b pk rq' pf' cm cr = Ok tt).
    { apply V1. rewrite Pe, Ev. apply Forall_forall. intros z Hz. apply (In_nth _ _ 0) in Hz. destruct Hz as (i & Hi & <-).
      assert (Le : length (enc_rand C b n (with_dummies e m ds) m) = k) by (unfold enc_rand; rewrite tab_len, El; reflexivity).
      rewrite map2_len in Hi by (rewrite part_len, Le; reflexivity). rewrite part_len in Hi. rewrite map2_nth by (rewrite ?part_len; unfold mask; lia). unfold part, enc_rand, tab. rewrite !seq_map_nth, El. fold k.
      destruct (Nat.ltb_spec i k); [|lia]. cbn [with_dummies e_enc]. specialize (B2 i ltac:(apply in_seq; lia)). unfold mask, usable. cbv zeta in B2. apply orb_true_iff in B2. lia. }
    rewrite verify_request_query in Acc by lia. apply bind_ok in Acc. destruct Acc as (x' & Ex & Acc). apply bind_ok in Acc. destruct Acc as (c2 & Ec2 & Acc). destruct (Z.eqb_spec c2 (of_bytes (rp_challenge pf'))); [|discriminate].
    exists x'. split; [exact Ex|]. congruence. }
  apply (games_close _ _ _ _ (request_draws_bad n m k e) _ _ _ (fun ds => proj1_sig (request_tree flag C b ms rs pk cm om cr or_ (with_dummies e m ds)))); try lia; try assumption.
  - intros ds _. exact (proj2_sig (request_tree flag C b ms rs pk cm om cr or_ (with_dummies e m ds))).
  - intros ds c Rd Hc Bad. destruct (request_tree flag C b ms rs pk cm om cr or_ (with_dummies e m ds)) as (tree & T1 & T2). cbn [proj1_sig].
    destruct (EA (fun _ => c) (fun _ => Hc)) as (s2 & E2).
    apply (accepted_one_question (bp_chal (bb_par C b)) _ (fun a => of_bytes (rp_challenge (snd (fst a)))) _ _ _ (proj1 sf_chal0) Hc EA T1 T2).
    + intros sha z _ Ez Hz. destruct (Sent ds c Rd Bad sha) as (rq1 & pf1 & st1 & R1 & x1 & c1 & Ec1 & Pc1 & Q1). exists (rq1, pf1, st1).
      assert (H : c1 = c). { destruct (Sent ds c Rd Bad s2) as (rq2 & pf2 & st2 & R2 & x2 & c2 & Ec2 & Pc2 & _). rewrite E2 in Ec2.
        destruct tree as [r|z' next]; [pose proof (T2 sha) as X1; pose proof (T2 s2) as X2; cbn [answered] in X1, X2; congruence|].
        assert (z' = z) by (apply (Hz z' next); reflexivity). subst z'. pose proof (same_answer _ _ z next sha s2 c T1 T2 Ez (E2 z)) as X. cbv beta in X. rewrite R1, R2 in X. congruence. }
      destruct (Q1 H) as (x & Ex & Ecx). exists x. split; [exact R1|]. cbn [fst snd]. split; [exact Ex|]. congruence.
    + apply (not_silent (bp_chal (bb_par C b)) (fun a => request_query flag C b pk (fst (fst a)) (snd (fst a)) cm cr) (fun a => of_bytes (rp_challenge (snd (fst a)))) _ _ (proj1 sf_chal0) EA T2).
      intros sha _. destruct (Sent ds c Rd Bad sha) as (rq1 & pf1 & st1 & R1 & x1 & c1 & Ec1 & Pc1 & _). exists (rq1, pf1, st1). split; [exact R1|]. exists x1. cbn [fst snd]. congruence.
  - intros sha c Hc test. specialize (D sha c Hc test). cbv beta in D |- *.
    assert (Mono : count (request_bounds C b m k) (unusable_draw n m k) <= count (request_bounds C b m k) (request_draws_bad n m k e c)).
    { assert (Q : count (request_bounds C b m k) (unusable_draw n m k) <= count (request_bounds C b m k) (request_draws_bad n m k e c) + count (request_bounds C b m k) (fun _ => false)).
      { apply count_sub_or; [|exact Hb]. intros ds _ _ H. left. unfold request_draws_bad. rewrite H. reflexivity. }
      rewrite (count_none _ (fun _ => false)) in Q by reflexivity. lia. }
    assert (0 < 2 ^ bp_sec (bb_par C b)) by (apply Z.pow_pos_nonneg; lia). nia.
Qed.
Print Assumptions C79_request.

(** A system of objects, keys and messages that meet the hypotheses. *)
Example C79_bb_ex : exists b csk pk sk rq pf st,
  bb_system false toy exh_p b exh_n 1 4 [5] [1024] csk exh_pp 2 /\ bb_generate_keys false toy b 1000 2000 (fun _ => [7]) (fun _ => [2]) = Ok (pk, sk) /\
  (forall i, (i * length [1024] < length [5])%nat -> usable exh_n (e_enc (exh_e 5) i mod exh_n)) /\
  bb_request_and_proof false toy ask_one b [5] [7] pk (exh_com [5] 50) 50 (exh_com [7] 60) 60 (exh_e 5) = Ok (rq, pf, st) /\
  (forall m r, In (m, r) (combine [5] [7]) -> (m + of_bytes (bsk_k sk) + of_bytes (bsk_y sk) * r) mod ec_order toy <> 0) /\ pp_n exh_pp <= 1 * exh_n.
Proof.
  destruct C65_bb_ex as (b & csk & pk & sk & rq & pf & st & H1 & H2 & H3 & _ & H4 & H5 & H6). exists b, csk, pk, sk, rq, pf, st. repeat (split; [first [exact H1|exact H2]|]).
  split; [intros i Hi; cbn [length] in Hi; replace i with 0%nat by lia; exact H3|]. split; [exact H4|]. split; [|exact H6]. intros m r [E|[]]. injection E as <- <-. exact H5.
Qed.
