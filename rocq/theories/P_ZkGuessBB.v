(** C79: how rarely an observer guesses what the two parties of the oblivious signature will ask the hash function. *)
From Coq Require Import Znumtheory.
From Verif Require Import Base M_BigNum M_Num M_EC M_Proto M_CS M_Pedersen M_VRF M_BB S_CS S_Pedersen S_BB S_BBquery S_BBrequest S_Hide S_HideBB L_BigNum L_Num L_Mod L_DJ L_CS L_EC L_Cipher L_Protocol
  L_Toy L_Pedersen L_VRF L_BBct L_BBhom L_BBped L_BBreq L_BBrsp L_BB L_BBsound L_BBrequest L_Hide L_HideRsp L_HideReq P_CS P_Pedersen P_BB P_BBhash P_Hide P_HideBB S_Oracle L_Oracle P_Oracle
  S_Zk L_Zk S_ZkQuery P_Zk P_ZkBB P_ZkGuess.

(** With the challenge 0 nothing is taken away. *)
Lemma unmask_zero C b masked com d : 1 < pp_n (pd_par (bb_ped C b)) -> unmask C b masked com 0 = Ok d -> d = masked mod pp_n (pd_par (bb_ped C b)).
Proof.
  intros HN H. unfold unmask, power_inverse, ped_multiply in H. rewrite bn_mod_exp_ok in H by lia. cbn [bind] in H. rewrite Z.pow_0_r, Z.mod_1_l in H by lia. apply bind_ok in H. destruct H as (i & Ei & H).
  apply bn_mod_inverse_inv in Ei. destruct Ei as (_ & _ & Bi & Pi). rewrite Z.mul_1_l, (Z.mod_small i), Z.mod_1_l in Pi by lia. subst i. unfold ped_add in H. rewrite bn_mod_mul_ok in H by lia. injection H as <-. rewrite Z.mul_1_r. reflexivity.
Qed.
Lemma nth_middle_other (a c : list Z) i j k : k <> length a -> nth k (a ++ i :: c) 0 = nth k (a ++ j :: c) 0.
Proof.
  intros Hk. destruct (Nat.ltb_spec k (length a)); [rewrite !app_nth1 by lia; reflexivity|]. rewrite !app_nth2 by lia. destruct (k - length a)%nat eqn:E; [lia|reflexivity].
Qed.

Theorem C79_response_guess : forall flag C sha0 p b n s g xs ys csk pp num rk ry ek ey pk sk ms rs om or_ e rq pf st u ord,
  ec_laws C -> bb_system flag C p b n s g xs ys csk pp num -> bb_generate_keys flag C b rk ry ek ey = Ok (pk, sk) ->
  Forall (fun x => 0 <= x < ec_order C) ms -> Forall (fun x => 0 <= x < ec_order C) rs -> 0 <= om -> 0 <= or_ ->
  let k := of_bytes (bsk_k sk) in let y := of_bytes (bsk_y sk) in
  let cm := commitment (pp_gs pp) (pp_h pp) (pp_n pp) ms om in let cr := commitment (pp_gs pp) (pp_h pp) (pp_n pp) rs or_ in
  bb_request_and_proof flag C sha0 b ms rs pk cm om cr or_ e = Ok (rq, pf, st) ->
  (forall m r, In (m, r) (combine ms rs) -> (m + k + y * r) mod ec_order C <> 0) ->
  Forall (fun x => x <= n) xs -> 0 <= u -> pp_n pp <= u * n ->
  bb_int64 p -> rq_int64 rq -> powers_differ (pp_h pp) (pp_n pp) ord ->
  let m := length ms in
  let range := n * 2 ^ (bp_chal p + bp_sec p) in
  exists Ps betas, Forall2 (fun mr P => bb_value C (bb_base C b) k y (fst mr) (snd mr) P) (combine ms rs) Ps /\ length betas = m /\ Forall (fun x => 0 <= x) betas /\
  let vals := sent_points C st Ps in
  forall o, exists cbb, to_bytes (commitment (pp_gs pp) (pp_h pp) (pp_n pp) betas (o mod pp_n pp)) = Ok cbb /\
    shows_little (bp_chal p) (2 * Z.of_nat m + Z.of_nat (length ys) + u) (bp_sec p) (response_bounds C b m) (fun _ => respond_draws_bad (ec_order C) m)
      (tuples (removelast (response_bounds C b m)) * ((range + ord - 1) / ord))
      (fun sha512 ds => bb_respond flag C sha512 b rq pk cm cr csk (response_entropy C b m o ds))
      (fun a => response_query flag C b pk (fst a) (snd a) rq cm cr)
      (fun c ds => simulated_response C b vals (map (ec_enc C) vals) cbb m c ds).
Proof.
  intros flag C sha0 p b n s g xs ys csk pp num rk ry ek ey pk sk ms rs om or_ e rq pf st u ord L Sy E Hm Hr Hom Hor k y cm cr Er Hdf Hxs Hu HuN I64 R64 Hord m range.
  destruct (C79_response flag C sha0 p b n s g xs ys csk pp num rk ry ek ey pk sk ms rs om or_ e rq pf st u L Sy E Hm Hr Hom Hor Er Hdf Hxs Hu HuN) as (Ps & bts & Vs & Lv & Nv & T).
  exists Ps, bts. split; [exact Vs|]. split; [exact Lv|]. split; [exact Nv|]. intros vals o. destruct (T o) as (cbb & Ecb & T'). exists cbb. split; [exact Ecb|]. fold m cm cr vals in T'. clear T.
  destruct (system_facts _ _ _ _ _ _ _ _ _ _ _ _ L Sy) as [sf_par0 sf_pp0 sf_W0 sf_g0 sf_k0 sf_ys0 sf_len0 sf_sv0 sf_sp0 sf_sx0 sf_po0 sf_un0 sf_sec0 sf_chal0 sf_base0 sf_bound0].
  subst p pp. pose proof (n1 n s _ sf_W0) as Hn. pose proof (order_gt1 C L) as Hq. assert (HN : 1 < pp_n (pd_par (bb_ped C b))) by apply sf_po0.
  assert (PT : 0 < 2 ^ (bp_chal (bb_par C b) + bp_sec (bb_par C b))) by (apply Z.pow_pos_nonneg; lia). assert (HB : 0 < range) by (unfold range; nia).
  set (pre := repeat (2 ^ (2 * bp_chal (bb_par C b) + 2 * bp_sec (bb_par C b)) * ec_order C * ec_order C * ec_order C) m ++ repeat range (cs_len (bb_cs C b))).
  assert (Eb : response_bounds C b m = pre ++ [range]) by (unfold response_bounds, pre, range; cbv zeta; rewrite (w_n _ _ _ sf_W0), app_assoc; reflexivity).
  assert (Lp : length pre = (m + cs_len (bb_cs C b))%nat) by (unfold pre; rewrite app_length, !repeat_length; reflexivity).
  assert (P3 : 0 <= 2 ^ (2 * bp_chal (bb_par C b) + 2 * bp_sec (bb_par C b))) by (apply Z.pow_nonneg; lia).
  assert (Lrq : rq_num rq = m).
  { clear - Er. unfold bb_request_and_proof in Er. destruct (_ <? _)%nat; [discriminate|]. destruct (negb _); [discriminate|].
    apply bind_ok in Er. destruct Er as ([as_ bs] & _ & H). cbv zeta in H. apply bind_ok in H. destruct H as (keys & _ & H). destruct (_ =? 0)%nat; [discriminate|].
    do 4 (apply bind_ok in H; destruct H as (? & _ & H)). apply bind_ok in H. destruct H as ([rc w] & _ & H). do 9 (apply bind_ok in H; destruct H as (? & _ & H)).
    do 2 (apply bind_ok in H; destruct H as (? & _ & H)). apply bind_ok in H. destruct H as (? & _ & H). injection H as <- _ _. reflexivity. }
  rewrite Eb in T' |- *. rewrite removelast_last. replace (tuples pre * ((range + ord - 1) / ord)) with (tuples pre * tuples [] * ((range + ord - 1) / ord)) by (change (tuples []) with 1; rewrite Z.mul_1_r; reflexivity).
  apply (guesses_counted _ _ _ pre range [] ord); try lia; try (destruct Hord; lia).
  - apply Forall_app. split; [|repeat constructor; lia]. unfold pre. apply Forall_app. split; apply Forall_forall; intros x Hx; apply repeat_spec in Hx; subst x; [repeat (apply Z.mul_nonneg_nonneg; try lia)|lia].
  - apply every_answer. lia.
  - intros sha a i j c r1 r2 x HO La Ri Rj _ _ E1 E2 Q1 Q2. rewrite Lp in La.
    assert (Rg : c = [] /\ 0 <= i < range /\ 0 <= j < range).
    { apply Forall2_app_inv_l in Ri. destruct Ri as (a1 & b1 & F1 & F2 & Ei). apply Forall2_app_inv_l in Rj. destruct Rj as (a2 & b2 & F3 & F4 & Ej). apply f2_len in F1. apply f2_len in F3.
      rewrite Lp in F1, F3. apply app_len_inj in Ei; [|lia]. apply app_len_inj in Ej; [|lia]. destruct Ei as [_ <-], Ej as [_ <-]. inversion F2 as [|? ? ? ? K1 K2]. inversion F4 as [|? ? ? ? K3 _]. subst. inversion K2. subst. auto. }
    destruct Rg as (-> & Hi & Hj).
    assert (V : forall d r x, 0 <= d < range -> bb_respond flag C sha b rq pk cm cr csk (response_entropy C b m o (a ++ [d])) = Ok r -> response_query flag C b pk (fst r) (snd r) rq cm cr = Ok x ->
      exists st m1 dcom mcom betas, x = rsp_hash_input st m1 /\ ss_par st = bb_par C b /\ ss_request st = rq /\ to_bytes dcom = Ok (n1_betas m1) /\
        (let* (cts, betas) := decrypt_request C b csk rq in let* bb_ := cube_bound C (bb_par C b) 0 in let* dbetas := draws bb_ (fun i => nth i a 0) m in Ok (map2 (fun d x => d + x * 0) dbetas betas)) = Ok betas /\
        ped_commit_with_rand (bb_ped C b) betas d = Ok mcom /\ dcom = mcom mod pp_n (pd_par (bb_ped C b))).
    { intros d [rsp pf'] y0 Hd F Q. cbn [fst snd] in Q. unfold bb_respond in F. destruct (_ <? _)%nat; [discriminate|].
      apply bind_ok in F. destruct F as ([cts betas] & Ed & F). apply bind_ok in F. destruct F as (vs & _ & F). apply bind_ok in F. destruct F as (rspb & _ & F). apply bind_ok in F. destruct F as ([cb ob] & _ & F).
      apply bind_ok in F. destruct F as (cbb' & _ & F). apply bind_ok in F. destruct F as (bb_ & Ebb & F). apply bind_ok in F. destruct F as (dbetas & Edb & F).
      apply bind_ok in F. destruct F as (bx & Ebx & F). apply bind_ok in F. destruct F as (dxs & _ & F). apply bind_ok in F. destruct F as (dopen & Edo & F).
      rewrite lshift_ok in Ebx by lia. injection Ebx as <-. rewrite (w_n _ _ _ sf_W0) in Edo. fold range in Edo. rewrite rand_ok in Edo by exact HB. injection Edo as <-.
      cbn [response_entropy s_dopen s_betas] in F, Edb. rewrite app_nth2 in F by lia. rewrite <- La, Nat.sub_diag in F. cbn [nth] in F. rewrite Z.mod_small in F by exact Hd.
      apply bind_ok in F. destruct F as (dcb & _ & F). do 6 (apply bind_ok in F; destruct F as (? & _ & F)). apply bind_ok in F. destruct F as (c & Ec & F).
      assert (c = 0).
      { unfold rsp_challenge in Ec. rewrite lshift_ok, Z.mul_1_l in Ec by lia. cbn [bind] in Ec. do 3 (apply bind_ok in Ec; destruct Ec as (? & _ & Ec)). rewrite HO in Ec. congruence. }
      subst c. apply bind_ok in F. destruct F as (chb & Ech & F). apply bind_ok in F. destruct F as (mx & _ & F). apply bind_ok in F. destruct F as (mbb & Emb & F). apply bind_ok in F. destruct F as (mxb & _ & F).
      apply bind_ok in F. destruct F as (mob & Emo & F). injection F as <- <-. rewrite Z.mul_0_r, Z.add_0_r in Emo.
      unfold response_query in Q. cbn [sp_betas sp_challenge sp_xs sp_mbetas sp_open] in Q. cbv zeta in Q. do 3 (destruct (negb _) in Q; [discriminate|]).
      rewrite (of_to_bytes _ _ Ech), (vector_parsed _ _ Emb), (of_to_bytes _ _ Emo) in Q.
      apply bind_ok in Q. destruct Q as (? & _ & Q). apply bind_ok in Q. destruct Q as (? & _ & Q). apply bind_ok in Q. destruct Q as (? & _ & Q). destruct (negb _) in Q; [discriminate|].
      do 3 (apply bind_ok in Q; destruct Q as (? & _ & Q)). apply bind_ok in Q. destruct Q as (mcom & Em & Q). apply bind_ok in Q. destruct Q as (dcb' & Eu & Q). apply unmask_zero in Eu; [|exact HN].
      apply bind_ok in Q. destruct Q as (dcbb & Edc & Q). do 5 (apply bind_ok in Q; destruct Q as (? & _ & Q)). injection Q as <-. do 2 eexists. exists dcb', mcom, (map2 (fun d x => d + x * 0) dbetas betas).
      split; [reflexivity|]. split; [reflexivity|]. split; [reflexivity|]. split; [exact Edc|]. split; [|split; [exact Em|exact Eu]].
      rewrite Ed. cbn [bind]. rewrite Ebb. cbn [bind]. assert (Dr : draws bb_ (fun i => nth i a 0) m = Ok dbetas); [|rewrite Dr; reflexivity].
      rewrite <- Edb, Lrq. unfold draws. apply mapM_same. intros z Hz. apply in_seq in Hz. rewrite app_nth1 by lia. reflexivity. }
    destruct (V i r1 x Hi E1 Q1) as (s1 & f1 & c1 & m1 & b1 & X1 & S1 & R1 & T1 & B1 & M1 & D1). destruct (V j r2 x Hj E2 Q2) as (s2 & f2 & c2 & m2 & b2 & X2 & S2 & R2 & T2 & B2 & M2 & D2).
    assert (b2 = b1) by congruence. subst b2. rewrite X1 in X2. apply C51_response_challenge_binding in X2; [|rewrite ?S1, ?S2, ?R1, ?R2; assumption..]. destruct X2 as [_ ->]. pose proof (to_bytes_inj _ _ _ T1 T2) as Ec.
    assert (N1 : m1 mod pp_n (pd_par (bb_ped C b)) = m1) by (destruct (commit_inv _ _ _ _ sf_po0 M1) as [_ ->]; apply Z.mod_mod; lia).
    assert (N2 : m2 mod pp_n (pd_par (bb_ped C b)) = m2) by (destruct (commit_inv _ _ _ _ sf_po0 M2) as [_ ->]; apply Z.mod_mod; lia).
    assert (m1 = m2) by congruence. subst m2. exact (commit_opening _ _ _ _ _ _ sf_po0 sf_un0 Hord M1 M2).
  - exact T'.
Qed.
Print Assumptions C79_response_guess.

Theorem C79_request_guess : forall flag C p b n s g xs ys csk pp num rk ry ek ey pk sk ms rs om or_ e ord,
  ec_laws C -> bb_system flag C p b n s g xs ys csk pp num -> bb_generate_keys flag C b rk ry ek ey = Ok (pk, sk) ->
  (length ms <= length (pp_gs pp))%nat -> length rs = length ms -> Forall (fun x => 0 <= x < ec_order C) ms -> Forall (fun x => 0 <= x < ec_order C) rs -> 0 <= om < pp_n pp -> 0 <= or_ < pp_n pp ->
  (forall i, (i * length ys < length ms)%nat -> usable n (e_enc e i mod n)) ->
  bb_int64 p -> Z.of_nat (length ms) < 2 ^ 63 -> powers_differ (pp_h pp) (pp_n pp) ord ->
  let cm := commitment (pp_gs pp) (pp_h pp) (pp_n pp) ms om in let cr := commitment (pp_gs pp) (pp_h pp) (pp_n pp) rs or_ in
  let m := length ms in let k := num_cts (length ys) m in
  let range := pp_n pp * 2 ^ (bp_chal p + bp_sec p) in
  exists rq cas cbs cal cga st,
    shows_little (bp_chal p) (Z.of_nat (7 * m + 7 + k)) (bp_sec p) (request_bounds C b m k) (request_draws_bad n m k e)
      (tuples (firstn (7 * m) (request_bounds C b m k)) * tuples (skipn (7 * m + 1) (request_bounds C b m k)) * ((range + ord - 1) / ord))
      (fun sha512 ds => bb_request_and_proof flag C sha512 b ms rs pk cm om cr or_ (with_dummies e m ds))
      (fun a => request_query flag C b pk (fst (fst a)) (snd (fst a)) cm cr)
      (fun c ds => simulated_request rq cas cbs cal cga st m k c ds).
Proof.
  intros flag C p b n s g xs ys csk pp num rk ry ek ey pk sk ms rs om or_ e ord L Sy E Hl Lr Hm Hr Hom Hor He I64 R64 Hord cm cr m k range.
  destruct (C79_request flag C p b n s g xs ys csk pp num rk ry ek ey pk sk ms rs om or_ e L Sy E Hl Lr Hm Hr Hom Hor He) as (rq & cas & cbs & cal & cga & st & T). fold cm cr m k in T.
  exists rq, cas, cbs, cal, cga, st.
  destruct (system_facts _ _ _ _ _ _ _ _ _ _ _ _ L Sy) as [sf_par0 sf_pp0 sf_W0 sf_g0 sf_k0 sf_ys0 sf_len0 sf_sv0 sf_sp0 sf_sx0 sf_po0 sf_un0 sf_sec0 sf_chal0 sf_base0 sf_bound0].
  subst p pp. pose proof (n1 n s _ sf_W0) as Hn. pose proof (order_gt1 C L) as Hq. assert (HN : 1 < pp_n (pd_par (bb_ped C b))) by apply sf_po0.
  assert (PT : 0 < 2 ^ (bp_chal (bb_par C b) + bp_sec (bb_par C b))) by (apply Z.pow_pos_nonneg; lia). assert (HB : 0 < range) by (unfold range; nia).
  assert (El : cs_len (bb_cs C b) = length ys) by (unfold cs_len; rewrite sf_ys0; reflexivity).
  assert (Hb : Forall (fun x => 0 <= x) (request_bounds C b m k)).
  { unfold request_bounds. cbv zeta. rewrite (w_n _ _ _ sf_W0). repeat (apply Forall_app; split); try (apply Forall_forall; intros x Hx; apply repeat_spec in Hx; subst x; repeat (apply Z.mul_nonneg_nonneg; try lia)).
    repeat constructor; repeat (apply Z.mul_nonneg_nonneg; try lia). }
  set (pre := firstn (7 * m) (request_bounds C b m k)). set (post := skipn (7 * m + 1) (request_bounds C b m k)).
  assert (Lp : length pre = (7 * m)%nat /\ request_bounds C b m k = pre ++ range :: post).
  { unfold pre, post, request_bounds. cbv zeta. fold range. rewrite !app_assoc. match goal with |- context [firstn _ ((?p ++ _) ++ _)] => set (p0 := p) end.
    assert (L0 : length p0 = (7 * m)%nat) by (unfold p0; rewrite !app_length, !repeat_length; lia). clearbody p0. rewrite <- L0, <- app_assoc.
    assert (F : forall (l r : list Z), firstn (length l) (l ++ r) = l) by (intros l r; rewrite firstn_app, Nat.sub_diag, firstn_all; cbn [firstn]; apply app_nil_r). rewrite F. split; [reflexivity|]. f_equal. cbn [app].
    rewrite skipn_app, skipn_all2 by lia. replace (length p0 + 1 - length p0)%nat with 1%nat by lia. reflexivity. }
  destruct Lp as [Lp Eb]. clearbody pre post. rewrite Eb in T, Hb |- *.
  apply (guesses_counted _ _ _ pre range post ord); try lia; try (destruct Hord; lia).
  - exact Hb.
  - apply every_answer. lia.
  - intros sha a i j c r1 r2 x HO La Ri Rj _ _ E1 E2 Q1 Q2. rewrite Lp in La.
    assert (V : forall d r x, in_range (pre ++ range :: post) (a ++ d :: c) -> bb_request_and_proof flag C sha b ms rs pk cm om cr or_ (with_dummies e m (a ++ d :: c)) = Ok r -> request_query flag C b pk (fst (fst r)) (snd (fst r)) cm cr = Ok x ->
      exists st m1 dcom mcom, x = req_hash_input st m1 /\ st_par st = bb_par C b /\ rq_num (st_request st) = m /\ to_bytes dcom = Ok (m1_messages m1) /\
        ped_commit_with_rand (bb_ped C b) (map2 (mask 0) (part 0 m (a ++ 0 :: c)) ms) d = Ok mcom /\ dcom = mcom mod pp_n (pd_par (bb_ped C b))).
    { intros d [[rq' pf'] st'] y0 Rd F Q. cbn [fst snd] in Q. unfold bb_request_and_proof in F. destruct (_ <? _)%nat; [discriminate|]. destruct (negb _); [discriminate|].
      apply bind_ok in F. destruct F as ([as_ bs] & _ & F). cbv zeta in F. apply bind_ok in F. destruct F as (keys & _ & F). destruct (_ =? 0)%nat; [discriminate|].
      do 4 (apply bind_ok in F; destruct F as (? & _ & F)). apply bind_ok in F. destruct F as ([rc w] & Ew & F). apply bind_ok in F. destruct F as (dv & Ed & F). do 8 (apply bind_ok in F; destruct F as (? & _ & F)).
      apply bind_ok in F. destruct F as (c0 & Ec & F). assert (c0 = 0) by (unfold req_challenge in Ec; rewrite lshift_ok, Z.mul_1_l in Ec by lia; cbn [bind] in Ec; rewrite HO in Ec; congruence). subst c0.
      apply bind_ok in F. destruct F as (chb & Ech & F). apply bind_ok in F. destruct F as (m2 & Em & F).
      assert (P : rp_challenge pf' = chb /\ rp_m2 pf' = m2 /\ rq_num rq' = m) by (injection F as <- <- _; repeat split). destruct P as (P1 & P2 & P3). clear F.
      assert (Vw : v_messages w = ms /\ v_messages_open w = om).
      { unfold commit_secrets in Ew. next Ew. apply bind_ok in Ew. destruct Ew as ([? ?] & _ & Ew). apply bind_ok in Ew. destruct Ew as ([? ?] & _ & Ew). apply bind_ok in Ew. destruct Ew as ([? ?] & _ & Ew).
        next Ew. next Ew. injection Ew as _ <-. split; reflexivity. }
      destruct Vw as [Vm Vo]. fold m in Ed.
      assert (Dv : v_messages dv = part 0 m (a ++ 0 :: c) /\ v_messages_open dv = d).
      { rewrite <- Eb in Rd. unfold k in Rd. rewrite <- El in Rd. unfold in_range in Rd. pose proof (dummies_arranged C b n s sf_W0 sf_len0 sf_po0 L sf_sec0 sf_chal0 e m _ Rd) as A. rewrite Ed in A. injection A as ->. cbn [arrange v_messages v_messages_open]. split.
        - unfold part. apply map_ext_in. intros z Hz. apply in_seq in Hz. apply nth_middle_other. lia.
        - rewrite Nat.add_0_r, app_nth2 by lia. rewrite La, Nat.sub_diag. reflexivity. }
      destruct Dv as [Dm Do]. unfold values_to_proto in Em. apply bind_ok in Em. destruct Em as (a1 & A1 & Em). apply bind_ok in Em. destruct Em as (a2 & A2 & Em).
      do 13 (apply bind_ok in Em; destruct Em as (? & _ & Em)). injection Em as Em. cbn [masked_values v_messages v_messages_open] in A1, A2. rewrite Dm, Vm in A1. rewrite Do, Vo in A2. unfold mask in A2. rewrite Z.mul_0_l, Z.add_0_r in A2.
      unfold request_query in Q. cbv zeta in Q. rewrite P1, P2, <- Em, (of_to_bytes _ _ Ech) in Q.
      do 8 (match type of Q with (if ?g then _ else _) = _ => destruct g; [discriminate|] end). destruct (_ =? 0)%nat in Q; [discriminate|]. do 2 (match type of Q with (if ?g then _ else _) = _ => destruct g; [discriminate|] end).
      do 3 (apply bind_ok in Q; destruct Q as (? & _ & Q)). apply bind_ok in Q. destruct Q as (inb & _ & Q). destruct inb; [|discriminate]. cbn [negb] in Q.
      apply bind_ok in Q. destruct Q as (mf & Emf & Q). apply bind_ok in Q. destruct Q as (f & Ef & Q). apply bind_ok in Q. destruct Q as (m1 & Em1 & Q). injection Q as <-.
      unfold masked_composites in Emf. cbn [values_of_proto v_messages v_messages_open m2_messages m2_messages_open] in Emf. rewrite (vector_parsed _ _ A1), (of_to_bytes _ _ A2) in Emf.
      apply bind_ok in Emf. destruct Emf as (mcom & Emc & Emf). do 11 (apply bind_ok in Emf; destruct Emf as (? & _ & Emf)). injection Emf as Emf.
      unfold unmask_all in Ef. apply bind_ok in Ef. destruct Ef as (dm & Edm & Ef). rewrite <- Emf in Edm. cbn [f_messages] in Edm. apply unmask_zero in Edm; [|exact HN].
      do 10 (apply bind_ok in Ef; destruct Ef as (? & _ & Ef)). injection Ef as Ef. unfold first_to_proto in Em1. apply bind_ok in Em1. destruct Em1 as (cmb' & Ecm & Em1). rewrite <- Ef in Ecm. cbn [f_messages] in Ecm.
      do 8 (apply bind_ok in Em1; destruct Em1 as (? & _ & Em1)). injection Em1 as Em1.
      do 2 eexists. exists dm, mcom. split; [reflexivity|]. split; [reflexivity|]. split; [exact P3|]. split; [rewrite <- Em1; exact Ecm|]. split; [exact Emc|exact Edm]. }
    destruct (V i r1 x Ri E1 Q1) as (s1 & f1 & c1 & m1 & X1 & S1 & R1 & T1 & M1 & D1). destruct (V j r2 x Rj E2 Q2) as (s2 & f2 & c2 & m2 & X2 & S2 & R2 & T2 & M2 & D2).
    rewrite X1 in X2. apply C51_request_challenge_binding in X2; [|unfold rq_int64; rewrite ?S1, ?S2, ?R1, ?R2; assumption..]. destruct X2 as [_ ->]. pose proof (to_bytes_inj _ _ _ T1 T2) as Ec.
    assert (N1 : m1 mod pp_n (pd_par (bb_ped C b)) = m1) by (destruct (commit_inv _ _ _ _ sf_po0 M1) as [_ ->]; apply Z.mod_mod; lia).
    assert (N2 : m2 mod pp_n (pd_par (bb_ped C b)) = m2) by (destruct (commit_inv _ _ _ _ sf_po0 M2) as [_ ->]; apply Z.mod_mod; lia).
    assert (m1 = m2) by congruence. subst m2. exact (commit_opening _ _ _ _ _ _ sf_po0 sf_un0 Hord M1 M2).
  - exact T.
Qed.
Print Assumptions C79_request_guess.

(** The objects of C79_bb_ex: 4 has the order 130 modulo the factor 583 of n. *)
Lemma powers_differ_factor h n f ord : 0 < f -> 0 < n -> (f | n) -> powers_differ h f ord -> powers_differ h n ord.
Proof.
  intros Hf Hn D [Ho H]. split; [exact Ho|]. intros i j Hi Hj E. apply H; [exact Hi|exact Hj|]. apply mod_eqmod_iff; [exact Hf|]. apply mod_eqmod_iff in E; [|exact Hn]. unfold eqmod in *. exact (Z.divide_trans _ _ _ D E).
Qed.
Example C79_bb_guess_ex : powers_differ (pp_h exh_pp) (pp_n exh_pp) 130 /\ bb_int64 exh_p /\ Z.of_nat (length [5]) < 2 ^ 63.
Proof.
  split; [|split; [unfold bb_int64, exh_p, exb_p; cbn [bp_sec bp_chal bp_cs pp_s]; lia|cbn; lia]]. apply (powers_differ_factor _ _ 583); try (vm_compute; reflexivity); [exists 15087638117; vm_compute; reflexivity|].
  apply order_powers; try lia; try (vm_compute; reflexivity). intros k Hk E. cbn [exh_pp pp_h pp_n] in E.
  assert (T : forallb (fun i => negb (4 ^ Z.of_nat i mod 583 =? 1)) (seq 1 129) = true) by (vm_compute; reflexivity). rewrite forallb_forall in T. specialize (T (Z.to_nat k) ltac:(apply in_seq; lia)).
  rewrite Z2Nat.id, E in T by lia. discriminate.
Qed.
