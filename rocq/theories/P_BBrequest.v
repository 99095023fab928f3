(** Theorems on the request of the oblivious signature protocol: what an accepted request proves about the values the issuer decrypts (C72, the part that holds). *)
From Coq Require Import Znumtheory.
From Verif Require Import Base M_BigNum M_Num M_EC M_Proto M_CS M_Pedersen M_VRF M_BB S_CS S_Pedersen S_BB S_BBrequest L_BigNum L_Num L_Mod L_DJ L_CS L_EC L_Cipher L_Protocol
  L_Toy L_Pedersen L_VRF L_BBct L_BBhom L_BBped L_BBreq L_BBrsp L_BBsound L_BB P_CS P_Pedersen P_VRF P_BB S_Cheat L_Cheat L_CheatRsp P_Cheat L_ZPow L_BBrequest L_BBopen L_BBissue.

(** Two proofs for one request that agree on everything hashed and differ in the challenge. From the committed messages and nonces and the two proofs one
    can compute, for each of four commitments, two openings; unless one of these pairs opens a commitment to two different lists, every value the
    issuer decrypts is, times the difference d of the challenges and modulo n^s, da_j (m_j + k + y r_j) + q db_j, where m_j and r_j are the committed
    message and nonce and da_j, db_j differences of answers. Nothing is assumed about the requester. *)
Theorem C72_decrypted_value_partial : forall flag C p b n s g xs ys csk pp num rk ry ek ey pk sk ms rs om or_ rq pf1 pf2 x cts betas,
  ec_laws C -> bb_system flag C p b n s g xs ys csk pp num -> bb_generate_keys flag C b rk ry ek ey = Ok (pk, sk) ->
  let q := ec_order C in let k := of_bytes (bsk_k sk) in let y := of_bytes (bsk_y sk) in
  let cm := commitment (pp_gs pp) (pp_h pp) (pp_n pp) ms om in let cr := commitment (pp_gs pp) (pp_h pp) (pp_n pp) rs or_ in
  let nonneg := Forall (fun z => 0 <= z) in nonneg ms -> nonneg rs -> 0 <= om -> 0 <= or_ -> length ms = rq_num rq -> length rs = rq_num rq ->
  request_query flag C b pk rq pf1 cm cr = Ok x -> request_query flag C b pk rq pf2 cm cr = Ok x -> gap pf1 pf2 <> 0 ->
  let pairs := opening_pairs ms om rs or_ pf1 pf2 in
  Forall (fun wo => opens_twice (pp_gs pp) (pp_h pp) (pp_n pp) (fst wo) (snd wo)) pairs /\
  (Forall (fun wo => ~ breaks_binding (pp_gs pp) (pp_h pp) (pp_n pp) wo) pairs -> decrypt_request C b csk rq = Ok (cts, betas) ->
   length betas = rq_num rq /\ forall j, (j < rq_num rq)%nat -> 0 <= nth j betas 0 < n ^ Z.of_nat s /\
     (n ^ Z.of_nat s | gap pf1 pf2 * nth j betas 0 - (nth j (differences v_as pf1 pf2) 0 * (nth j ms 0 + k + y * nth j rs 0) + q * nth j (differences v_bs pf1 pf2) 0))).
Proof.
  intros flag C p b n s g xs ys csk pp num rk ry ek ey pk sk ms rs om or_ rq pf1 pf2 x cts betas L Sy E q k y cm cr nn Nm Nr Hom Hor Lm Lr Ex1 Ex2 Hd prs.
  destruct (system_facts _ _ _ _ _ _ _ _ _ _ _ _ L Sy) as [sf_par0 sf_pp0 sf_W0 sf_g0 sf_k0 sf_ys0 sf_len0 sf_sv0 sf_sp0 sf_sx0 sf_po0 sf_un0 sf_sec0 sf_chal0 sf_base0 sf_bound0]. subst p pp.
  pose proof (n1 n s _ sf_W0) as Hn. pose proof (M1 n s _ sf_W0) as HM. pose proof (order_gt1 C L) as Hq. assert (Hq0 : 0 < q) by (unfold q; lia).
  destruct (keys_inv flag C b n s xs sf_W0 sf_g0 sf_k0 L rk ry ek ey pk sk E) as (Rk & Ry & keys & ok & oy & Ep & Hok & Hoy & K1 & K2). fold k in Rk, K1. fold y in Ry, K2.
  assert (Hk0 : 0 <= k) by lia. assert (Hy0 : 0 <= y) by lia.
  assert (HN : 1 < pp_n (pd_par (bb_ped C b))) by apply sf_po0. destruct (full_exists _ _ HN HM) as (T & HT & FN & FM).
  destruct (request_inv flag C b n s xs sf_W0 sf_g0 sf_k0 sf_len0 ok oy k y Hok Hoy Hk0 Hy0 sf_po0 Hq0 pk keys Ep K1 K2 rq pf1 cm cr x Ex1)
    as (HmG & Lc & S1 & O1 & _ & _ & ct1 & f1 & m1 & st1 & Ec1 & Lct & Q1 & F1 & X1 & A1 & B1 & C1 & D1).
  destruct (request_inv flag C b n s xs sf_W0 sf_g0 sf_k0 sf_len0 ok oy k y Hok Hoy Hk0 Hy0 sf_po0 Hq0 pk keys Ep K1 K2 rq pf2 cm cr x Ex2)
    as (_ & _ & S2 & O2 & _ & _ & ct2 & f2 & m2 & st2 & Ec2 & _ & Q2 & F2 & X2 & A2 & B2 & C2 & D2).
  rewrite X1 in X2. destruct (req_hash_parts _ _ _ _ X2) as (Em & Ea & Eb & El & Eg). subst m2. rewrite A1, A2 in Ea. rewrite B1, B2 in Eb. rewrite C1, C2 in El. rewrite D1, D2 in Eg.
  assert (f2 = f1) by (apply (first_to_proto_inj _ _ m1); assumption). assert (ct2 = ct1) by congruence. subst f2 ct2. rewrite <- Ea, <- Eb, <- El, <- Eg in Q2.
  set (v1 := cut (rq_num rq) (values_of_proto (rp_m2 pf1))) in *. set (v2 := cut (rq_num rq) (values_of_proto (rp_m2 pf2))) in *. set (cas := parse_bignum_vector (rp_as pf1)) in *.
  set (c1 := of_bytes (rp_challenge pf1)) in *. set (c2 := of_bytes (rp_challenge pf2)) in *. assert (Hc : c1 <> c2) by (unfold gap in Hd; fold c1 c2 in Hd; lia).
  assert (H1 : 0 <= c1) by apply of_bytes_nonneg. assert (H2 : 0 <= c2) by apply of_bytes_nonneg.
  assert (EP : prs = pairs c1 c2 v1 v2 ms om rs or_).
  { unfold prs, opening_pairs, pairs, differences, difference, gap. fold c1 c2. cbn [v1 v2 cut v_messages v_messages_open v_rs v_rs_open v_as v_as_open v_bs v_bs_open v_alphas v_alphas_1 v_alphas_2 v_gammas v_gammas_1 v_gammas_2].
    rewrite !map2_cut. rewrite !(map2_cut_l Z.mul) by (rewrite map2_len; [exact (z_m _ _ _ _ S1) || exact (z_r _ _ _ _ S1)|]; destruct S1, S2; cbn [v1 v2 cut v_messages v_rs] in *; congruence). reflexivity. }
  split.
  { rewrite EP. exact (pairs_open C b n s xs sf_len0 ok oy k y sf_po0 sf_un0 T HT FN (rq_num rq) HmG cm cr cas _ _ _ ct1 c1 c2 v1 v2 f1 Lc S1 S2 H1 H2 Hc Q1 Q2 ms om rs or_ Lm Lr Nm Nr Hom Hor eq_refl eq_refl). }
  intros Bd Ed. rewrite EP in Bd.
  assert (Hs : (1 <= s)%nat).
  { destruct s as [|s']; [|lia]. exfalso. assert (1 < n ^ Z.of_nat 0); [|change (n ^ Z.of_nat 0) with 1 in H; lia]. eapply Z.lt_le_trans; [|exact sf_bound0].
    assert (P2 : 2 <= 2 ^ (2 * bp_chal (bb_par C b) + 2 * bp_sec (bb_par C b) + 1)) by (change 2 with (2 ^ 1) at 1; apply Z.pow_le_mono_r; lia). clear - P2 Hq. nia. }
  destruct (decrypt_inv C b n s xs sf_W0 sf_k0 sf_len0 Hs csk sf_sv0 sf_sx0 rq cts betas Ed) as (Ec & Lb & Rb & Op). assert (cts = ct1) by congruence. subst cts. split; [exact Lb|].
  intros j Hj. assert (Rj : 0 <= nth j betas 0 < n ^ Z.of_nat s) by (rewrite Forall_forall in Rb; apply Rb, nth_In; lia). split; [exact Rj|].
  set (len := cs_len (bb_cs C b)) in *. pose proof (Nat.div_mod j len ltac:(lia)) as Dm. pose proof (Nat.mod_upper_bound j len ltac:(lia)) as Hl. set (i := (j / len)%nat) in *. set (l := (j mod len)%nat) in *.
  pose proof (num_cts_cover len (rq_num rq) sf_len0) as Cv. assert (Hi : (i < num_cts len (rq_num rq))%nat) by (clear - Dm Hj Cv Hl; nia). assert (Ej : (i * len + l = j)%nat) by lia.
  destruct (Op i l Hl ltac:(rewrite Lct; exact Hi) ltac:(rewrite Ej; exact Hj)) as (ct & Nc & Oc). rewrite Ej in Oc.
  pose proof (decrypted C b n s xs sf_W0 sf_g0 sf_k0 sf_len0 ok oy k y Hok Hoy Hk0 Hy0 Hq0 T HT FM (rq_num rq) HmG cm cr cas _ _ _ ct1 c1 c2 v1 v2 f1 Lc S1 S2 H1 H2 Hc Q1 Q2 ms rs Lm Lr i l ct _
    ltac:(rewrite Lct; exact Hi) Hi Hl Nc (proj1 Rj) Oc) as Dv.
  destruct (bound_values C b n s xs sf_len0 ok oy k y sf_po0 sf_un0 T HT FN (rq_num rq) HmG cm cr cas _ _ _ ct1 c1 c2 v1 v2 f1 Lc S1 S2 H1 H2 Hc Q1 Q2 ms om rs or_ Lm Lr Nm Nr Hom Hor eq_refl eq_refl Bd j Hj) as [Bm Br].
  unfold hf in Dv. fold len in Dv. rewrite Ej, (hidden_nth C b _ v1 j S1), (hidden_nth C b _ v2 j S2) in Dv.
  rewrite !map2_sub_nth in Bm, Br by (destruct S1, S2; congruence). unfold differences, gap. fold c1 c2.
  change (v_as (values_of_proto (rp_m2 pf1))) with (v_as v1). change (v_as (values_of_proto (rp_m2 pf2))) with (v_as v2). change (v_bs (values_of_proto (rp_m2 pf1))) with (v_bs v1). change (v_bs (values_of_proto (rp_m2 pf2))) with (v_bs v2).
  rewrite !map2_sub_nth by (destruct S1, S2; congruence).
  match type of Dv with (_ | ?u) => match goal with |- (_ | ?w) => replace w with u; [exact Dv|] end end. fold q in Dv |- *. lia || nia.
Qed.
Print Assumptions C72_decrypted_value_partial.

(** The bound an issuer could check on the decrypted values: no honest request reaches it. *)
Definition honest_bound (C : ec) (p : bb_params) : Z := (2 ^ (bp_chal p + bp_sec p) + 1) * ec_order C ^ 3.
Lemma in_range_nth q l j : 0 < q -> Forall (fun x => 0 <= x < q) l -> 0 <= nth j l 0 < q.
Proof. intros Hq H. destruct (nth_in_or_default j l 0) as [I|I]; [rewrite Forall_forall in H; apply H, I|lia]. Qed.
Lemma below_nth B l j : 0 < B -> forallb (fun x => x <? B) l = true -> nth j l 0 < B.
Proof. intros HB H. destruct (nth_in_or_default j l 0) as [I|I]; [|lia]. rewrite forallb_forall in H. apply Z.ltb_lt, H, I. Qed.
Lemma honest_beta_below q U m r a k y bb : 1 < q -> 1 <= U -> 0 <= m < q -> 0 <= r < q -> 0 < a < q -> 0 < k < q -> 0 < y < q -> 0 <= bb < q * q * U ->
  m * a + bb * q + a * k + r * a * y < (U + 1) * q ^ 3.
Proof.
  intros Hq HU Hm Hr Ha Hk Hy Hb. replace (q ^ 3) with (q * q * q) by ring.
  assert (X1 : m + k + r * y <= q * q - 1). { assert (r * y <= (q - 1) * (q - 1)) by (apply Z.mul_le_mono_nonneg; lia). nia. }
  assert (X2 : a * (m + k + r * y) <= q * (q * q - 1)). { pose proof (Z.mul_nonneg_nonneg r y). apply Z.mul_le_mono_nonneg; lia. }
  assert (X3 : bb * q <= (q * q * U - 1) * q) by (apply Z.mul_le_mono_nonneg_r; lia). clear Hb. nia.
Qed.

(** The issuer's values of an honest request stay below the bound, whatever was drawn. *)
Theorem C72_honest_below_bound : forall flag C sha512 p b n s g xs ys csk pp num rk ry ek ey pk sk ms rs om or_ e rq pf st,
  ec_laws C -> bb_system flag C p b n s g xs ys csk pp num -> bb_generate_keys flag C b rk ry ek ey = Ok (pk, sk) ->
  Forall (fun x => 0 <= x < ec_order C) ms -> Forall (fun x => 0 <= x < ec_order C) rs -> 0 <= om -> 0 <= or_ ->
  let cm := commitment (pp_gs pp) (pp_h pp) (pp_n pp) ms om in let cr := commitment (pp_gs pp) (pp_h pp) (pp_n pp) rs or_ in
  bb_request_and_proof flag C sha512 b ms rs pk cm om cr or_ e = Ok (rq, pf, st) ->
  exists cts betas, decrypt_request C b csk rq = Ok (cts, betas) /\ length betas = length ms /\ Forall (fun z => 0 <= z < honest_bound C p) betas.
Proof.
  intros flag C sha p b n s g xs ys csk pp num rk ry ek ey pk sk ms rs om or_ e rq pf st L Sy E Hm Hr Hom Hor cm cr Er.
  destruct (system_facts _ _ _ _ _ _ _ _ _ _ _ _ L Sy) as [sf_par0 sf_pp0 sf_W0 sf_g0 sf_k0 sf_ys0 sf_len0 sf_sv0 sf_sp0 sf_sx0 sf_po0 sf_un0 sf_sec0 sf_chal0 sf_base0 sf_bound0]. subst p pp. pose proof (n1 n s _ sf_W0) as Hn.
  destruct (keys_inv flag C b n s xs sf_W0 sf_g0 sf_k0 L rk ry ek ey pk sk E) as (Rk & Ry & keys & ok & oy & Ep & Hok & Hoy & K1 & K2).
  assert (Hk0 : 0 <= of_bytes (bsk_k sk)) by lia. assert (Hy0 : 0 <= of_bytes (bsk_y sk)) by lia.
  set (k := of_bytes (bsk_k sk)) in *. set (y := of_bytes (bsk_y sk)) in *.
  assert (Nm : nonneg ms) by (eapply Forall_impl; [|exact Hm]; cbn beta; lia). assert (Nr : nonneg rs) by (eapply Forall_impl; [|exact Hr]; cbn beta; lia).
  assert (Sz : (length ms <= length (pp_gs (pd_par (bb_ped C b))))%nat /\ length rs = length ms).
  { unfold bb_request_and_proof in Er. destruct (Nat.ltb_spec (length (pp_gs (pd_par (bb_ped C b)))) (length ms)) as [|H1]; [discriminate|]. split; [lia|].
    destruct (Nat.eqb_spec (length rs) (length ms)) as [H2|]; [exact H2|discriminate]. }
  destruct Sz as [Hl Lr].
  assert (D : Forall (rnd_ok n) (enc_rand C b n e (length ms)) /\ Forall (rnd_ok n) (dummy_enc C b n e (length ms))).
  { assert (Dec : forall l, {Forall (rnd_ok n) l} + {~ Forall (rnd_ok n) l}).
    { intros l. apply Forall_dec. intros x. unfold rnd_ok. destruct (Z_le_dec 0 x); [|right; lia]. destruct (Z.eq_dec x 0); [left; lia|].
      destruct (Z.eq_dec (Z.gcd x n) 1); [left; lia|right; lia]. }
    destruct (Dec (enc_rand C b n e (length ms))) as [D1|D1]; [destruct (Dec (dummy_enc C b n e (length ms))) as [D2|D2]; [split; assumption|]|].
    - rewrite (request_rejects flag C sha b n s xs sf_W0 sf_g0 sf_k0 sf_len0 ok oy k y Hok Hoy Hk0 Hy0 sf_po0 L sf_sec0 sf_chal0 pk keys Ep K1 K2 ms rs cm om cr or_ e Hl Lr Nm Nr Hom Hor) in Er by (intros [_ X]; contradiction). discriminate.
    - rewrite (request_rejects flag C sha b n s xs sf_W0 sf_g0 sf_k0 sf_len0 ok oy k y Hok Hoy Hk0 Hy0 sf_po0 L sf_sec0 sf_chal0 pk keys Ep K1 K2 ms rs cm om cr or_ e Hl Lr Nm Nr Hom Hor) in Er by (intros [X _]; contradiction). discriminate. }
  destruct D as [D1 D2].
  destruct (honest_request flag C sha b n s xs sf_W0 sf_g0 sf_k0 sf_len0 ok oy k y Hok Hoy Hk0 Hy0 sf_po0 sf_un0 L sf_sec0 sf_chal0 pk keys Ep K1 K2 ms rs om or_ e Hl Lr Nm Nr Hom Hor D1 D2)
      as (rq' & pf' & st' & E1 & E2 & E3 & E4 & _). change (com C b ms om) with cm in E1. change (com C b rs or_) with cr in E1.
  rewrite E1 in Er. assert (rq' = rq) by congruence. subst rq'. clear Er E1.
  pose proof (fun j => betav_range C b n s sf_len0 L sf_sec0 sf_chal0 sf_bound0 k y Rk Ry ms rs Lr Hl Hm Hr e rq E2 j) as BR.
  exists (request_cts C b n s xs ok oy k y ms rs e), (tab (length ms) (betav C b k y ms rs e)). split.
  { apply (decrypt_request_ok C b n s xs sf_W0 sf_g0 sf_k0 sf_len0 csk sf_sv0 sf_sp0 sf_sx0 (length ms) (hr C b ok oy (mask_as C e (length ms)) (map2 Z.mul rs (mask_as C e (length ms))) (enc_rand C b n e (length ms)))
      (hf C b k y (hidden_msgs C ms (mask_as C e (length ms)) (mask_bs C b e (length ms))) (mask_as C e (length ms)) (map2 Z.mul rs (mask_as C e (length ms)))) (betav C b k y ms rs e)); try assumption.
    - intros i. exact (R_nonneg C b n s sf_W0 sf_len0 L ok oy Hok Hoy ms rs Lr Hl Hr e rq E2 i).
    - intros i l. exact (F_nonneg C b n s sf_len0 L sf_sec0 sf_chal0 k y Rk Ry ms rs Lr Hl Hm Hr e rq E2 i l).
    - intros i l _ Hj. exact (hf_beta C b n s sf_len0 sf_sec0 sf_chal0 k y ms rs Lr Hl e rq E2 i l Hj).
    - intros j _. destruct (BR j) as (A & B & _). split; assumption. }
  split; [apply tab_len|]. apply tab_Forall. intros j Hj. split; [apply (BR j)|]. unfold honest_bound. apply honest_beta_below; try assumption.
  - apply (order_gt1 C L).
  - assert (0 < 2 ^ (bp_chal (bb_par C b) + bp_sec (bb_par C b))) by (apply Z.pow_pos_nonneg; lia). lia.
  - apply in_range_nth; [pose proof (order_gt1 C L); lia|exact Hm].
  - apply in_range_nth; [pose proof (order_gt1 C L); lia|exact Hr].
  - apply private_key_range; exact L.
  - apply Z.mod_pos_bound. pose proof (order_gt1 C L). assert (0 < 2 ^ (bp_chal (bb_par C b) + bp_sec (bb_par C b))) by (apply Z.pow_pos_nonneg; lia). nia.
Qed.
Print Assumptions C72_honest_below_bound.

Lemma no_wrap q U Ch D bt da X db P : 1 < q -> 1 <= Ch -> 2 * Ch <= U -> - Ch < D < Ch -> 0 <= bt < (U + 1) * q ^ 3 -> - (2 * U * q) < da < 2 * U * q -> 0 <= X < q * q ->
  - (2 * (U * U) * (q * q)) < db < 2 * (U * U) * (q * q) -> 4 * (U * U) * q ^ 3 <= P -> (P | D * bt - (da * X + q * db)) -> D * bt = da * X + q * db.
Proof.
  intros Hq HC HU HD Hb Ha HX Hd HP [z Ez]. replace (q ^ 3) with (q * q * q) in * by ring. set (Q := q * q * q) in *.
  assert (HQ : 0 < Q) by (unfold Q; nia).
  assert (A1 : - (Ch * ((U + 1) * Q)) <= D * bt <= Ch * ((U + 1) * Q)).
  { assert (H1 : 0 <= bt <= (U + 1) * Q) by lia. assert (H2 : -Ch <= D <= Ch) by lia. clear - H1 H2 HC. split; nia. }
  assert (A2 : - (2 * U * Q) <= da * X <= 2 * U * Q).
  { assert (H1 : 0 <= X <= q * q) by lia. assert (H2 : - (2 * U * q) <= da <= 2 * U * q) by lia. assert (H3 : 0 <= 2 * U * q) by nia. replace (2 * U * Q) with (2 * U * q * (q * q)) by (unfold Q; ring). clear - H1 H2 H3. split; nia. }
  assert (A3 : - (2 * (U * U) * Q) < q * db < 2 * (U * U) * Q). { replace (2 * (U * U) * Q) with (q * (2 * (U * U) * (q * q))) by (unfold Q; ring). clear - Hd Hq. set (w := 2 * (U * U) * (q * q)) in *. clearbody w. split; nia. }
  assert (A4 : 2 * (Ch * ((U + 1) * Q)) <= U * (U + 1) * Q). { replace (2 * (Ch * ((U + 1) * Q))) with (2 * Ch * ((U + 1) * Q)) by ring. replace (U * (U + 1) * Q) with (U * ((U + 1) * Q)) by ring. apply Z.mul_le_mono_nonneg_r; [|exact HU]. clear - HQ HC HU. nia. }
  assert (A5 : 2 * (U * Q) <= U * U * Q). { replace (2 * (U * Q)) with (2 * U * Q) by ring. apply Z.mul_le_mono_nonneg_r; [lia|]. clear - HC HU. nia. }
  assert (E1 : U * (U + 1) * Q = U * U * Q + U * Q) by ring. rewrite E1 in A4. clear E1. replace (4 * (U * U) * Q) with (4 * (U * U * Q)) in HP by ring. replace (2 * (U * U) * Q) with (2 * (U * U * Q)) in A3 by ring. replace (2 * U * Q) with (2 * (U * Q)) in A2 by ring.
  assert (P0 : 0 < U * Q) by (apply Z.mul_pos_pos; lia).
  set (u := U * Q) in *. set (v := U * U * Q) in *. set (w := Ch * ((U + 1) * Q)) in *. set (d1 := D * bt) in *. set (d2 := da * X) in *. set (d3 := q * db) in *. clearbody u v w d1 d2 d3. clear - Ez HP A1 A2 A3 A4 A5 P0.
  assert (z = 0); [|subst z; lia]. assert (Hz : - P < z * P < P) by lia. assert (0 < P) by lia. destruct (Z_lt_le_dec 0 z); [assert (1 * P <= z * P) by (apply Z.mul_le_mono_nonneg_r; lia); lia|].
  destruct (Z_lt_le_dec z 0); [assert (z * P <= -1 * P) by (apply Z.mul_le_mono_nonneg_r; lia); lia|lia].
Qed.

(** What the verification would prove if the issuer also refused requests that decrypt to values outside the honest range, for a modulus one bit longer than Create
    demands: take two accepted proofs for one request that agree on everything hashed (two runs of one requester against two hash functions), with challenges that
    differ modulo the group order. If they do not open a commitment to two different lists, the masks computed from the two proofs turn the issuer's
    response into the signatures on the committed messages with the committed nonces. (With [C72_honest_below_bound] the extra check never refuses an
    honest request; without it [C72_signs_committed_messages_refuted] applies.) *)
Theorem C72_signs_committed_bounded_partial : forall flag C p b n s g xs ys csk pp num rk ry ek ey pk sk ms rs om or_ rq pf1 pf2 x sha1 sha2 cts betas,
  ec_laws C -> bb_system flag C p b n s g xs ys csk pp num -> bb_generate_keys flag C b rk ry ek ey = Ok (pk, sk) ->
  let q := ec_order C in let k := of_bytes (bsk_k sk) in let y := of_bytes (bsk_y sk) in
  let cm := commitment (pp_gs pp) (pp_h pp) (pp_n pp) ms om in let cr := commitment (pp_gs pp) (pp_h pp) (pp_n pp) rs or_ in
  let in_range := Forall (fun z => 0 <= z < q) in in_range ms -> in_range rs -> 0 <= om -> 0 <= or_ -> length ms = rq_num rq -> length rs = rq_num rq ->
  request_query flag C b pk rq pf1 cm cr = Ok x -> request_query flag C b pk rq pf2 cm cr = Ok x ->
  bb_verify_request flag C sha1 b pk rq pf1 cm cr = Ok tt -> bb_verify_request flag C sha2 b pk rq pf2 cm cr = Ok tt -> gap pf1 pf2 mod q <> 0 ->
  Forall (fun wo => ~ breaks_binding (pp_gs pp) (pp_h pp) (pp_n pp) wo) (opening_pairs ms om rs or_ pf1 pf2) ->
  decrypt_request C b csk rq = Ok (cts, betas) -> Forall (fun z => z < honest_bound C p) betas -> 2 ^ (2 * (bp_chal p + bp_sec p) + 2) * q ^ 3 <= n ^ Z.of_nat s ->
  let masks state := length state = rq_num rq /\ forall j, (j < rq_num rq)%nat -> (of_bytes (@nth bytes j state []) * gap pf1 pf2 - nth j (differences v_as pf1 pf2) 0) mod q = 0 in
  (exists state, masks state) /\
  forall sha3 e rsp pf3 state, bb_respond flag C sha3 b rq pk cm cr csk e = Ok (rsp, pf3) -> masks state ->
    exists Ps, bb_extract C rsp state = Ok Ps /\ Forall2 (fun mr P => bb_value C (bb_base C b) k y (fst mr) (snd mr) P) (combine ms rs) Ps.
Proof.
  intros flag C p b n s g xs ys csk pp num rk ry ek ey pk sk ms rs om or_ rq pf1 pf2 x sha1 sha2 cts betas L Sy E q k y cm cr ir Rm Rr Hom Hor Lm Lr Ex1 Ex2 V1 V2 Hd Bd Ed Hb HP masks.
  pose proof (order_gt1 C L) as Hq. fold q in Hq. assert (Hq0 : 0 < q) by lia. assert (Nm : nonneg ms) by (eapply Forall_impl; [|exact Rm]; cbn beta; lia). assert (Nr : nonneg rs) by (eapply Forall_impl; [|exact Rr]; cbn beta; lia).
  assert (Hd0 : gap pf1 pf2 <> 0) by (intros X; rewrite X in Hd; apply Hd, Zmod_0_l).
  destruct (C72_decrypted_value_partial flag C p b n s g xs ys csk pp num rk ry ek ey pk sk ms rs om or_ rq pf1 pf2 x cts betas L Sy E Nm Nr Hom Hor Lm Lr Ex1 Ex2 Hd0) as [_ Dv].
  destruct (Dv Bd Ed) as [Lb Dj]. clear Dv.
  destruct (system_facts _ _ _ _ _ _ _ _ _ _ _ _ L Sy) as [sf_par0 sf_pp0 sf_W0 sf_g0 sf_k0 sf_ys0 sf_len0 sf_sv0 sf_sp0 sf_sx0 sf_po0 sf_un0 sf_sec0 sf_chal0 sf_base0 sf_bound0]. subst p pp.
  destruct (keys_inv flag C b n s xs sf_W0 sf_g0 sf_k0 L rk ry ek ey pk sk E) as (Rk & Ry & keys & ok & oy & Ep & Hok & Hoy & K1 & K2). fold k in Rk, K1. fold y in Ry, K2. fold q in Rk, Ry.
  assert (Hk0 : 0 <= k) by lia. assert (Hy0 : 0 <= y) by lia.
  destruct (request_inv flag C b n s xs sf_W0 sf_g0 sf_k0 sf_len0 ok oy k y Hok Hoy Hk0 Hy0 sf_po0 Hq0 pk keys Ep K1 K2 rq pf1 cm cr x Ex1) as (_ & _ & S1 & _ & I1 & _).
  destruct (request_inv flag C b n s xs sf_W0 sf_g0 sf_k0 sf_len0 ok oy k y Hok Hoy Hk0 Hy0 sf_po0 Hq0 pk keys Ep K1 K2 rq pf2 cm cr x Ex2) as (_ & _ & S2 & _ & I2 & _).
  set (ch := bp_chal (bb_par C b)) in *. set (t := ch + bp_sec (bb_par C b)) in *.
  assert (Ch : forall sha pf, request_query flag C b pk rq pf cm cr = Ok x -> bb_verify_request flag C sha b pk rq pf cm cr = Ok tt -> 0 <= of_bytes (rp_challenge pf) < 2 ^ ch).
  { intros sha pf Ex V. rewrite verify_request_query, Ex in V by (fold ch; lia). cbn [bind] in V. fold ch in V. apply bind_ok in V. destruct V as (c & Ec & V). destruct (Z.eqb_spec c (of_bytes (rp_challenge pf))) as [<-|]; [|discriminate].
    apply (random_oracle_range 512 sha x); [lia|apply Z.pow_pos_nonneg; lia|exact Ec]. }
  pose proof (Ch sha1 pf1 Ex1 V1) as C1. pose proof (Ch sha2 pf2 Ex2 V2) as C2. clear Ch.
  assert (Bn : forall v, values_in_bounds C b v = Ok true -> forall j, nth j (v_as v) 0 < 2 * 2 ^ t * q /\ nth j (v_bs v) 0 < 2 * (2 ^ t * 2 ^ t) * (q * q)).
  { intros v Hv j. unfold values_in_bounds in Hv. fold ch t q in Hv. rewrite !lshift_ok in Hv by lia. cbn [bind] in Hv. apply ok_inj in Hv. rewrite !andb_true_iff in Hv. destruct Hv as ((((_ & Ha) & Hbs) & _) & _).
    assert (Z1 : q * 2 ^ (t + 1) = 2 * 2 ^ t * q) by (rewrite Z.pow_add_r by lia; ring). assert (Z2 : q * q * 2 ^ (2 * ch + 2 * bp_sec (bb_par C b) + 1) = 2 * (2 ^ t * 2 ^ t) * (q * q)).
    { rewrite <- Z.pow_add_r by lia. replace (2 * ch + 2 * bp_sec (bb_par C b) + 1) with ((t + t) + 1) by lia. rewrite Z.pow_add_r by lia. ring. }
    rewrite Z1 in Ha. rewrite Z2 in Hbs. assert (0 < 2 ^ t) by (apply Z.pow_pos_nonneg; lia). split; apply below_nth; try assumption; clear - H Hq0; set (U := 2 ^ t) in *; clearbody U; nia. }
  assert (Eb : forall j, (j < rq_num rq)%nat -> gap pf1 pf2 * nth j betas 0 = nth j (differences v_as pf1 pf2) 0 * (nth j ms 0 + k + y * nth j rs 0) + q * nth j (differences v_bs pf1 pf2) 0).
  { intros j Hj. destruct (Dj j Hj) as [Bj Dd]. pose proof (in_range_nth q ms j Hq0 Rm) as M. pose proof (in_range_nth q rs j Hq0 Rr) as R.
    destruct (Bn _ I1 j) as [A1 B1]. destruct (Bn _ I2 j) as [A2 B2].
    pose proof (nonneg_nth _ j (y_a _ _ _ _ S1)) as N1. pose proof (nonneg_nth _ j (y_a _ _ _ _ S2)) as N2. pose proof (nonneg_nth _ j (y_b _ _ _ _ S1)) as N3. pose proof (nonneg_nth _ j (y_b _ _ _ _ S2)) as N4. cbn [cut v_as v_bs] in N1, N2, N3, N4.
    assert (La : length (v_as (values_of_proto (rp_m2 pf1))) = length (v_as (values_of_proto (rp_m2 pf2)))) by (rewrite (z_a _ _ _ _ S1 : length (v_as (values_of_proto (rp_m2 pf1))) = _); symmetry; exact (z_a _ _ _ _ S2)).
    assert (Lbs : length (v_bs (values_of_proto (rp_m2 pf1))) = length (v_bs (values_of_proto (rp_m2 pf2)))) by (rewrite (z_b _ _ _ _ S1 : length (v_bs (values_of_proto (rp_m2 pf1))) = _); symmetry; exact (z_b _ _ _ _ S2)).
    apply (no_wrap q (2 ^ t) (2 ^ ch) (gap pf1 pf2) (nth j betas 0) _ (nth j ms 0 + k + y * nth j rs 0) _ (n ^ Z.of_nat s)); try assumption.
    - assert (0 < 2 ^ ch) by (apply Z.pow_pos_nonneg; lia). lia.
    - replace (2 * 2 ^ ch) with (2 ^ (ch + 1)) by (rewrite Z.pow_add_r by lia; ring). apply Z.pow_le_mono_r; lia.
    - unfold gap. lia.
    - split; [apply Bj|]. rewrite Forall_forall in Hb. apply Hb, nth_In. lia.
    - unfold differences. rewrite map2_sub_nth by exact La. lia.
    - assert (y * nth j rs 0 <= (q - 1) * (q - 1)) by (apply Z.mul_le_mono_nonneg; lia). pose proof (Z.mul_nonneg_nonneg y (nth j rs 0)). lia.
    - unfold differences. rewrite map2_sub_nth by exact Lbs. lia.
    - eapply Z.le_trans; [|exact HP]. apply Z.mul_le_mono_nonneg_r; [apply Z.pow_nonneg; lia|]. replace (2 * t + 2) with (t + t + 2) by lia. rewrite !Z.pow_add_r by lia. change (2 ^ 2) with 4. lia. }
  assert (Em : forall j, (j < rq_num rq)%nat -> eqmod q (gap pf1 pf2 * nth j betas 0) (nth j (differences v_as pf1 pf2) 0 * (nth j ms 0 + k + y * nth j rs 0))).
  { intros j Hj. rewrite (Eb j Hj). exists (nth j (differences v_bs pf1 pf2) 0). ring. }
  assert (Mk : forall state, masks state <-> length state = rq_num rq /\ forall j, (j < rq_num rq)%nat -> eqmod q (of_bytes (@nth bytes j state []) * gap pf1 pf2) (nth j (differences v_as pf1 pf2) 0)).
  { intros state. unfold masks. split; intros [H1 H2]; (split; [exact H1|]); intros j Hj; specialize (H2 j Hj); [apply Z.mod_divide in H2; [exact H2|lia]|apply Z.mod_divide; [lia|exact H2]]. }
  split.
  - destruct (divisors_exist C b 1 sf_len0 (le_n 1) L ms rs (gap pf1 pf2) (differences v_as pf1 pf2) betas (rq_num rq) Lm Lr Lb Hd) as (state & Hst). exists state. apply Mk. exact Hst.
  - intros sha3 e rsp pf3 state Er Hm. apply Mk in Hm. destruct Hm as [Ls Hm]. destruct (respond_inv C b L csk flag sha3 rq pk cm cr e rsp pf3 Er) as (cts' & betas' & vals & Ed' & Ev & Epp). assert (betas' = betas) by congruence. subst betas'.
    exact (response_signs C b 1 sf_len0 (le_n 1) L k y ms rs (gap pf1 pf2) (differences v_as pf1 pf2) betas vals (rq_num rq) Lm Lr Lb Ev Hd Em rsp state Epp Ls Hm).
Qed.
Print Assumptions C72_signs_committed_bounded_partial.

(** Two proofs of one honest requester with the challenges 0 and 1: they hash the same string, the issuer decrypts values below the bound, the bound on the modulus holds,
    the four pairs open to equal values (the lists of differences are zero), and the masks found from the two proofs are those the requester drew. *)
Example C72_two_proofs_ex : exb_keys (fun b csk pk sk => let ms := [5; 20; 33] in let rs := [7; 0; 78] in let cm := exb_com ms 50 in let cr := exb_com rs 60 in
  let go sha := bb_request_and_proof false toy sha b ms rs pk cm 50 cr 60 (exb_e 3) in
  let* z1 := go (const_hash x35) in let* z2 := go (const_hash x70) in
  let rq := fst (fst z1) in let pf1 := snd (fst z2) in let pf2 := snd (fst z1) in
  let* x1 := request_query false toy b pk rq pf1 cm cr in let* x2 := request_query false toy b pk rq pf2 cm cr in
  let* _ := bb_verify_request false toy (const_hash x70) b pk rq pf1 cm cr in let* _ := bb_verify_request false toy (const_hash x35) b pk rq pf2 cm cr in
  let* d := decrypt_request toy b csk rq in
  Ok (gap pf1 pf2, bytes_eqb x1 x2, rq_num rq, forallb (fun z => z <? honest_bound toy exb_p) (snd d),
      2 ^ (2 * (bp_chal exb_p + bp_sec exb_p) + 2) * ec_order toy ^ 3 <=? 77 ^ 4,
      forallb (fun wo => forallb (Z.eqb 0) (fst wo)) (opening_pairs ms 50 rs 60 pf1 pf2), differences v_as pf1 pf2, parse_bignum_vector (snd z1)))
  = Ok (1, true, 3%nat, true, true, true, [65; 4; 21], [65; 4; 21]).
Proof. vm_compute. reflexivity. Qed.
(** The attack of [C72_chosen_ex] would be refused by the check: every value decrypted from its request is above the bound. *)
Example C72_attack_above_bound_ex : exb_keys (fun b csk pk sk => let ms := [5; 20; 33] in let rs := [7; 0; 78] in let cm := exb_com ms 50 in let cr := exb_com rs 60 in
  let* x := opposite_request false toy (const_hash x70) b ms rs pk cm 50 cr 60 (target_e toy 77 4 ms [1; 2; 3]) in
  let* d := decrypt_request toy b csk (fst (fst x)) in Ok (map (fun z => honest_bound toy exb_p <=? z) (snd d))) = Ok [true; true; true].
Proof. vm_compute. reflexivity. Qed.
