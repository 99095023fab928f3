(** Theorems on what the requests and responses of the oblivious signature reveal (C65). *)
From Coq Require Import Znumtheory.
From Verif Require Import Base M_BigNum M_Num M_EC M_Proto M_CS M_Pedersen M_VRF M_BB S_CS S_Pedersen S_BB S_Hide S_HideBB L_BigNum L_Num L_Mod L_NT L_DJ L_CS L_EC L_Cipher L_Protocol
  L_Toy L_Pedersen L_VRF L_BBct L_BBhom L_BBped L_BBreq L_BBrsp L_BB L_Hide L_HideRsp L_HideReq P_CS P_Pedersen P_BB P_Hide.

(** ** Requests *)

(** An honest request for m messages (in k ciphertexts) comes with a proof.  Fix the request and its commitments, that is, everything except the masks of the proof:
    somebody who sees only these can produce a proof from 7 m + 7 + k draws which no test tells from the real one more often than in a fraction
    (7 m + 7 + k) / 2^security of all draws, plus the fraction for which the masks of the encryption randomness are unusable (not coprime to n). *)
Theorem C65_request_hides : forall flag C p b n s g xs ys csk pp num rk ry ek ey pk sk ms rs om or_ e,
  ec_laws C -> bb_system flag C p b n s g xs ys csk pp num -> bb_generate_keys flag C b rk ry ek ey = Ok (pk, sk) ->
  (length ms <= length (pp_gs pp))%nat -> length rs = length ms -> Forall (fun x => 0 <= x < ec_order C) ms -> Forall (fun x => 0 <= x < ec_order C) rs -> 0 <= om < pp_n pp -> 0 <= or_ < pp_n pp ->
  (forall i, (i * length ys < length ms)%nat -> usable n (e_enc e i mod n)) ->
  let cm := commitment (pp_gs pp) (pp_h pp) (pp_n pp) ms om in let cr := commitment (pp_gs pp) (pp_h pp) (pp_n pp) rs or_ in
  let m := length ms in let k := num_cts (length ys) m in
  exists rq cas cbs cal cga st, forall sha512 c, oracle_says sha512 (bp_chal p) c ->
    within_distance_but (Z.of_nat (7 * m + 7 + k)) (bp_sec p) (request_bounds C b m k) (unusable_draw n m k)
      (fun ds => bb_request_and_proof flag C sha512 b ms rs pk cm om cr or_ (with_dummies e m ds))
      (fun ds => simulated_request rq cas cbs cal cga st m k c ds).
Proof.
  intros flag C p b n s g xs ys csk pp num rk ry ek ey pk sk ms rs om or_ e L Sy E Hl Lr Hm Hr Hom Hor He cm cr m k.
  destruct (system_facts _ _ _ _ _ _ _ _ _ _ _ _ L Sy) as [sf_par0 sf_pp0 sf_W0 sf_g0 sf_k0 sf_ys0 sf_len0 sf_sv0 sf_sp0 sf_sx0 sf_po0 sf_un0 sf_sec0 sf_chal0 sf_base0 sf_bound0]. subst p pp.
  assert (El : cs_len (bb_cs C b) = length ys) by (unfold cs_len; rewrite sf_ys0; reflexivity).
  destruct (keys_inv flag C b n s xs sf_W0 sf_g0 sf_k0 L rk ry ek ey pk sk E) as (Rk & Ry & keys & ok & oy & Ep & Hok & Hoy & K1 & K2).
  assert (Hk0 : 0 <= of_bytes (bsk_k sk)) by lia. assert (Hy0 : 0 <= of_bytes (bsk_y sk)) by lia. pose proof (n1 n s _ sf_W0) as Hn.
  assert (He' : Forall (rnd_ok n) (enc_rand C b n e (length ms))).
  { unfold enc_rand. apply tab_all. intros i Hi. apply num_cts_iff in Hi; [|exact sf_len0]. rewrite El in Hi. split; [apply Z.mod_pos_bound; lia|apply (He i Hi)]. }
  unfold k, m. rewrite <- El.
  destruct (request_hides flag C b n s xs sf_W0 sf_g0 sf_k0 sf_len0 ok oy _ _ Hok Hoy Hk0 Hy0 sf_po0 L sf_sec0 sf_chal0 pk keys Ep K1 K2 ms rs om or_ e Hl Lr Hm Hr Hom Hor He')
    as (rq & cas & cbs & cal & cga & st & _ & D).
  exists rq, cas, cbs, cal, cga, st. exact D.
Qed.
Print Assumptions C65_request_hides.

(** ** Responses *)
Lemma masked_tab C (L : ec_laws C) st m (a : nat -> Z) (v : nat -> pt C) : parse_bignum_vector st = tab m a -> (forall j, (j < m)%nat -> 0 < a j < ec_order C) ->
  sent_points C st (tab m (fun j => point_mul C (v j) (a j))) = tab m v.
Proof.
  intros E Ha. unfold sent_points. assert (Q : forall X (f : pt C -> Z -> X) Ps, map (fun aP => f (snd aP) (of_bytes (fst aP))) (combine st Ps) = map (fun aP => f (snd aP) (fst aP)) (combine (tab m a) Ps)).
  { intros X f Ps. rewrite <- E. unfold parse_bignum_vector. clear E. revert Ps. induction st as [|x l IH]; intros [|P Ps]; cbn [map combine fst snd]; try reflexivity. f_equal. apply IH. }
  rewrite (Q _ (fun P x => pmul C (x ^ (ec_order C - 2)) P)). unfold tab. assert (I : forall j, In j (seq 0 m) -> (j < m)%nat) by (intros j H; apply in_seq in H; lia). revert I. generalize (seq 0 m).
  induction l as [|j l IH]; intros I; cbn [map combine fst snd]; [reflexivity|]. f_equal; [|apply IH; intros i Hi; apply I; right; exact Hi].
  pose proof (Ha j (I j (or_introl eq_refl))) as Rj. pose proof (order_gt1 C L) as Hq. rewrite (point_mul_eq C L), <- (pmul_mul C L). transitivity (pmul C 1 (v j)); [|reflexivity]. apply (pmul_eqmod C L).
  assert (E1 : a j ^ (ec_order C - 2) * a j = a j ^ (ec_order C - 1)) by (rewrite Z.mul_comm, <- Z.pow_succ_r by lia; f_equal; lia). rewrite E1.
  apply fermat; [apply (n_prime C L)|]. intros D. apply Z.divide_pos_le in D; lia.
Qed.

(** The response to an honest request (made with whatever hash function) shows the signature values (one per message, divided by the masks which the requester chose and keeps in st)
    and a commitment to m numbers with the opening o; fix these.  If the Pedersen modulus is at
    most u times the Camenisch-Shoup modulus n and the decryption key was drawn below n, then the proof can be produced from m + len + 1 draws without the keys
    so that no test tells it from the real one more often than in a fraction (2 m + len + u) / 2^security of all draws. *)
Theorem C65_response_hides : forall flag C sha0 p b n s g xs ys csk pp num rk ry ek ey pk sk ms rs om or_ e rq pf st u,
  ec_laws C -> bb_system flag C p b n s g xs ys csk pp num -> bb_generate_keys flag C b rk ry ek ey = Ok (pk, sk) ->
  Forall (fun x => 0 <= x < ec_order C) ms -> Forall (fun x => 0 <= x < ec_order C) rs -> 0 <= om -> 0 <= or_ ->
  let k := of_bytes (bsk_k sk) in let y := of_bytes (bsk_y sk) in
  let cm := commitment (pp_gs pp) (pp_h pp) (pp_n pp) ms om in let cr := commitment (pp_gs pp) (pp_h pp) (pp_n pp) rs or_ in
  bb_request_and_proof flag C sha0 b ms rs pk cm om cr or_ e = Ok (rq, pf, st) ->
  (forall m r, In (m, r) (combine ms rs) -> (m + k + y * r) mod ec_order C <> 0) ->
  Forall (fun x => x <= n) xs -> 0 <= u -> pp_n pp <= u * n ->
  let m := length ms in
  exists Ps betas, Forall2 (fun mr P => bb_value C (bb_base C b) k y (fst mr) (snd mr) P) (combine ms rs) Ps /\ length betas = m /\ Forall (fun x => 0 <= x) betas /\
  let vals := sent_points C st Ps in
  forall o, exists cbb, to_bytes (commitment (pp_gs pp) (pp_h pp) (pp_n pp) betas (o mod pp_n pp)) = Ok cbb /\ forall sha512 c, oracle_says sha512 (bp_chal p) c ->
    within_distance (2 * Z.of_nat m + Z.of_nat (length ys) + u) (bp_sec p) (response_bounds C b m)
      (fun ds => bb_respond flag C sha512 b rq pk cm cr csk (response_entropy C b m o ds))
      (fun ds => simulated_response C b vals (map (ec_enc C) vals) cbb m c ds).
Proof.
  intros flag C sha0 p b n s g xs ys csk pp num rk ry ek ey pk sk ms rs om or_ e rq pf st u L Sy E Hm Hr Hom Hor k y cm cr Er Hdf Hxs Hu HuN m0.
  destruct (system_facts _ _ _ _ _ _ _ _ _ _ _ _ L Sy) as [sf_par0 sf_pp0 sf_W0 sf_g0 sf_k0 sf_ys0 sf_len0 sf_sv0 sf_sp0 sf_sx0 sf_po0 sf_un0 sf_sec0 sf_chal0 sf_base0 sf_bound0]. subst p pp. pose proof (n1 n s _ sf_W0) as Hn.
  assert (El : cs_len (bb_cs C b) = length ys) by (unfold cs_len; rewrite sf_ys0; reflexivity).
  destruct (keys_inv flag C b n s xs sf_W0 sf_g0 sf_k0 L rk ry ek ey pk sk E) as (Rk & Ry & keys & ok & oy & Ep & Hok & Hoy & K1 & K2). fold k in Rk, K1. fold y in Ry, K2.
  assert (Hk0 : 0 <= k) by lia. assert (Hy0 : 0 <= y) by lia. assert (Nm : nonneg ms) by (eapply Forall_impl; [|exact Hm]; cbn beta; lia). assert (Nr : nonneg rs) by (eapply Forall_impl; [|exact Hr]; cbn beta; lia).
  assert (Sz : (length ms <= length (pp_gs (pd_par (bb_ped C b))))%nat /\ length rs = length ms).
  { unfold bb_request_and_proof in Er. destruct (Nat.ltb_spec (length (pp_gs (pd_par (bb_ped C b)))) (length ms)) as [|H1]; [discriminate|]. split; [lia|].
    destruct (Nat.eqb_spec (length rs) (length ms)) as [H2|]; [exact H2|discriminate]. }
  destruct Sz as [Hl Lr].
  assert (D : Forall (rnd_ok n) (enc_rand C b n e (length ms)) /\ Forall (rnd_ok n) (dummy_enc C b n e (length ms))).
  { assert (Dec : forall l, Forall (fun x => 0 <= x) l -> {Forall (rnd_ok n) l} + {~ Forall (rnd_ok n) l}).
    { intros l Hl0. apply Forall_dec. intros x. unfold rnd_ok. destruct (Z_le_dec 0 x); [|right; lia]. destruct (Z.eq_dec x 0); [left; lia|].
      destruct (Z.eq_dec (Z.gcd x n) 1); [left; lia|right; lia]. }
    assert (P2 : 0 < n * 2 ^ (bp_chal (bb_par C b) + bp_sec (bb_par C b))) by (apply Z.mul_pos_pos; [lia|apply Z.pow_pos_nonneg; lia]).
    destruct (Dec (enc_rand C b n e (length ms))) as [D1|D1]; [apply tab_mod_nonneg; lia| |].
    - destruct (Dec (dummy_enc C b n e (length ms))) as [D2|D2]; [apply tab_mod_nonneg; lia|split; assumption|].
      rewrite (request_rejects flag C sha0 b n s xs sf_W0 sf_g0 sf_k0 sf_len0 ok oy _ _ Hok Hoy Hk0 Hy0 sf_po0 L sf_sec0 sf_chal0 pk keys Ep K1 K2 ms rs cm om cr or_ e Hl Lr Nm Nr Hom Hor) in Er by (intros [_ X]; contradiction). discriminate.
    - rewrite (request_rejects flag C sha0 b n s xs sf_W0 sf_g0 sf_k0 sf_len0 ok oy _ _ Hok Hoy Hk0 Hy0 sf_po0 L sf_sec0 sf_chal0 pk keys Ep K1 K2 ms rs cm om cr or_ e Hl Lr Nm Nr Hom Hor) in Er by (intros [X _]; contradiction). discriminate. }
  destruct D as [D1 D2].
  destruct (honest_request flag C sha0 b n s xs sf_W0 sf_g0 sf_k0 sf_len0 ok oy _ _ Hok Hoy Hk0 Hy0 sf_po0 sf_un0 L sf_sec0 sf_chal0 pk keys Ep K1 K2 ms rs om or_ e Hl Lr Nm Nr Hom Hor D1 D2)
      as (rq' & pf' & st' & E1 & E2 & E3 & E4 & _). fold k in E3. fold y in E3. change (com C b ms om) with cm in E1. change (com C b rs or_) with cr in E1.
  rewrite E1 in Er. assert (rq' = rq) by congruence. assert (st' = st) by congruence. subst rq' st'. clear Er E1.
  pose proof (order_gt1 C L) as Hq. pose proof sf_po0 as [HN _].
  assert (Hcm : 0 <= cm) by (apply Z.mod_pos_bound; lia). assert (Hcr : 0 <= cr) by (apply Z.mod_pos_bound; lia).
  assert (Hdj : forall j, (j < length ms)%nat -> (mv ms j + k + y * rv rs j) mod ec_order C <> 0).
  { intros j Hj. unfold mv, rv. apply Hdf. rewrite <- combine_nth by (symmetry; exact Lr). apply nth_In. rewrite combine_length. lia. }
  set (beta := betav C b k y ms rs e).
  assert (Bt : forall j, 0 <= beta j /\ beta j < n ^ Z.of_nat s /\ beta j <= 2 ^ (bp_chal (bb_par C b) + bp_sec (bb_par C b) + 1) * ec_order C * ec_order C * ec_order C).
  { intros j. pose proof (betav_range C b n s sf_len0 L sf_sec0 sf_chal0 sf_bound0 k y Rk Ry ms rs Lr Hl Hm Hr e rq E2 j) as (A & B & _). split; [exact A|]. split; [exact B|].
    unfold beta, betav. apply beta_size; [exact Hq|lia|apply (mv_range C b n s sf_len0 L ms rs Lr Hl Hm rq E2)|apply (rv_range C b n s sf_len0 L ms rs Lr Hl Hr rq E2)|pose proof (av_range C L e j); lia|lia|lia|apply (bv_range C b n s sf_len0 L sf_sec0 sf_chal0 ms rs Lr Hl e rq E2)]. }
  assert (Hnz : forall j, (j < length ms)%nat -> beta j mod ec_order C <> 0) by (intros j Hj E0; apply (betav_zero C b n s sf_len0 L k y ms rs Lr Hl e rq E2 j) in E0; exact (Hdj j Hj E0)).
  exists (tab (length ms) (fun j => point_mul C (sig C b beta j) (av C e j))), (betas (length ms) beta). split; [|split; [apply tab_len|split; [apply tab_all; intros j _; apply (Bt j)|]]].
  { apply (forall2_tab _ (0, 0)); [rewrite combine_length; lia|]. intros j Hj. rewrite combine_nth by (symmetry; exact Lr). cbn [fst snd]. fold (mv ms j) (rv rs j).
    split; [apply Hdj, Hj|]. destruct (sig_base C b sf_len0 L sf_base0 (length ms) beta rq E2 j (Hnz j Hj)) as [Sb _].
    rewrite (point_mul_eq C L), <- (pmul_mul C L). transitivity (pmul C (beta j) (sig C b beta j)); [|exact Sb]. apply (pmul_eqmod C L). unfold beta. rewrite (betav_eqmod C b k y ms rs e j), (Z.mul_comm (av C e j)). reflexivity. }
  rewrite (masked_tab C L st (length ms) (av C e) (sig C b beta) E4 (fun j _ => av_range C L e j)). intros vals o. unfold vals. clear vals.
  destruct (to_bytes_of (com C b (betas (length ms) beta) (o mod pp_n (pd_par (bb_ped C b))))) as (cbb & Ecb & _). { apply Z.mod_pos_bound. lia. }
  exists cbb. split; [exact Ecb|]. intros sha c HO. unfold m0. rewrite <- El.
  refine (response_hides flag C sha b n s xs sf_W0 sf_g0 sf_k0 sf_len0 sf_po0 L sf_sec0 sf_chal0 sf_base0 csk sf_sv0 sf_sp0 sf_sx0 (length ms) _ _ beta
    (R_nonneg C b n s sf_W0 sf_len0 L ok oy Hok Hoy ms rs Lr Hl Hr e rq E2) (F_nonneg C b n s sf_len0 L sf_sec0 sf_chal0 k y Rk Ry ms rs Lr Hl Hm Hr e rq E2)
    (fun i l _ H => hf_beta C b n s sf_len0 sf_sec0 sf_chal0 k y ms rs Lr Hl e rq E2 i l H) (fun j _ => conj (proj1 (Bt j)) (proj1 (proj2 (Bt j)))) rq E2 E3 _ Hl pk cm cr o c u Hcm Hcr HO (fun j _ => proj2 (proj2 (Bt j))) Hxs Hu HuN cbb Ecb).
  exact Hnz.
Qed.
Print Assumptions C65_response_hides.

(** The guard on the two moduli is needed: the opening o of the commitment to the decrypted values, a number below the Pedersen modulus, is masked by a draw below
    n 2^(challenge + security) only.  In every response the masked opening tells c o up to that bound, and nothing in Create relates the bound to the Pedersen modulus. *)
Theorem C65_response_opening : forall flag C sha512 p b n s g xs ys csk pp num rq pk cm cr e rsp pf, ec_laws C -> bb_system flag C p b n s g xs ys csk pp num ->
  bb_respond flag C sha512 b rq pk cm cr csk e = Ok (rsp, pf) ->
  let o := s_open e mod pp_n pp in let c := of_bytes (sp_challenge pf) in let z := of_bytes (sp_open pf) in
  (exists x, random_oracle 512 sha512 x (2 ^ bp_chal p) = Ok c) /\ z - n * 2 ^ (bp_chal p + bp_sec p) < c * o <= z.
Proof.
  intros flag C sha p b n s g xs ys csk pp num rq pk cm cr e rsp pf L Sy H o c z.
  destruct (system_facts _ _ _ _ _ _ _ _ _ _ _ _ L Sy) as [sf_par0 sf_pp0 sf_W0 sf_g0 sf_k0 sf_ys0 sf_len0 sf_sv0 sf_sp0 sf_sx0 sf_po0 sf_un0 sf_sec0 sf_chal0 sf_base0 sf_bound0]. subst p pp.
  pose proof (n1 n s _ sf_W0) as Hn. pose proof sf_po0 as [HN _]. assert (T0 : 0 < 2 ^ (bp_chal (bb_par C b) + bp_sec (bb_par C b))) by (apply Z.pow_pos_nonneg; lia).
  unfold bb_respond in H. destruct (_ <? _)%nat; [discriminate|].
  apply bind_ok in H. destruct H as ([cts betas] & _ & H). apply bind_ok in H. destruct H as (vals & _ & H). apply bind_ok in H. destruct H as (rsp0 & _ & H).
  apply bind_ok in H. destruct H as ([cb ob] & Ecb & H). apply bind_ok in H. destruct H as (cbb & _ & H). apply bind_ok in H. destruct H as (bb_ & _ & H).
  apply bind_ok in H. destruct H as (dbetas & _ & H). rewrite lshift_ok in H by lia. cbn [bind] in H. rewrite (w_n _ _ _ sf_W0) in H. apply bind_ok in H. destruct H as (dxs & _ & H).
  assert (Q7 : 0 < n * 2 ^ (bp_chal (bb_par C b) + bp_sec (bb_par C b))) by nia. rewrite rand_ok in H by exact Q7. cbn [bind] in H. pose proof (Z.mod_pos_bound (s_dopen e) _ Q7) as Rd.
  set (dopen := s_dopen e mod (n * 2 ^ (bp_chal (bb_par C b) + bp_sec (bb_par C b)))) in *. clearbody dopen.
  apply bind_ok in H. destruct H as (dcb & _ & H). apply bind_ok in H. destruct H as (dys & _ & H). apply bind_ok in H. destruct H as (dgs & _ & H). apply bind_ok in H. destruct H as (dysb & _ & H).
  apply bind_ok in H. destruct H as (dcbb & _ & H). apply bind_ok in H. destruct H as (dgsb & _ & H). apply bind_ok in H. destruct H as (des & _ & H).
  apply bind_ok in H. destruct H as (c0 & Ec & H). apply bind_ok in H. destruct H as (chb & Ech & H). apply bind_ok in H. destruct H as (mx & _ & H). apply bind_ok in H. destruct H as (mbb & _ & H).
  apply bind_ok in H. destruct H as (mxb & _ & H). apply bind_ok in H. destruct H as (mob & Emo & H).
  assert (Eo : ob = o). { unfold ped_commit in Ecb. rewrite rand_ok in Ecb by lia. cbn [bind] in Ecb. apply bind_ok in Ecb. destruct Ecb as (? & _ & Ecb). unfold o. congruence. }
  unfold rsp_challenge in Ec. rewrite lshift_ok in Ec by lia. cbn [bind] in Ec. apply bind_ok in Ec. destruct Ec as (? & _ & Ec). apply bind_ok in Ec. destruct Ec as (? & _ & Ec).
  apply bind_ok in Ec. destruct Ec as (? & _ & Ec). rewrite Z.mul_1_l in Ec.
  match type of Ec with random_oracle _ _ ?x _ = _ => pose proof (ro_pow2_range sha x (bp_chal (bb_par C b)) c0 ltac:(lia) Ec) as Rc end.
  assert (Ro : 0 <= o < pp_n (pd_par (bb_ped C b))) by (apply Z.mod_pos_bound; lia).
  assert (Epf : sp_challenge pf = chb /\ sp_open pf = mob) by (assert (Q : pf = {| sp_betas := cbb; sp_challenge := chb; sp_xs := mxb; sp_mbetas := mbb; sp_open := mob |}) by congruence; rewrite Q; split; reflexivity).
  destruct Epf as [P1 P2]. unfold c, z. rewrite P1, P2.
  destruct (to_bytes_of c0 (proj1 Rc)) as (c' & Ec' & Vc). assert (c' = chb) by congruence. subst c'.
  assert (Hz : 0 <= dopen + ob * c0) by (subst ob; pose proof (Z.mul_nonneg_nonneg o c0); lia).
  destruct (to_bytes_of _ Hz) as (m' & Em' & Vm). assert (m' = mob) by congruence. subst m'. rewrite Vc, Vm, Eo. split; [eexists; exact Ec|]. rewrite (Z.mul_comm o c0). lia.
Qed.
Print Assumptions C65_response_opening.

(** So two openings of one and the same commitment can lead to responses that are told apart with certainty: the masks do not hide the opening. *)
Definition ask_one : bytes -> bytes := fun _ => x40 :: repeat x00 63.
Lemma asks_one : oracle_says ask_one 1 1.
Proof. apply oracle_const; [lia|lia|vm_compute; reflexivity]. Qed.
Fixpoint rows_eqb (a b : list bytes) : bool := match a, b with [], [] => true | x :: a', y :: b' => bytes_eqb x y && rows_eqb a' b' | _, _ => false end.
Lemma rows_eqb_eq a b : rows_eqb a b = true -> a = b.
Proof. revert b. induction a as [|x a IH]; intros [|y b] H; cbn [rows_eqb] in H; try discriminate; [reflexivity|]. apply andb_true_iff in H. destruct H as [H1 H2]. apply bytes_eqb_eq in H1. f_equal; [exact H1|apply IH, H2]. Qed.
Definition exo_e (o : Z) : rsp_entropy := {| s_open := o; s_betas := fun i => 100 + Z.of_nat i; s_xs := fun i => 500; s_dopen := 99 |}.
Definition exo_run {A} (k : bb toy -> cs_private -> bb_public -> bb_request -> outcome A) : outcome A :=
  exb_keys (fun b csk pk sk => let* x := bb_request_and_proof false toy ask_one b [5; 20] [7; 0] pk (exb_com [5; 20] 50) 50 (exb_com [7; 0] 60) 60 (exb_e 3) in k b csk pk (fst (fst x))).
Lemma bind_is_ok {A B} (o : outcome A) (k : A -> outcome B) : is_ok (bind o k) = true -> exists a, o = Ok a /\ is_ok (k a) = true.
Proof. destruct o as [a|?| | |]; cbn [bind is_ok]; intros H; try discriminate. exists a. split; [reflexivity|exact H]. Qed.
Lemma exo_objects : exists b csk pk rq, bb_system false toy exb_p b 77 4 exb_g exb_xs exb_ys csk exb_pp 2 /\
  forall A (k : bb toy -> cs_private -> bb_public -> bb_request -> outcome A), exo_run k = k b csk pk rq.
Proof.
  assert (E : is_ok (exo_run (fun _ _ _ _ => Ok tt)) = true) by (vm_compute; reflexivity).
  unfold exo_run, exb_keys, exb_objects in E.
  apply bind_is_ok in E. destruct E as (cs & E1 & E). apply bind_is_ok in E. destruct E as (csk & E2 & E). apply bind_is_ok in E. destruct E as (pd & E3 & E).
  apply bind_is_ok in E. destruct E as (b & E4 & E). apply bind_is_ok in E. destruct E as (keys & E5 & E). apply bind_is_ok in E. destruct E as (x & E6 & _).
  assert (Q : bb_cs toy b = cs /\ bb_ped toy b = pd).
  { clear - E4. unfold bb_create in E4. destruct (bp_sec exb_p <=? 0); [discriminate|]. destruct (bp_chal exb_p <=? 0); [discriminate|]. apply bind_ok in E4. destruct E4 as (bd & _ & E4).
    destruct (cs_n_to_s cs <? bd); [discriminate|]. destruct (pp_n (pd_par pd) <? bd); [discriminate|]. apply bind_ok in E4. destruct E4 as (x & _ & E4).
    assert (Eb : b = {| bb_par := exb_p; bb_base := x; bb_cs := cs; bb_ped := pd |}) by congruence. rewrite Eb. split; reflexivity. }
  destruct Q as [Q1 Q2]. exists b, csk, (fst keys), (fst (fst x)). split.
  - rewrite <- Q1 in E1, E4. rewrite <- Q2 in E3, E4. constructor; [exact exb_keypair|discriminate|exact E1|exact E2| | |exact E4|cbn; lia].
    + split; [cbn; lia|]. split; [left; cbn; lia|exact E3].
    + split; [repeat constructor|reflexivity].
  - intros A k. unfold exo_run, exb_keys, exb_objects. rewrite E1. cbn [bind]. rewrite E2. cbn [bind]. rewrite E3. cbn [bind]. rewrite E4. cbn [bind]. rewrite E5. cbn [bind]. rewrite E6. cbn [bind]. reflexivity.
Qed.
Theorem C65_response_opening_refuted : exists C sha512 p b n s g xs ys csk pp num rq pk cm cr e1 e2 rsp pf1 pf2,
  ec_laws C /\ bb_system false C p b n s g xs ys csk pp num /\
  s_betas e1 = s_betas e2 /\ s_xs e1 = s_xs e2 /\
  bb_respond false C sha512 b rq pk cm cr csk e1 = Ok (rsp, pf1) /\ bb_respond false C sha512 b rq pk cm cr csk e2 = Ok (rsp, pf2) /\ sp_betas pf1 = sp_betas pf2 /\
  forall d1 d2 rsp1 rsp2 pf1' pf2',
    bb_respond false C sha512 b rq pk cm cr csk {| s_open := s_open e1; s_betas := s_betas e1; s_xs := s_xs e1; s_dopen := d1 |} = Ok (rsp1, pf1') ->
    bb_respond false C sha512 b rq pk cm cr csk {| s_open := s_open e2; s_betas := s_betas e2; s_xs := s_xs e2; s_dopen := d2 |} = Ok (rsp2, pf2') ->
    of_bytes (sp_open pf1') < of_bytes (sp_open pf2').
Proof.
  destruct exo_objects as (b & csk & pk & rq & Sy & Hrun).
  set (cm := exb_com [5; 20] 50). set (cr := exb_com [7; 0] 60).
  assert (X : exo_run (fun b csk pk rq => let run o := bb_respond false toy ask_one b rq pk (exb_com [5; 20] 50) (exb_com [7; 0] 60) csk (exo_e o) in
             let* a := run 0 in let* c := run 4184070 in Ok (rows_eqb (fst a) (fst c), bytes_eqb (sp_betas (snd a)) (sp_betas (snd c)))) = Ok (true, true)) by (vm_compute; reflexivity).
  rewrite Hrun in X. cbv zeta in X. fold cm cr in X. clearbody cm cr.
  apply bind_ok in X. destruct X as ([rsp1 pf1] & F1 & X). apply bind_ok in X. destruct X as ([rsp2 pf2] & F2 & X).
  cbn [fst snd] in X. injection X as X1 X2. apply rows_eqb_eq in X1. apply bytes_eqb_eq in X2. subst rsp2.
  exists toy, ask_one, exb_p, b, 77, 4%nat, exb_g, exb_xs, exb_ys, csk, exb_pp, 2%nat, rq, pk, cm, cr, (exo_e 0), (exo_e 4184070), rsp1, pf1, pf2.
  split; [exact toy_laws|]. split; [exact Sy|]. split; [reflexivity|]. split; [reflexivity|]. split; [exact F1|]. split; [exact F2|]. split; [exact X2|].
  intros d1 d2 r1 r2 p1 p2 H1 H2. destruct (C65_response_opening _ _ _ _ _ _ _ _ _ _ _ _ _ _ _ _ _ _ _ _ toy_laws Sy H1) as [(x1 & O1) L1].
  destruct (C65_response_opening _ _ _ _ _ _ _ _ _ _ _ _ _ _ _ _ _ _ _ _ toy_laws Sy H2) as [(x2 & O2) L2].
  change (2 ^ bp_chal exb_p) with (2 ^ 1) in O1, O2. rewrite asks_one in O1, O2. assert (V1 : of_bytes (sp_challenge p1) = 1) by congruence. assert (V2 : of_bytes (sp_challenge p2) = 1) by congruence. rewrite V1 in L1. rewrite V2 in L2.
  cbn [s_open exo_e] in L1, L2. change (77 * 2 ^ (bp_chal exb_p + bp_sec exb_p)) with 308 in L1, L2. change (0 mod pp_n exb_pp) with 0 in L1. change (4184070 mod pp_n exb_pp) with 4184070 in L2. lia.
Qed.
Print Assumptions C65_response_opening_refuted.

(** A case that meets the hypotheses of both theorems with masks that hide: security parameter 10, both moduli equal to 2^43 + 3, one message, one slot (so the
    fractions are 15 / 1024, plus the unusable draws, for the request and 4 / 1024 for the response). *)
Definition exh_n : Z := 2 ^ 43 + 3.
Definition exh_pp : ped_params := {| pp_gs := [9; 25]; pp_h := 4; pp_n := exh_n |}.
Definition exh_p : bb_params := {| bp_sec := 10; bp_chal := 1; bp_prefix := [x61]; bp_base := ec_enc toy (pgen toy); bp_cs := bp_cs exb_p; bp_ped := bp_ped exb_p |}.
Definition exh_e (d : Z) : req_entropy := with_dummies (exb_e 4) 1 (repeat d 15).
Definition exh_com (ms : list Z) (r : Z) : Z := commitment (pp_gs exh_pp) (pp_h exh_pp) (pp_n exh_pp) ms r.
Lemma exh_keypair : cs_keypair exh_n 1 4 [5] [1024].
Proof.
  constructor; [reflexivity|reflexivity|unfold exh_n; cbn; lia|reflexivity| |].
  - repeat constructor; try lia; vm_compute; reflexivity.
  - intros i Hi. assert (i = 1) as -> by lia. reflexivity.
Qed.
Example C65_bb_ex : exists b csk pk sk rq pf st,
  bb_system false toy exh_p b exh_n 1 4 [5] [1024] csk exh_pp 2 /\ bb_generate_keys false toy b 1000 2000 (fun _ => [7]) (fun _ => [2]) = Ok (pk, sk) /\
  usable exh_n (e_enc (exh_e 5) 0 mod exh_n) /\ oracle_says ask_one (bp_chal exh_p) 1 /\
  bb_request_and_proof false toy ask_one b [5] [7] pk (exh_com [5] 50) 50 (exh_com [7] 60) 60 (exh_e 5) = Ok (rq, pf, st) /\
  (5 + of_bytes (bsk_k sk) + of_bytes (bsk_y sk) * 7) mod ec_order toy <> 0 /\ pp_n exh_pp <= 1 * exh_n.
Proof.
  set (run := fun (A : Type) (k : cs_public -> cs_private -> pedersen -> bb toy -> bb_public * bb_private -> bb_request * req_proof * list bytes -> outcome A) =>
    let* cs := cs_public_create false exh_n 1 4 [1024] in let* csk := cs_private_create false exh_n 1 4 [1024] [5] in let* pd := ped_create exh_pp 2 in let* b := bb_create toy exh_p cs pd in
    let* keys := bb_generate_keys false toy b 1000 2000 (fun _ => [7]) (fun _ => [2]) in
    let* x := bb_request_and_proof false toy ask_one b [5] [7] (fst keys) (exh_com [5] 50) 50 (exh_com [7] 60) 60 (exh_e 5) in k cs csk pd b keys x).
  assert (E : run Z (fun _ _ _ _ keys _ => Ok ((5 + of_bytes (bsk_k (snd keys)) + of_bytes (bsk_y (snd keys)) * 7) mod ec_order toy)) = Ok 32) by (vm_compute; reflexivity).
  unfold run in E.
  apply bind_ok in E. destruct E as (cs & E1 & E). apply bind_ok in E. destruct E as (csk & E2 & E). apply bind_ok in E. destruct E as (pd & E3 & E).
  apply bind_ok in E. destruct E as (b & E4 & E). apply bind_ok in E. destruct E as ([pk sk] & E5 & E). apply bind_ok in E. destruct E as ([[rq pf] st] & E6 & E).
  cbn [fst snd] in E, E6. assert (Ev : (5 + of_bytes (bsk_k sk) + of_bytes (bsk_y sk) * 7) mod ec_order toy = 32) by congruence.
  assert (Q : bb_cs toy b = cs /\ bb_ped toy b = pd).
  { clear - E4. unfold bb_create in E4. destruct (bp_sec exh_p <=? 0); [discriminate|]. destruct (bp_chal exh_p <=? 0); [discriminate|]. apply bind_ok in E4. destruct E4 as (bd & _ & E4).
    destruct (cs_n_to_s cs <? bd); [discriminate|]. destruct (pp_n (pd_par pd) <? bd); [discriminate|]. apply bind_ok in E4. destruct E4 as (x & _ & E4).
    assert (Eb : b = {| bb_par := exh_p; bb_base := x; bb_cs := cs; bb_ped := pd |}) by congruence. rewrite Eb. split; reflexivity. }
  destruct Q as [Q1 Q2]. exists b, csk, pk, sk, rq, pf, st. split.
  - rewrite <- Q1 in E1, E4. rewrite <- Q2 in E3, E4. constructor; [exact exh_keypair|discriminate|exact E1|exact E2| | |exact E4|cbn; lia].
    + split; [cbn; lia|]. split; [left; cbn; lia|exact E3].
    + split; [repeat constructor|reflexivity].
  - split; [exact E5|]. split; [right; reflexivity|]. split; [exact asks_one|]. split; [exact E6|]. split; [lia|]. cbn; lia.
Qed.
