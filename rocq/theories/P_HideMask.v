(** Theorems on what an oblivious-signature request tells the issuer (C70). *)
From Coq Require Import Znumtheory.
From Verif Require Import Base M_BigNum M_Num M_EC M_Proto M_CS M_Pedersen M_VRF M_BB S_CS S_Pedersen S_BB S_Hide S_HideBB S_HideMask L_BigNum L_Num L_Mod L_DJ L_CS L_EC L_Cipher L_Protocol
  L_Toy L_Pedersen L_VRF L_BBct L_BBhom L_BBped L_BBreq L_BBrsp L_BB L_Hide L_HideRsp L_HideReq L_HideMix L_HideMask P_CS P_Pedersen P_BB P_Hide P_HideBB.

(** The issuer can decrypt the ciphertexts of a request.  Let g have an order dividing [ord] such that the encryption randomness, drawn below n, covers whole periods of
    it up to a fraction u / 2^t, t = challenge + security length (for n = (2 p' + 1)(2 q' + 1) and ord = p' q' the fraction is about 1 / sqrt n).  Then the request for
    m messages in k ciphertexts is the same as k ciphertexts of m random values (which do not depend on the messages, the nonces or the keys): no test tells them apart
    more often than in a fraction (m + k u) / 2^t of all draws, plus the fraction of unusable encryption randomness.  The test may depend on everything else, for
    example on the issuer's secret keys. *)
Theorem C70_request_hides : forall flag C sha512 p b n s g xs ys csk pp num rk ry ek ey pk sk ms rs om or_ e ord u,
  ec_laws C -> bb_system flag C p b n s g xs ys csk pp num -> bb_generate_keys flag C b rk ry ek ey = Ok (pk, sk) ->
  (length ms <= length (pp_gs pp))%nat -> length rs = length ms -> Forall (fun x => 0 <= x < ec_order C) ms -> Forall (fun x => 0 <= x < ec_order C) rs -> 0 <= om -> 0 <= or_ ->
  let key := of_bytes (bsk_k sk) in let y := of_bytes (bsk_y sk) in
  (forall m r, In (m, r) (combine ms rs) -> (m + key + y * r) mod ec_order C <> 0) ->
  let cm := commitment (pp_gs pp) (pp_h pp) (pp_n pp) ms om in let cr := commitment (pp_gs pp) (pp_h pp) (pp_n pp) rs or_ in
  let m := length ms in let k := num_cts (length ys) m in let t := bp_chal p + bp_sec p in
  (forall i, (i < k)%nat -> usable n (d_enc e i mod (n * 2 ^ t))) ->
  g ^ ord mod n ^ (Z.of_nat s + 1) = 1 -> nearly_periods t u ord n ->
  within_distance_but (Z.of_nat m + Z.of_nat k * u) t (mask_bounds C b m k) (unusable_mask n m k)
    (fun ds => request_of (bb_request_and_proof flag C sha512 b ms rs pk cm om cr or_ (with_masks e m ds)))
    (fun ds => random_request n s g ys (ec_order C) m k ds).
Proof.
  intros flag C sha p b n s g xs ys csk pp num rk ry ek ey pk sk ms rs om or_ e ord u L Sy E Hl Lr Hm Hr Hom Hor key y Hdf cm cr m k t He Ho Hper.
  destruct (system_facts _ _ _ _ _ _ _ _ _ _ _ _ L Sy) as [sf_par0 sf_pp0 sf_W0 sf_g0 sf_k0 sf_ys0 sf_len0 sf_sv0 sf_sp0 sf_sx0 sf_po0 sf_un0 sf_sec0 sf_chal0 sf_base0 sf_bound0].
  assert (Eg : cs_g (bb_cs C b) = g).
  { destruct Sy as [K _ Ep _ _ _ _ _]. destruct (keypair_ranges _ _ _ _ _ K) as (_ & Ry & _). apply (cs_public_inv flag n s (ck_gt _ _ _ _ _ K) (ck_odd _ _ _ _ _ K) g ys _ (ck_g _ _ _ _ _ K) Ry Ep). }
  subst p pp. pose proof (n1 n s _ sf_W0) as Hn.
  assert (El : cs_len (bb_cs C b) = length ys) by (unfold cs_len; rewrite sf_ys0; reflexivity).
  destruct (keys_inv flag C b n s xs sf_W0 sf_g0 sf_k0 L rk ry ek ey pk sk E) as (Rk & Ry & keys & ok & oy & Ep & Hok & Hoy & K1 & K2). fold key in Rk, K1. fold y in Ry, K2.
  destruct Hper as (Ho0 & Hper'). unfold k, m in *. rewrite <- El in *. rewrite <- sf_ys0 in *. rewrite <- Eg in *.
  apply (request_masks flag C sha b n s xs sf_W0 sf_g0 sf_k0 sf_len0 ok oy key y Hok Hoy ltac:(lia) ltac:(lia) sf_po0 sf_un0 L sf_sec0 sf_chal0 pk keys Ep K1 K2 ord Ho0 Ho ms rs Hl Lr Hm Hr); [|split; assumption|exact Hom|exact Hor|].
  - intros j Hj. unfold vv. apply Hdf. rewrite <- combine_nth by (symmetry; exact Lr). apply nth_In. rewrite combine_length. lia.
  - unfold dummy_enc. apply tab_Forall. intros i Hi. assert (0 < n * 2 ^ t) by (apply Z.mul_pos_pos; [lia|apply Z.pow_pos_nonneg; lia]). split; [apply Z.mod_pos_bound; assumption|exact (He i Hi)].
Qed.
Print Assumptions C70_request_hides.

(** So requests for different messages (or different nonces) cannot be told apart, except in the fraction of unusable draws and twice the fraction above. *)
Theorem C70_same_for_all_messages : forall flag C sha512 p b n s g xs ys csk pp num rk ry ek ey pk sk ms rs om or_ e ms' rs' om' or' e' ord u,
  ec_laws C -> bb_system flag C p b n s g xs ys csk pp num -> bb_generate_keys flag C b rk ry ek ey = Ok (pk, sk) ->
  (length ms <= length (pp_gs pp))%nat -> length rs = length ms -> length ms' = length ms -> length rs' = length ms ->
  Forall (fun x => 0 <= x < ec_order C) (ms ++ rs ++ ms' ++ rs') -> 0 <= om -> 0 <= or_ -> 0 <= om' -> 0 <= or' ->
  let key := of_bytes (bsk_k sk) in let y := of_bytes (bsk_y sk) in
  (forall m r, In (m, r) (combine ms rs ++ combine ms' rs') -> (m + key + y * r) mod ec_order C <> 0) ->
  let com l o := commitment (pp_gs pp) (pp_h pp) (pp_n pp) l o in
  let m := length ms in let k := num_cts (length ys) m in let t := bp_chal p + bp_sec p in
  (forall i, (i < k)%nat -> usable n (d_enc e i mod (n * 2 ^ t)) /\ usable n (d_enc e' i mod (n * 2 ^ t))) ->
  g ^ ord mod n ^ (Z.of_nat s + 1) = 1 -> nearly_periods t u ord n ->
  forall test : outcome bb_request -> bool,
  let seen ds := test (request_of (bb_request_and_proof flag C sha512 b ms rs pk (com ms om) om (com rs or_) or_ (with_masks e m ds))) in
  let seen' ds := test (request_of (bb_request_and_proof flag C sha512 b ms' rs' pk (com ms' om') om' (com rs' or') or' (with_masks e' m ds))) in
  2 ^ t * Z.abs (count (mask_bounds C b m k) seen - count (mask_bounds C b m k) seen') <=
  2 * ((Z.of_nat m + Z.of_nat k * u) * tuples (mask_bounds C b m k) + 2 ^ t * count (mask_bounds C b m k) (unusable_mask n m k)).
Proof.
  intros flag C sha p b n s g xs ys csk pp num rk ry ek ey pk sk ms rs om or_ e ms' rs' om' or' e' ord u L Sy E Hl Lr Lm' Lr' HF Hom Hor Hom' Hor' key y Hdf com m k t He Ho Hper test seen seen'.
  apply Forall_app in HF. destruct HF as [F1 HF]. apply Forall_app in HF. destruct HF as [F2 HF]. apply Forall_app in HF. destruct HF as [F3 F4].
  pose proof (C70_request_hides flag C sha p b n s g xs ys csk pp num rk ry ek ey pk sk ms rs om or_ e ord u L Sy E Hl Lr F1 F2 Hom Hor
    ltac:(intros a r Hin; apply Hdf, in_or_app; left; exact Hin) ltac:(intros i Hi; apply (He i Hi)) Ho Hper test) as D1.
  pose proof (C70_request_hides flag C sha p b n s g xs ys csk pp num rk ry ek ey pk sk ms' rs' om' or' e' ord u L Sy E ltac:(lia) ltac:(lia) F3 F4 Hom' Hor'
    ltac:(intros a r Hin; apply Hdf, in_or_app; right; exact Hin)) as D2. cbv zeta in D2. rewrite Lm' in D2. specialize (D2 ltac:(intros i Hi; apply (He i Hi)) Ho Hper test).
  set (B := (Z.of_nat m + Z.of_nat k * u) * tuples (mask_bounds C b m k) + 2 ^ t * count (mask_bounds C b m k) (unusable_mask n m k)).
  set (x := count (mask_bounds C b m k) seen). set (x' := count (mask_bounds C b m k) seen'). set (z := count (mask_bounds C b m k) (fun ds => test (random_request n s g ys (ec_order C) m k ds))).
  assert (D1' : 2 ^ t * Z.abs (x - z) <= B) by exact D1. assert (D2' : 2 ^ t * Z.abs (x' - z) <= B) by exact D2.
  clearbody B x x' z t. clear - D1' D2'. assert (Q : 2 ^ t * Z.abs (x - x') <= 2 ^ t * Z.abs (x - z) + 2 ^ t * Z.abs (x' - z)); [|lia]. rewrite <- Z.mul_add_distr_l. apply Z.mul_le_mono_nonneg_l; [apply Z.pow_nonneg; lia|lia].
Qed.
Print Assumptions C70_same_for_all_messages.

(** Unusable encryption randomness is rare: among the draws of one ciphertext only the non-zero numbers below n with a factor in common with n. *)
Theorem C70_rarely_unusable : forall C (b : bb C) n m k, ec_laws C -> 0 <= bp_chal (bb_par C b) + bp_sec (bb_par C b) -> cs_n (bb_cs C b) = n -> 0 < n ->
  n * count (mask_bounds C b m k) (unusable_mask n m k) <=
  Z.of_nat k * count [n] (fun ds => negb ((nth 0 ds 0 =? 0) || (Z.gcd (nth 0 ds 0) n =? 1))) * tuples (mask_bounds C b m k).
Proof.
  intros C b n m k L Ht En Hn. pose proof (order_gt1 C L) as Hq. assert (T0 : 0 < 2 ^ (bp_chal (bb_par C b) + bp_sec (bb_par C b))) by (apply Z.pow_pos_nonneg; lia).
  set (A := repeat (ec_order C - 1) m ++ repeat (ec_order C * ec_order C * 2 ^ (bp_chal (bb_par C b) + bp_sec (bb_par C b))) m).
  assert (EB : mask_bounds C b m k = A ++ repeat n k) by (unfold mask_bounds, A; rewrite En, app_assoc; reflexivity). rewrite EB.
  assert (NA : Forall (fun x => 0 <= x) A). { unfold A. apply Forall_app. split; apply Forall_repeat; [lia|]. repeat apply Z.mul_nonneg_nonneg; lia. }
  assert (LA : length A = (2 * m)%nat) by (unfold A; rewrite app_length, !repeat_length; lia).
  set (ok := fun x => (x =? 0) || (Z.gcd x n =? 1)). set (bad1 := count [n] (fun ds => negb (ok (nth 0 ds 0)))).
  assert (ET : tuples [n] = n) by (cbn [tuples fold_right]; lia).
  assert (B1 : 0 <= bad1 <= n). { pose proof (count_bound [n] (fun ds => negb (ok (nth 0 ds 0))) ltac:(repeat constructor; lia)) as Q. rewrite ET in Q. exact Q. }
  assert (G : forall j, n * count (repeat n j) (fun ds => negb (forallb ok ds)) <= Z.of_nat j * bad1 * tuples (repeat n j)).
  { induction j as [|j IH]; [cbn [repeat count forallb negb]; lia|]. cbn [repeat count tuples fold_right]. fold (tuples (repeat n j)).
    assert (NR : Forall (fun x => 0 <= x) (repeat n j)) by (apply Forall_repeat; lia). pose proof (tuples_nonneg _ NR) as HT. set (T := tuples (repeat n j)) in *. set (c := count (repeat n j) (fun ds => negb (forallb ok ds))) in *.
    assert (X : forall d, count (repeat n j) (fun ds => negb (forallb ok (d :: ds))) <= T * (if negb (ok d) then 1 else 0) + c).
    { intros d. pose proof (count_bound (repeat n j) (fun ds => negb (forallb ok (d :: ds))) NR) as Q. pose proof (count_bound (repeat n j) (fun ds => negb (forallb ok ds)) NR) as Q2. fold c in Q2. fold T in Q, Q2. destruct (ok d) eqn:Ed; cbn [negb].
      - assert (Eq : count (repeat n j) (fun ds => negb (forallb ok (d :: ds))) = c) by (apply count_ext; intros ds _ _; cbn [forallb]; rewrite Ed; reflexivity). rewrite Eq. lia.
      - lia. }
    assert (Y : zsum (Z.to_nat n) (fun d => T * (if negb (ok d) then 1 else 0) + c) = T * bad1 + n * c).
    { unfold bad1. cbn [count nth]. set (f := fun d => if negb (ok d) then 1 else 0). pose proof (zsum_sub (Z.to_nat n) (fun d => T * f d + c) (fun d => T * f d)) as Z1. cbn beta in Z1.
      rewrite (zsum_ext (Z.to_nat n) (fun d => T * f d + c - T * f d) (fun _ => c)) in Z1 by (intros; ring). rewrite zsum_const, Z2Nat.id, <- zsum_scale in Z1 by lia. change (zsum (Z.to_nat n) (fun d => if negb (ok d) then 1 else 0)) with (zsum (Z.to_nat n) f). unfold f at 1 in Z1. lia. }
    pose proof (zsum_le (Z.to_nat n) _ _ (fun d _ => X d)) as Q. rewrite Y in Q.
    transitivity (n * (T * bad1 + n * c)); [apply Z.mul_le_mono_nonneg_l; [lia|exact Q]|]. rewrite Nat2Z.inj_succ. transitivity (n * T * bad1 + n * (Z.of_nat j * bad1 * T)); [|apply Z.eq_le_incl; ring].
    rewrite Z.mul_add_distr_l. apply Z.add_le_mono; [apply Z.eq_le_incl; ring|]. apply Z.mul_le_mono_nonneg_l; [lia|exact IH]. }
  specialize (G k). rewrite count_app, tuples_app.
  rewrite (zsums_ext A _ (fun _ => count (repeat n k) (fun ds => negb (forallb ok ds)))).
  - rewrite zsums_const by exact NA. pose proof (tuples_nonneg A NA). change (count [n] (fun ds => negb ((nth 0 ds 0 =? 0) || (Z.gcd (nth 0 ds 0) n =? 1)))) with bad1.
    transitivity (tuples A * (n * count (repeat n k) (fun ds => negb (forallb ok ds)))); [apply Z.eq_le_incl; ring|]. transitivity (tuples A * (Z.of_nat k * bad1 * tuples (repeat n k))); [apply Z.mul_le_mono_nonneg_l; assumption|apply Z.eq_le_incl; ring].
  - intros a Ha. pose proof (drawn_len _ _ Ha) as La. apply count_ext. intros ds Lds _. rewrite repeat_length in Lds. unfold unusable_mask. f_equal. f_equal. rewrite <- LA, <- La, <- Lds. rewrite <- (app_nil_r ds) at 2. apply part_mid.
Qed.
Print Assumptions C70_rarely_unusable.

Definition exm_g : Z := 12282451328018.
Definition exm_ys : list Z := [3541141016099; 15511043775385].
Definition exm_p : bb_params := {| bp_sec := 5; bp_chal := 1; bp_prefix := [x61]; bp_base := ec_enc toy (pgen toy); bp_cs := bp_cs exb_p; bp_ped := bp_ped exb_p |}.
Definition exm_e : req_entropy := with_dummies (exb_e 4) 1 (repeat 5 15).
Lemma exm_keypair : cs_keypair 77 6 exm_g [3; 4] exm_ys.
Proof.
  constructor; [reflexivity|reflexivity|split; [discriminate|reflexivity]|reflexivity| |].
  - repeat constructor; try lia; vm_compute; reflexivity.
  - intros i Hi. assert (i = 1 \/ i = 2 \/ i = 3 \/ i = 4 \/ i = 5 \/ i = 6) as [-> |[-> |[-> |[-> |[-> | ->]]]]] by lia; reflexivity.
Qed.
(** A case that meets the hypotheses: n = 77 = 7 * 11, g of order 15, security 5, challenge 1, one message in one ciphertext with two slots; the fraction is 3 / 64. *)
Example C70_ex : exists b csk pk sk rq,
  bb_system false toy exm_p b 77 6 exm_g [3; 4] exm_ys csk exh_pp 2 /\ bb_generate_keys false toy b 1000 2000 (fun _ => [5]) (fun _ => [2]) = Ok (pk, sk) /\
  (5 + of_bytes (bsk_k sk) + of_bytes (bsk_y sk) * 7) mod ec_order toy <> 0 /\ usable 77 (d_enc exm_e 0 mod (77 * 2 ^ 6)) /\
  exm_g ^ 15 mod 77 ^ (Z.of_nat 6 + 1) = 1 /\ nearly_periods 6 2 15 77 /\ num_cts (length exm_ys) 1 = 1%nat /\
  request_of (bb_request_and_proof false toy ask_one b [5] [7] pk (exh_com [5] 50) 50 (exh_com [7] 60) 60 (with_masks exm_e 1 [10; 20; 30])) = Ok rq.
Proof.
  set (run := fun (A : Type) (k : cs_public -> cs_private -> pedersen -> bb toy -> bb_public * bb_private -> bb_request -> outcome A) =>
    let* cs := cs_public_create false 77 6 exm_g exm_ys in let* csk := cs_private_create false 77 6 exm_g exm_ys [3; 4] in let* pd := ped_create exh_pp 2 in let* b := bb_create toy exm_p cs pd in
    let* keys := bb_generate_keys false toy b 1000 2000 (fun _ => [5]) (fun _ => [2]) in
    let* x := request_of (bb_request_and_proof false toy ask_one b [5] [7] (fst keys) (exh_com [5] 50) 50 (exh_com [7] 60) 60 (with_masks exm_e 1 [10; 20; 30])) in k cs csk pd b keys x).
  assert (E : run bool (fun _ _ _ _ keys _ => Ok ((5 + of_bytes (bsk_k (snd keys)) + of_bytes (bsk_y (snd keys)) * 7) mod ec_order toy =? 0)) = Ok false) by (vm_compute; reflexivity).
  unfold run in E.
  apply bind_ok in E. destruct E as (cs & E1 & E). apply bind_ok in E. destruct E as (csk & E2 & E). apply bind_ok in E. destruct E as (pd & E3 & E).
  apply bind_ok in E. destruct E as (b & E4 & E). apply bind_ok in E. destruct E as ([pk sk] & E5 & E). apply bind_ok in E. destruct E as (rq & E6 & E).
  cbn [fst snd] in E, E6.
  assert (Q : bb_cs toy b = cs /\ bb_ped toy b = pd).
  { clear - E4. unfold bb_create in E4. destruct (bp_sec exm_p <=? 0); [discriminate|]. destruct (bp_chal exm_p <=? 0); [discriminate|]. apply bind_ok in E4. destruct E4 as (bd & _ & E4).
    destruct (cs_n_to_s cs <? bd); [discriminate|]. destruct (pp_n (pd_par pd) <? bd); [discriminate|]. apply bind_ok in E4. destruct E4 as (x & _ & E4).
    assert (Eb : b = {| bb_par := exm_p; bb_base := x; bb_cs := cs; bb_ped := pd |}) by congruence. rewrite Eb. split; reflexivity. }
  destruct Q as [Q1 Q2]. exists b, csk, pk, sk, rq. split.
  - rewrite <- Q1 in E1, E4. rewrite <- Q2 in E3, E4. constructor; [exact exm_keypair|discriminate|exact E1|exact E2| | |exact E4|cbn; lia].
    + split; [cbn; lia|]. split; [left; cbn; lia|exact E3].
    + split; [repeat constructor|reflexivity].
  - split; [exact E5|]. split; [|split; [right; reflexivity|split; [vm_compute; reflexivity|split; [|split; [reflexivity|exact E6]]]]].
    + destruct (Z.eqb_spec ((5 + of_bytes (bsk_k sk) + of_bytes (bsk_y sk) * 7) mod ec_order toy) 0) as [|N]; [discriminate|exact N].
    + unfold nearly_periods. cbn; lia.
Qed.
