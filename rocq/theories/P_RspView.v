(** C99: the response to a request for oblivious signatures shows its requester the signatures and nothing else. *)
From Coq Require Import Znumtheory.
From Verif Require Import Base M_BigNum M_Num M_EC M_Proto M_CS M_Pedersen M_VRF M_BB S_Exp S_CS S_Pedersen S_BB S_Hide S_HideBB S_HideMask L_BigNum L_Num L_Mod L_NT L_DJ L_CS L_EC L_Cipher L_Protocol
  L_Toy L_Pedersen L_VRF L_Exp L_BBct L_BBhom L_BBped L_BBreq L_BBrsp L_BB L_Hide L_HideRsp L_HideReq L_HideCom L_HideMix L_HideMask L_HideView P_CS P_Pedersen P_BB P_Hide P_HideBB P_HideCom P_VrfView.

(** The draws of a whole response: the opening of the commitment, then the masks of the proof. *)
Definition whole_response_bounds (C : ec) (b : bb C) (m : nat) : list Z := pp_n (pd_par (bb_ped C b)) :: response_bounds C b m.
Definition whole_response flag (C : ec) (sha512 : bytes -> bytes) (b : bb C) rq pk cm cr csk (m : nat) (ds : list Z) : outcome (list bytes * rsp_proof) :=
  bb_respond flag C sha512 b rq pk cm cr csk (response_entropy C b m (nth 0 ds 0) (tl ds)).
(** The same made up from the public parameters, the masks the requester kept, the signatures and the answer c of the hash function: the commitment is a random power of h. *)
Definition made_up_response (C : ec) (b : bb C) (state : list bytes) (Ps : list (pt C)) (c : Z) (ds : list Z) : outcome (list bytes * rsp_proof) :=
  let vals := sent_points C state Ps in
  let pp := pd_par (bb_ped C b) in
  let* cbb := to_bytes (pp_h pp ^ nth 0 ds 0 mod pp_n pp) in
  simulated_response C b vals (map (ec_enc C) vals) cbb (length Ps) c (tl ds).

Lemma value_unique C base k y m r P P' : ec_laws C -> bb_value C base k y m r P -> bb_value C base k y m r P' -> P = P'.
Proof.
  intros L [H1 H2] [_ H3]. pose proof (order_gt1 C L) as Hq. set (x := m + k + y * r) in *. rewrite <- H3 in H2. clear H3.
  assert (I : eqmod (ec_order C) (x ^ (ec_order C - 2) * x) 1).
  { assert (E1 : x ^ (ec_order C - 2) * x = x ^ (ec_order C - 1)) by (rewrite Z.mul_comm, <- Z.pow_succ_r by lia; f_equal; lia). rewrite E1.
    apply fermat; [apply (n_prime C L)|]. intros D. apply Z.mod_divide in D; [contradiction|lia]. }
  rewrite <- (pmul_1 C P), <- (pmul_1 C P'), <- (pmul_eqmod C L _ _ P I), <- (pmul_eqmod C L _ _ P' I), !(pmul_mul C L), H2. reflexivity.
Qed.

(** The response to an honest request for messages on which the signatures Ps are defined, over all draws of the issuer.  If the generators of the commitments are powers of h, the order of h
    nearly divides the Pedersen modulus, and that modulus is at most u times the Camenisch-Shoup modulus, then nothing tells the response from one made up from the signatures
    more often than in a fraction (2 m + len + u) 2^-security + v 2^-(challenge + security) of all draws. *)
Theorem C99_view : forall flag C sha0 sha512 p b n s g xs ys csk pp num rk ry ek ey pk sk ms rs om or_ e rq pf st Ps c hord u v,
  ec_laws C -> bb_system flag C p b n s g xs ys csk pp num -> bb_generate_keys flag C b rk ry ek ey = Ok (pk, sk) ->
  Forall (fun x => 0 <= x < ec_order C) ms -> Forall (fun x => 0 <= x < ec_order C) rs -> 0 <= om -> 0 <= or_ ->
  let k := of_bytes (bsk_k sk) in let y := of_bytes (bsk_y sk) in
  let cm := commitment (pp_gs pp) (pp_h pp) (pp_n pp) ms om in let cr := commitment (pp_gs pp) (pp_h pp) (pp_n pp) rs or_ in
  bb_request_and_proof flag C sha0 b ms rs pk cm om cr or_ e = Ok (rq, pf, st) ->
  Forall2 (fun mr P => bb_value C (bb_base C b) k y (fst mr) (snd mr) P) (combine ms rs) Ps ->
  Forall (fun x => x <= n) xs -> 0 <= u -> pp_n pp <= u * n ->
  let m := length ms in let t := bp_chal p + bp_sec p in
  powers_of (pp_h pp) (pp_n pp) (pp_gs pp) -> pp_h pp ^ hord mod pp_n pp = 1 -> nearly_periods t v hord (pp_n pp) -> oracle_says sha512 (bp_chal p) c ->
  within_distance ((2 * Z.of_nat m + Z.of_nat (length ys) + u) * 2 ^ bp_chal p + v) t (whole_response_bounds C b m)
    (whole_response flag C sha512 b rq pk cm cr csk m) (made_up_response C b st Ps c).
Proof.
  intros flag C sha0 sha p b n s g xs ys csk pp num rk ry ek ey pk sk ms rs om or_ e rq pf st Ps c hord u v L Sy E Hm Hr Hom Hor k y cm cr Er HP Hxs Hu HuN m t Hpow Hord Hper HO.
  assert (Hdf : forall m r, In (m, r) (combine ms rs) -> (m + k + y * r) mod ec_order C <> 0).
  { clear - HP. intros m r. induction HP as [|[m0 r0] P l l' [H _] _ IH]; intros Hin; [destruct Hin|]. destruct Hin as [E|Hin]; [injection E as -> ->; exact H|apply IH, Hin]. }
  destruct (C65_response_hides flag C sha0 p b n s g xs ys csk pp num rk ry ek ey pk sk ms rs om or_ e rq pf st u L Sy E Hm Hr Hom Hor Er Hdf Hxs Hu HuN) as (Ps' & betas & HP' & Lb & Nb & Hd). cbv zeta in Hd. fold m cm cr in Hd.
  assert (EP : Ps' = Ps).
  { clear - L HP HP'. revert Ps HP. induction HP' as [|mr P l l' H _ IH]; intros Ps HP; inversion HP as [|? ? ? ? H' HP2]; subst; [reflexivity|]. f_equal; [exact (value_unique C _ _ _ _ _ _ _ L H H')|apply IH; exact HP2]. }
  subst Ps'.
  destruct (system_facts _ _ _ _ _ _ _ _ _ _ _ _ L Sy) as [sf_par0 sf_pp0 sf_W0 sf_g0 sf_k0 sf_ys0 sf_len0 sf_sv0 sf_sp0 sf_sx0 sf_po0 sf_un0 sf_sec0 sf_chal0 sf_base0 sf_bound0]. subst p pp.
  pose proof (n1 n s _ sf_W0) as Hn. pose proof (order_gt1 C L) as Hq. pose proof sf_po0 as [HN _].
  assert (Lr : length rs = length ms).
  { unfold bb_request_and_proof in Er. destruct (_ <? _)%nat; [discriminate|]. destruct (Nat.eqb_spec (length rs) (length ms)) as [H2|]; [exact H2|discriminate]. }
  assert (LP : length Ps = m) by (rewrite <- (Forall2_len _ _ _ HP), combine_length; unfold m; lia).
  set (pp := pd_par (bb_ped C b)) in *. set (N := pp_n pp) in *. set (B := response_bounds C b m).
  assert (Hb : Forall (fun x => 0 <= x) B).
  { assert (P2 : 0 <= 2 ^ (bp_chal (bb_par C b) + bp_sec (bb_par C b))) by (apply Z.pow_nonneg; lia). assert (P3 : 0 <= 2 ^ (2 * bp_chal (bb_par C b) + 2 * bp_sec (bb_par C b))) by (apply Z.pow_nonneg; lia).
    unfold B, response_bounds. cbv zeta. rewrite (w_n _ _ _ sf_W0). apply Forall_app. split; [|apply Forall_app; split].
    - apply Forall_forall. intros x Hx. apply repeat_spec in Hx. subst x. repeat (apply Z.mul_nonneg_nonneg; try lia).
    - apply Forall_forall. intros x Hx. apply repeat_spec in Hx. subst x. apply Z.mul_nonneg_nonneg; lia.
    - repeat constructor. apply Z.mul_nonneg_nonneg; lia. }
  change (whole_response_bounds C b m) with ([N] ++ B).
  set (vals := sent_points C st Ps) in *. set (bcom := fun o => commitment (pp_gs pp) (pp_h pp) N betas o).
  set (final := fun (w : Z) (d : list Z) => let* cbb := to_bytes w in simulated_response C b vals (map (ec_enc C) vals) cbb m c d).
  apply (distance_trans _ _ _ _ _ (fun ds => final (bcom (nth 0 ds 0)) (tl ds))).
  - apply distance_scale; [lia|lia|]. apply distance_inner; [repeat constructor; lia|]. intros a Da. pose proof (drawn_len _ _ Da) as La. destruct a as [|o [|? ?]]; try discriminate La.
    inversion Da as [|? ? ? ? Ro _]; subst. destruct (Hd o) as (cbb & Ecb & D). specialize (D sha c HO). fold B in D. rewrite Z.mod_small in Ecb by exact Ro.
    eapply distance_ext; [| |exact D]; intros d _ _; cbn beta.
    + reflexivity.
    + unfold final. cbn [app nth tl]. change (commitment (pp_gs pp) (pp_h pp) N betas o) with (bcom o) in Ecb. rewrite Ecb. reflexivity.
  - apply distance_outer; [exact Hb|]. intros d _.
    destruct (multi_exp_power (pp_h pp) N (pp_gs pp) betas ltac:(lia) Hpow Nb) as (w & Hw & Ew). destruct Hper as (HE & Hv & Hb' & Hrr).
    set (pw := fun x => pp_h pp ^ (x mod hord) mod N).
    assert (Epw : forall x, 0 <= x -> pp_h pp ^ x mod N = pw x).
    { intros x Hx. unfold pw. apply eqmod_eq; [lia|]. pose proof (Z.mod_pos_bound x hord HE). pose proof (Z.div_pos x hord Hx HE). rewrite (Z.div_mod x hord) at 1 by lia.
      rewrite (Z.pow_add_r _ (hord * (x / hord))), (Z.pow_mul_r _ hord) by (try lia; apply Z.mul_nonneg_nonneg; lia).
      assert (O1 : eqmod N (pp_h pp ^ hord) 1) by (apply eq_eqmod; rewrite Hord, Z.mod_1_l by lia; reflexivity).
      rewrite (eqmod_pow N _ _ (x / hord) O1), Z.pow_1_l, Z.mul_1_l by lia. reflexivity. }
    assert (Eper : forall l i, pw (nth i (every_period hord l) 0) = pw (nth i l 0)).
    { intros l i. unfold every_period, pw. pose proof (map_nth (fun x => x mod hord) l 0 i) as Q. cbn beta in Q. rewrite Z.mod_0_l in Q by lia. rewrite Q, Z.mod_mod by lia. reflexivity. }
    assert (C1 : forall o, 0 <= o -> bcom o = pw (o + w)).
    { intros o Ho. unfold bcom, commitment. rewrite <- Epw by lia. apply eqmod_eq; [lia|]. rewrite Ew, (Z.pow_add_r _ o) by lia. exists 0. ring. }
    pose proof (periodic_close t v hord N 1 [w] (fun o => final (pw (nth 0 o 0)) d) ltac:(lia) (conj HE (conj Hv (conj Hb' Hrr))) eq_refl ltac:(repeat constructor; assumption)
      ltac:(intros o; cbn beta; rewrite !Eper; reflexivity)) as D. change (Z.of_nat 1) with 1 in D. rewrite Z.mul_1_l in D. change (repeat N 1) with [N] in D. cbn beta in D.
    eapply distance_ext; [| |exact D].
    + intros o Lo Ro. destruct o as [|o1 [|? ?]]; try discriminate Lo. inversion Ro as [|? ? ? ? R1 _]; subst. cbn [app nth shift tl]. rewrite C1 by lia. reflexivity.
    + intros o Lo Ro. destruct o as [|o1 [|? ?]]; try discriminate Lo. inversion Ro as [|? ? ? ? R1 _]; subst. unfold made_up_response, final. fold pp N vals. rewrite LP. cbn [app nth tl]. rewrite Epw by lia. reflexivity.
Qed.
Print Assumptions C99_view.

(** Two issuers of the same system with different signing keys, asked for the signatures on different messages (with the same masks), cannot be told apart by their responses
    if the signatures are the same. *)
Theorem C99_only_the_signatures : forall flag C sha0 sha512 p b n s g xs ys csk pp num rk ry ek ey pk sk rk' ry' ek' ey' pk' sk' ms rs om or_ e rq pf ms' rs' om' or' e' rq' pf' st Ps c hord u v,
  ec_laws C -> bb_system flag C p b n s g xs ys csk pp num ->
  bb_generate_keys flag C b rk ry ek ey = Ok (pk, sk) -> bb_generate_keys flag C b rk' ry' ek' ey' = Ok (pk', sk') ->
  Forall (fun x => 0 <= x < ec_order C) (ms ++ rs ++ ms' ++ rs') -> 0 <= om -> 0 <= or_ -> 0 <= om' -> 0 <= or' ->
  let com xs o := commitment (pp_gs pp) (pp_h pp) (pp_n pp) xs o in
  bb_request_and_proof flag C sha0 b ms rs pk (com ms om) om (com rs or_) or_ e = Ok (rq, pf, st) ->
  bb_request_and_proof flag C sha0 b ms' rs' pk' (com ms' om') om' (com rs' or') or' e' = Ok (rq', pf', st) ->
  Forall2 (fun mr P => bb_value C (bb_base C b) (of_bytes (bsk_k sk)) (of_bytes (bsk_y sk)) (fst mr) (snd mr) P) (combine ms rs) Ps ->
  Forall2 (fun mr P => bb_value C (bb_base C b) (of_bytes (bsk_k sk')) (of_bytes (bsk_y sk')) (fst mr) (snd mr) P) (combine ms' rs') Ps ->
  Forall (fun x => x <= n) xs -> 0 <= u -> pp_n pp <= u * n ->
  let m := length ms in let t := bp_chal p + bp_sec p in
  powers_of (pp_h pp) (pp_n pp) (pp_gs pp) -> pp_h pp ^ hord mod pp_n pp = 1 -> nearly_periods t v hord (pp_n pp) -> oracle_says sha512 (bp_chal p) c ->
  within_distance (2 * ((2 * Z.of_nat m + Z.of_nat (length ys) + u) * 2 ^ bp_chal p + v)) t (whole_response_bounds C b m)
    (whole_response flag C sha512 b rq pk (com ms om) (com rs or_) csk m) (whole_response flag C sha512 b rq' pk' (com ms' om') (com rs' or') csk m).
Proof.
  intros flag C sha0 sha p b n s g xs ys csk pp num rk ry ek ey pk sk rk' ry' ek' ey' pk' sk' ms rs om or_ e rq pf ms' rs' om' or' e' rq' pf' st Ps c hord u v L Sy E E' Hall Hom Hor Hom' Hor' com Er Er' HP HP' Hxs Hu HuN m t Hpow Hord Hper HO.
  apply Forall_app in Hall. destruct Hall as [A1 Hall]. apply Forall_app in Hall. destruct Hall as [A2 Hall]. apply Forall_app in Hall. destruct Hall as [A3 A4].
  pose proof (C99_view flag C sha0 sha p b n s g xs ys csk pp num rk ry ek ey pk sk ms rs om or_ e rq pf st Ps c hord u v L Sy E A1 A2 Hom Hor Er HP Hxs Hu HuN Hpow Hord Hper HO) as D.
  pose proof (C99_view flag C sha0 sha p b n s g xs ys csk pp num rk' ry' ek' ey' pk' sk' ms' rs' om' or' e' rq' pf' st Ps c hord u v L Sy E' A3 A4 Hom' Hor' Er' HP' Hxs Hu HuN Hpow Hord Hper HO) as D'.
  assert (Lr : forall ms0 rs0 pk0 c1 o1 c2 o2 e0 x, bb_request_and_proof flag C sha0 b ms0 rs0 pk0 c1 o1 c2 o2 e0 = Ok x -> length rs0 = length ms0).
  { intros ms0 rs0 pk0 c1 o1 c2 o2 e0 x H. unfold bb_request_and_proof in H. destruct (_ <? _)%nat; [discriminate|]. destruct (Nat.eqb_spec (length rs0) (length ms0)) as [H2|]; [exact H2|discriminate]. }
  apply Lr in Er. apply Lr in Er'. apply Forall2_len in HP. apply Forall2_len in HP'. rewrite combine_length in HP, HP'. assert (Em : length ms' = m) by (unfold m; lia).
  cbv zeta in D, D'. rewrite Em in D'. fold m t in D. fold t in D'. set (x := (2 * Z.of_nat m + Z.of_nat (length ys) + u) * 2 ^ bp_chal p + v) in *. replace (2 * x) with (x + x) by ring.
  eapply distance_trans; [exact D|]. apply distance_sym. exact D'.
Qed.
Print Assumptions C99_only_the_signatures.

(** A case that meets all hypotheses: the keys (65, 51) and (64, 51), asked for the signatures on 5 and 20 and on 6 and 21. *)
Lemma value_exists C base k y m r : ec_laws C -> (m + k + y * r) mod ec_order C <> 0 -> exists P, bb_value C base k y m r P.
Proof.
  intros L H. pose proof (order_gt1 C L) as Hq. set (x := m + k + y * r) in *. exists (pmul C (x ^ (ec_order C - 2)) base). split; [exact H|]. fold x. rewrite <- (pmul_mul C L). transitivity (pmul C 1 base); [|reflexivity].
  apply (pmul_eqmod C L). assert (E1 : x * x ^ (ec_order C - 2) = x ^ (ec_order C - 1)) by (rewrite <- Z.pow_succ_r by lia; f_equal; lia). rewrite E1.
  apply fermat; [apply (n_prime C L)|]. intros D. apply Z.mod_divide in D; [contradiction|lia].
Qed.
Definition exr_keys (b : bb toy) rk := bb_generate_keys false toy b rk 2000 (fun i => [7; Z.of_nat i + 5]) (fun i => [Z.of_nat i + 2]).
Definition exr_run : outcome (Z * Z * Z * Z * bool) :=
  exb_objects (fun b csk => let* kp := exr_keys b 1000 in let* kp' := exr_keys b 999 in
    let* x := bb_request_and_proof false toy ask_one b [5; 20] [7; 0] (fst kp) (exb_com [5; 20] 50) 50 (exb_com [7; 0] 60) 60 (exb_e 3) in
    let* x' := bb_request_and_proof false toy ask_one b [6; 21] [7; 0] (fst kp') (exb_com [6; 21] 50) 50 (exb_com [7; 0] 60) 60 (exb_e 3) in
    Ok (of_bytes (bsk_k (snd kp)), of_bytes (bsk_y (snd kp)), of_bytes (bsk_k (snd kp')), of_bytes (bsk_y (snd kp')), rows_eqb (snd x) (snd x'))).
Example C99_ex : exists b csk pk sk pk' sk' rq pf rq' pf' st P1 P2, bb_system false toy exb_p b 77 4 exb_g exb_xs exb_ys csk exb_pp 2 /\
  exr_keys b 1000 = Ok (pk, sk) /\ exr_keys b 999 = Ok (pk', sk') /\
  bb_request_and_proof false toy ask_one b [5; 20] [7; 0] pk (exb_com [5; 20] 50) 50 (exb_com [7; 0] 60) 60 (exb_e 3) = Ok (rq, pf, st) /\
  bb_request_and_proof false toy ask_one b [6; 21] [7; 0] pk' (exb_com [6; 21] 50) 50 (exb_com [7; 0] 60) 60 (exb_e 3) = Ok (rq', pf', st) /\
  Forall2 (fun mr P => bb_value toy (bb_base toy b) (of_bytes (bsk_k sk)) (of_bytes (bsk_y sk)) (fst mr) (snd mr) P) (combine [5; 20] [7; 0]) [P1; P2] /\
  Forall2 (fun mr P => bb_value toy (bb_base toy b) (of_bytes (bsk_k sk')) (of_bytes (bsk_y sk')) (fst mr) (snd mr) P) (combine [6; 21] [7; 0]) [P1; P2] /\
  of_bytes (bsk_k sk) = 65 /\ of_bytes (bsk_k sk') = 64 /\
  Forall (fun x => x <= 77) exb_xs /\ pp_n exb_pp <= 217461 * 77 /\
  powers_of (pp_h exb_pp) (pp_n exb_pp) (pp_gs exb_pp) /\ pp_h exb_pp ^ 4184070 mod pp_n exb_pp = 1 /\ nearly_periods (bp_chal exb_p + bp_sec exb_p) 1 4184070 (pp_n exb_pp) /\ oracle_says ask_one (bp_chal exb_p) 1.
Proof.
  assert (E : exr_run = Ok (65, 51, 64, 51, true)) by (vm_compute; reflexivity). unfold exr_run, exb_objects in E.
  apply bind_ok in E. destruct E as (cs & E1 & E). apply bind_ok in E. destruct E as (csk & E2 & E). apply bind_ok in E. destruct E as (pd & E3 & E).
  apply bind_ok in E. destruct E as (b & E4 & E). apply bind_ok in E. destruct E as ([pk sk] & E5 & E). apply bind_ok in E. destruct E as ([pk' sk'] & E6 & E). cbn [fst snd] in E.
  apply bind_ok in E. destruct E as ([[rq pf] st] & E7 & E). apply bind_ok in E. destruct E as ([[rq' pf'] st'] & E8 & E). cbn [fst snd] in E. injection E as V1 V2 V3 V4 Q. apply rows_eqb_eq in Q. subst st'.
  assert (Q : bb_cs toy b = cs /\ bb_ped toy b = pd).
  { clear - E4. unfold bb_create in E4. destruct (bp_sec exb_p <=? 0); [discriminate|]. destruct (bp_chal exb_p <=? 0); [discriminate|]. apply bind_ok in E4. destruct E4 as (bd & _ & E4).
    destruct (cs_n_to_s cs <? bd); [discriminate|]. destruct (pp_n (pd_par pd) <? bd); [discriminate|]. apply bind_ok in E4. destruct E4 as (x & _ & E4).
    assert (Eb : b = {| bb_par := exb_p; bb_base := x; bb_cs := cs; bb_ped := pd |}) by congruence. rewrite Eb. split; reflexivity. }
  destruct Q as [Q1 Q2].
  destruct (value_exists toy (bb_base toy b) 65 51 5 7 toy_laws ltac:(discriminate)) as (P1 & VP1). destruct (value_exists toy (bb_base toy b) 65 51 20 0 toy_laws ltac:(discriminate)) as (P2 & VP2).
  exists b, csk, pk, sk, pk', sk', rq, pf, rq', pf', st, P1, P2. rewrite V1, V2, V3, V4.
  assert (F : forall e x, 0 <= e -> Zpow_facts.Zpow_mod 4 e 16744463 = x -> x = 4 ^ e mod 16744463).
  { intros e x He <-. apply Zpow_facts.Zpow_mod_correct. lia. }
  split.
  { rewrite <- Q1 in E1, E4. rewrite <- Q2 in E3, E4. constructor; [exact exb_keypair|discriminate|exact E1|exact E2| | |exact E4|cbn; lia].
    - split; [cbn; lia|]. split; [left; cbn; lia|exact E3].
    - split; [repeat constructor|reflexivity]. }
  split; [exact E5|]. split; [exact E6|]. split; [exact E7|]. split; [exact E8|].
  split; [constructor; [exact VP1|constructor; [exact VP2|constructor]]|]. split; [constructor; [exact VP1|constructor; [exact VP2|constructor]]|].
  split; [reflexivity|]. split; [reflexivity|]. split; [repeat constructor; discriminate|]. split; [cbn; lia|].
  split; [|split; [|split; [|exact asks_one]]].
  - cbn [exb_pp pp_gs pp_h pp_n]. constructor; [exists 2015322|constructor; [exists 3830298|constructor; [exists 3830297|constructor]]]; (split; [lia|apply F; [lia|vm_compute; reflexivity]]).
  - cbn [exb_pp pp_gs pp_h pp_n]. symmetry. apply F; [lia|vm_compute; reflexivity].
  - unfold nearly_periods. cbn [exb_pp pp_n exb_p bp_chal bp_sec]. change (16744463 mod 4184070) with 8183. cbn. lia.
Qed.
