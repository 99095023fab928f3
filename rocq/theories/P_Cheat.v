(** Theorems on what an accepted request for an oblivious signature says about the signed messages (C72). *)
From Coq Require Import Znumtheory.
From Verif Require Import Base M_BigNum M_Num M_EC M_Proto M_CS M_Pedersen M_VRF M_BB S_CS S_Pedersen S_BB L_BigNum L_Num L_Mod L_DJ L_CS L_EC L_Cipher L_Protocol
  L_Toy L_Pedersen L_VRF L_BBct L_BBhom L_BBped L_BBreq L_BBrsp L_BB P_CS P_Pedersen P_VRF P_BB S_Cheat L_Cheat L_CheatRsp.

(** The full claim would be: whoever gets a request accepted by VerifyRequest against the commitments to [ms] and [rs] extracts from the
    response signatures on [ms] with nonces [rs] or nothing. It is false. For every system, every key pair, every hash function, every list of
    committed messages and every list of other messages [ms'] a requester can compute, without knowing any secret of the issuer, a request
    and a proof that VerifyRequest accepts against the commitments to [ms] and [rs], and whose response gives the signatures on [ms']. The masks it
    uses are negative numbers: VerifyRequest bounds the masked values from above only, so the values decrypted by the issuer wrap around n^s.
    [length ms <= number of bases] and [defined] are also what an honest request for [ms'] needs; [n mod q <> 0] holds for
    every modulus made of primes other than q. *)
Theorem C72_signs_committed_messages_refuted : forall flag C sha512 p b n s g xs ys csk pp num rk ry ek ey pk sk ms ms' rs om or_ e2,
  ec_laws C -> bb_system flag C p b n s g xs ys csk pp num -> bb_generate_keys flag C b rk ry ek ey = Ok (pk, sk) ->
  let q := ec_order C in let k := of_bytes (bsk_k sk) in let y := of_bytes (bsk_y sk) in
  let in_range := Forall (fun x => 0 <= x < q) in in_range ms -> in_range ms' -> in_range rs -> 0 <= om -> 0 <= or_ ->
  (length ms <= length (pp_gs pp))%nat -> length rs = length ms -> Forall2 (fun m m' => m <> m') ms ms' -> n mod q <> 0 ->
  (forall m r, In (m, r) (combine ms' rs) -> (m + k + y * r) mod q <> 0) -> (forall j, (j < length ms)%nat -> s_betas e2 j mod q <> 0) ->
  let cm := commitment (pp_gs pp) (pp_h pp) (pp_n pp) ms om in let cr := commitment (pp_gs pp) (pp_h pp) (pp_n pp) rs or_ in
  exists e rq pf st rsp pf2 Ps, opposite_request flag C sha512 b ms rs pk cm om cr or_ e = Ok (rq, pf, st) /\
    bb_verify_request flag C sha512 b pk rq pf cm cr = Ok tt /\
    bb_respond flag C sha512 b rq pk cm cr csk e2 = Ok (rsp, pf2) /\
    opposite_extract C rsp st = Ok Ps /\ Forall2 (fun mr P => bb_value C (bb_base C b) k y (fst mr) (snd mr) P) (combine ms' rs) Ps.
Proof.
  intros flag C sha p b n s g xs ys csk pp num rk ry ek ey pk sk ms ms' rs om or_ e2 L Sy E q k y ir Hm Hm' Hr Hom Hor Hl Lr Df Hnq Dfd Dm cm cr.
  destruct (system_facts _ _ _ _ _ _ _ _ _ _ _ _ L Sy) as [sf_par0 sf_pp0 sf_W0 sf_g0 sf_k0 sf_ys0 sf_len0 sf_sv0 sf_sp0 sf_sx0 sf_po0 sf_un0 sf_sec0 sf_chal0 sf_base0 sf_bound0]. subst p pp.
  pose proof (n1 n s _ sf_W0) as Hn. pose proof (M1 n s _ sf_W0) as HM.
  destruct (keys_inv flag C b n s xs sf_W0 sf_g0 sf_k0 L rk ry ek ey pk sk E) as (Rk & Ry & keys & ok & oy & Ep & Hok & Hoy & K1 & K2). fold k in Rk, K1. fold y in Ry, K2.
  assert (Hk0 : 0 <= k) by lia. assert (Hy0 : 0 <= y) by lia. assert (Nr : nonneg rs) by (eapply Forall_impl; [|exact Hr]; cbn beta; lia).
  assert (HN : 1 < pp_n (pd_par (bb_ped C b))) by apply sf_po0. destruct (full_exists _ _ HN HM) as (T & HT & FN & FM).
  assert (Lm' : length ms' = length ms) by (symmetry; exact (Forall2_len _ _ _ Df)).
  assert (Df' : forall j, (j < length ms)%nat -> mv ms j <> mv ms' j).
  { unfold mv. clear - Df. induction Df as [|x z l l' H _ IH]; intros j Hj; cbn [length] in Hj; [lia|]. destruct j as [|j]; [exact H|]. cbn [nth]. apply IH. lia. }
  assert (Dfd' : forall j, (j < length ms)%nat -> (mv ms' j + k + y * rv rs j) mod q <> 0).
  { intros j Hj. apply Dfd. unfold mv, rv. rewrite <- combine_nth by lia. apply nth_In. rewrite combine_length. lia. }
  set (e := target_e C n s ms ms').
  assert (D1 : Forall (rnd_ok n) (enc_rand C b n e (length ms))). { apply tab_Forall. intros i. cbn [e target_e e_enc]. rewrite Zmod_0_l. split; [lia|left; reflexivity]. }
  assert (P2 : 0 < 2 ^ (bp_chal (bb_par C b) + bp_sec (bb_par C b))) by (apply Z.pow_pos_nonneg; lia).
  assert (D2 : Forall (rnd_ok n) (dummy_enc C b n e (length ms))). { apply tab_Forall. intros i. cbn [e target_e d_enc]. rewrite Z.mod_small by nia. split; [lia|right; apply Z.gcd_1_l]. }
  destruct (opposite_accepted flag C sha b n s xs sf_W0 sf_g0 sf_k0 sf_len0 ok oy k y Hok Hoy Hk0 Hy0 sf_po0 sf_un0 L sf_sec0 sf_chal0 pk keys Ep K1 K2 T HT FN FM ms rs om or_ e Hl Lr Hm Nr Hom Hor D1 D2)
    as (rq & pf & st & E1 & E2 & E3 & E4 & E5).
  { intros rc w d c Ew Ed Hc. exact (target_covers C b n s sf_W0 sf_len0 sf_po0 L sf_sec0 sf_chal0 ms rs Lr Hl Hm Hr ms' Lm' om or_ rc w d c Hom Hor Ew Ed Hc). }
  assert (Hcm : 0 <= cm) by (apply Z.mod_pos_bound; lia). assert (Hcr : 0 <= cr) by (apply Z.mod_pos_bound; lia).
  assert (Tg : forall j, (j < length ms)%nat -> eqmod q (n ^ Z.of_nat s) (av C e j * (mv ms j - mv ms' j))).
  { intros j Hj. unfold e. rewrite (target_a C b n s sf_len0 L sf_sec0 sf_chal0 ms rs Lr Hl Hm ms' Lm' Hm' Df' Hnq j Hj). apply (mask_for_ok C b n s sf_len0 L sf_sec0 sf_chal0 ms rs Lr Hl Hm ms' Lm' Hm' Df' Hnq j Hj). }
  destruct (opposite_answer flag C sha b n s xs sf_W0 sf_g0 sf_k0 sf_len0 sf_po0 sf_un0 L sf_sec0 sf_chal0 sf_base0 sf_bound0 csk sf_sv0 sf_sp0 sf_sx0 ok oy k y Hok Hoy Rk Ry ms rs Lr Hl Hm Hr T HT FM e rq st E2 E4 E3 ms' Lm' Tg Dfd' pk cm cr e2 Hcm Hcr Dm)
    as (rsp & pf2 & Ps & F1 & F2 & F3).
  exists e, rq, pf, st, rsp, pf2, Ps. split; [exact E1|]. split; [exact E5|]. split; [exact F1|]. split; [exact F2|exact F3].
Qed.
Print Assumptions C72_signs_committed_messages_refuted.

(** A run of the attack with the masks 11, 12, 13 and the committed messages 5, 20, 33: the request is accepted, none of the extracted points is a signature
    on the committed message, and the points are signatures on 61, 45 and 50. *)
Definition exc_e : req_entropy := let f k := fun i => 1000 * k + 17 * Z.of_nat i in
  {| e_a := fun i => 10 + Z.of_nat i; e_b := f 2; e_enc := e_enc (exb_e 3); e_ao := f 4; e_bo := 5000; e_zal := 6000; e_zga := 7000;
     d_m := f 8; d_r := f 9; d_a := fun i => 300; d_ao := fun i => 50233389; d_b := fun i => 90000; d_al := fun i => 20000; d_ga := fun i => 20000;
     d_mo := 15000; d_ro := 16000; d_bo := 50233389; d_al1 := 1322812577; d_al2 := 50233389; d_ga1 := 1322812577; d_ga2 := 50233389; d_enc := fun i => 100 + 4 * Z.of_nat i |}.
Example C72_attack_ex : exb_keys (fun b csk pk sk => let ms := [5; 20; 33] in let rs := [7; 0; 78] in let cm := exb_com ms 50 in let cr := exb_com rs 60 in let sha := const_hash x70 in
  let* x := opposite_request false toy sha b ms rs pk cm 50 cr 60 exc_e in let rq := fst (fst x) in let pf := snd (fst x) in
  let* _ := bb_verify_request false toy sha b pk rq pf cm cr in
  let* z := bb_respond false toy sha b rq pk cm cr csk {| s_open := 3; s_betas := fun i => 100 + Z.of_nat i; s_xs := fun i => 500; s_dopen := 99 |} in
  let* Ps := opposite_extract toy (fst z) (snd x) in
  let k := of_bytes (bsk_k sk) in let y := of_bytes (bsk_y sk) in
  let signs ms := map (fun mrP => peqb toy (pmul toy (fst (fst mrP) + k + y * snd (fst mrP)) (snd mrP)) (pgen toy)) (combine (combine ms rs) Ps) in
  Ok (of_bytes (rp_challenge pf), parse_bignum_vector (snd x), signs ms, map (fun i => filter (fun m' => nth i (signs (repeat (Z.of_nat m') 3)) false) (seq 0 79)) [0%nat; 1%nat; 2%nat]))
  = Ok (1, [11; 12; 13], [false; false; false], [[61%nat]; [45%nat]; [50%nat]]).
Proof. vm_compute. reflexivity. Qed.
(** The requester of the theorem, committed to 5, 20, 33 and asking for 1, 2, 3. *)
Example C72_chosen_ex : exb_keys (fun b csk pk sk => let ms := [5; 20; 33] in let rs := [7; 0; 78] in let cm := exb_com ms 50 in let cr := exb_com rs 60 in let sha := const_hash x70 in
  let* x := opposite_request false toy sha b ms rs pk cm 50 cr 60 (target_e toy 77 4 ms [1; 2; 3]) in let rq := fst (fst x) in let pf := snd (fst x) in
  let* _ := bb_verify_request false toy sha b pk rq pf cm cr in
  let* z := bb_respond false toy sha b rq pk cm cr csk {| s_open := 3; s_betas := fun i => 100 + Z.of_nat i; s_xs := fun i => 500; s_dopen := 99 |} in
  let* Ps := opposite_extract toy (fst z) (snd x) in
  let k := of_bytes (bsk_k sk) in let y := of_bytes (bsk_y sk) in
  let signs ms := map (fun mrP => peqb toy (pmul toy (fst (fst mrP) + k + y * snd (fst mrP)) (snd mrP)) (pgen toy)) (combine (combine ms rs) Ps) in
  Ok (of_bytes (rp_challenge pf), signs ms, signs [1; 2; 3])) = Ok (1, [false; false; false], [true; true; true]).
Proof. vm_compute. reflexivity. Qed.
