(** Theorems on responses that verify, whoever made them (C57). *)
From Coq Require Import Znumtheory.
From Verif Require Import Base M_BigNum M_Num M_EC M_Proto M_CS M_Pedersen M_VRF M_BB S_CS S_Pedersen S_BB S_BBquery L_BigNum L_Num L_Mod L_DJ L_CS L_EC L_Cipher L_Protocol
  L_Toy L_Pedersen L_VRF L_BBct L_BBhom L_BBped L_BBreq L_BBrsp L_BB L_BBsound P_CS P_Pedersen P_VRF P_BB.

(** ** What acceptance means *)

(** A response proof is accepted exactly when the checks before hashing pass and the hash of the resulting string is the challenge in the proof. *)
Theorem C57_accepts : forall flag C sha512 b pk rsp pf rq cm cr, 0 <= bp_chal (bb_par C b) ->
  bb_verify_response flag C sha512 b pk rsp pf rq cm cr = Ok tt <->
  exists x, response_query flag C b pk rsp pf rq cm cr = Ok x /\ random_oracle 512 sha512 x (2 ^ bp_chal (bb_par C b)) = Ok (of_bytes (sp_challenge pf)).
Proof.
  intros flag C sha b pk rsp pf rq cm cr Hc. rewrite verify_query by exact Hc. split.
  - intros E. apply bind_ok in E. destruct E as (x & Ex & E). apply bind_ok in E. destruct E as (c & Ec & E). exists x. split; [exact Ex|]. rewrite Ec. f_equal.
    destruct (Z.eqb_spec c (of_bytes (sp_challenge pf))) as [H|]; [exact H|discriminate].
  - intros (x & Ex & Ec). rewrite Ex. cbn [bind]. rewrite Ec. cbn [bind]. rewrite Z.eqb_refl. reflexivity.
Qed.
Print Assumptions C57_accepts.

(** ** Special soundness *)

(** For an honest request, any response and any two proofs for it: if both are accepted (under hash functions of the prover's choice), they send
    the same string to the hash function and are challenged differently, then the response is the right one: what the requester extracts from it
    is the value of the function at every (m_i, r_i), in order. The parameters must leave one half more room in the plaintext space than Create
    asks for: 3 * 2^(2 challenge + 2 security) q^3 instead of 2 * 2^(2 challenge + 2 security) q^3. *)
Theorem C57_response_sound : forall flag C sha512 sha1 sha2 p b n s g xs ys csk pp num rk ry ek ey pk sk ms rs om or_ e rq pf st rsp pf1 pf2 x,
  ec_laws C -> bb_system flag C p b n s g xs ys csk pp num -> bb_generate_keys flag C b rk ry ek ey = Ok (pk, sk) ->
  Forall (fun x => 0 <= x < ec_order C) ms -> Forall (fun x => 0 <= x < ec_order C) rs -> 0 <= om -> 0 <= or_ ->
  3 * 2 ^ (2 * bp_chal p + 2 * bp_sec p) * ec_order C * ec_order C * ec_order C <= n ^ Z.of_nat s ->
  let k := of_bytes (bsk_k sk) in let y := of_bytes (bsk_y sk) in
  let cm := commitment (pp_gs pp) (pp_h pp) (pp_n pp) ms om in let cr := commitment (pp_gs pp) (pp_h pp) (pp_n pp) rs or_ in
  bb_request_and_proof flag C sha512 b ms rs pk cm om cr or_ e = Ok (rq, pf, st) ->
  bb_verify_response flag C sha1 b pk rsp pf1 rq cm cr = Ok tt -> bb_verify_response flag C sha2 b pk rsp pf2 rq cm cr = Ok tt ->
  response_query flag C b pk rsp pf1 rq cm cr = Ok x -> response_query flag C b pk rsp pf2 rq cm cr = Ok x ->
  (of_bytes (sp_challenge pf1) - of_bytes (sp_challenge pf2)) mod ec_order C <> 0 ->
  exists Ps, bb_extract C rsp st = Ok Ps /\ Forall2 (fun mr P => bb_value C (bb_base C b) k y (fst mr) (snd mr) P) (combine ms rs) Ps.
Proof.
  intros flag C sha sha1 sha2 p b n s g xs ys csk pp num rk ry ek ey pk sk ms rs om or_ e rq pf st rsp pf1 pf2 hx L Sy E Hm Hr Hom Hor H3 k y cm cr Er V1 V2 X1 X2 Hd.
  destruct (system_facts _ _ _ _ _ _ _ _ _ _ _ _ L Sy) as [sf_par0 sf_pp0 sf_W0 sf_g0 sf_k0 sf_ys0 sf_len0 sf_sv0 sf_sp0 sf_sx0 sf_po0 sf_un0 sf_sec0 sf_chal0 sf_base0 sf_bound0]. subst p pp. pose proof (n1 n s _ sf_W0) as Hn.
  destruct (keys_inv flag C b n s xs sf_W0 sf_g0 sf_k0 L rk ry ek ey pk sk E) as (Rk & Ry & keys & ok & oy & Ep & Hok & Hoy & K1 & K2). fold k in Rk, K1. fold y in Ry, K2.
  assert (Hk0 : 0 <= k) by lia. assert (Hy0 : 0 <= y) by lia. assert (Nm : nonneg ms) by (eapply Forall_impl; [|exact Hm]; cbn beta; lia). assert (Nr : nonneg rs) by (eapply Forall_impl; [|exact Hr]; cbn beta; lia).
  assert (Sz : (length ms <= length (pp_gs (pd_par (bb_ped C b))))%nat /\ length rs = length ms).
  { unfold bb_request_and_proof in Er. destruct (Nat.ltb_spec (length (pp_gs (pd_par (bb_ped C b)))) (length ms)) as [|H1]; [discriminate|]. split; [lia|].
    destruct (Nat.eqb_spec (length rs) (length ms)) as [H2|]; [exact H2|discriminate]. }
  destruct Sz as [Hl Lr].
  assert (D : Forall (rnd_ok n) (enc_rand C b n e (length ms)) /\ Forall (rnd_ok n) (dummy_enc C b n e (length ms))).
  { assert (Dec : forall l, Forall (fun x => 0 <= x) l -> {Forall (rnd_ok n) l} + {~ Forall (rnd_ok n) l}).
    { intros l Hl0. apply Forall_dec. intros x. unfold rnd_ok. destruct (Z_le_dec 0 x); [|right; lia]. destruct (Z.eq_dec x 0); [left; lia|].
      destruct (Z.eq_dec (Z.gcd x n) 1); [left; lia|right; lia]. }
    assert (P2 : 0 < n * 2 ^ (bp_chal (bb_par C b) + bp_sec (bb_par C b))) by (apply Z.mul_pos_pos; [lia|apply Z.pow_pos_nonneg; lia]).
    destruct (Dec (enc_rand C b n e (length ms))) as [D1|D1]; [apply tab_mod_nonneg; lia| |].
    - destruct (Dec (dummy_enc C b n e (length ms))) as [D2|D2]; [apply tab_mod_nonneg; lia|split; assumption|].
      rewrite (request_rejects flag C sha b n s xs sf_W0 sf_g0 sf_k0 sf_len0 ok oy _ _ Hok Hoy Hk0 Hy0 sf_po0 L sf_sec0 sf_chal0 pk keys Ep K1 K2 ms rs cm om cr or_ e Hl Lr Nm Nr Hom Hor) in Er by (intros [_ X]; contradiction). discriminate.
    - rewrite (request_rejects flag C sha b n s xs sf_W0 sf_g0 sf_k0 sf_len0 ok oy _ _ Hok Hoy Hk0 Hy0 sf_po0 L sf_sec0 sf_chal0 pk keys Ep K1 K2 ms rs cm om cr or_ e Hl Lr Nm Nr Hom Hor) in Er by (intros [X _]; contradiction). discriminate. }
  destruct D as [D1 D2].
  destruct (honest_request flag C sha b n s xs sf_W0 sf_g0 sf_k0 sf_len0 ok oy _ _ Hok Hoy Hk0 Hy0 sf_po0 sf_un0 L sf_sec0 sf_chal0 pk keys Ep K1 K2 ms rs om or_ e Hl Lr Nm Nr Hom Hor D1 D2)
      as (rq' & pf' & st' & E1 & E2 & E3 & E4 & _). fold k in E3. fold y in E3. change (com C b ms om) with cm in E1. change (com C b rs or_) with cr in E1.
  rewrite E1 in Er. assert (rq' = rq) by congruence. assert (st' = st) by congruence. subst rq' st'. clear Er E1.
  assert (Hc0 : 0 <= bp_chal (bb_par C b)) by lia. assert (Hc1 : 0 < bp_chal (bb_par C b)) by lia.
  assert (B1 : of_bytes (sp_challenge pf1) < 2 ^ bp_chal (bb_par C b)). { apply C57_accepts in V1; [|exact Hc0]. destruct V1 as (x' & _ & Ec). apply ro_pow2_range in Ec; [apply Ec|exact Hc1]. }
  assert (B2 : of_bytes (sp_challenge pf2) < 2 ^ bp_chal (bb_par C b)). { apply C57_accepts in V2; [|exact Hc0]. destruct V2 as (x' & _ & Ec). apply ro_pow2_range in Ec; [apply Ec|exact Hc1]. }
  assert (H3' : 3 * cube C b <= n ^ Z.of_nat s) by (unfold cube; rewrite !Z.mul_assoc; exact H3).
  exact (response_sound flag C b n s xs sf_W0 sf_g0 sf_k0 sf_len0 L sf_sec0 sf_chal0 sf_base0 sf_bound0 ok oy k y Hok Hoy Rk Ry ms rs Lr Hl Hm Hr e rq st E2 E3 E4 pk rsp pf1 pf2 cm cr hx X1 X2 Hd B1 B2 H3').
Qed.
Print Assumptions C57_response_sound.

(** Two proofs for one response: the same randomness, two hash functions, the challenges 0 and 1. *)
Example C57_response_sound_ex : 3 * 2 ^ (2 * 1 + 2 * 1) * 79 * 79 * 79 <= 77 ^ 4 /\
  exb_keys (fun b csk pk sk => let ms := [5; 20; 33] in let rs := [7; 0; 78] in let cm := exb_com ms 50 in let cr := exb_com rs 60 in
  let* x := exb_request ms rs (exb_e 3) b pk in let rq := fst (fst x) in
  let e2 := {| s_open := 3; s_betas := fun i => 100 + Z.of_nat i; s_xs := fun i => 500; s_dopen := 99 |} in
  let* z1 := bb_respond false toy (const_hash x35) b rq pk cm cr csk e2 in
  let* z2 := bb_respond false toy (const_hash x70) b rq pk cm cr csk e2 in
  let* _ := bb_verify_response false toy (const_hash x35) b pk (fst z1) (snd z1) rq cm cr in
  let* _ := bb_verify_response false toy (const_hash x70) b pk (fst z1) (snd z2) rq cm cr in
  let* q1 := response_query false toy b pk (fst z1) (snd z1) rq cm cr in
  let* q2 := response_query false toy b pk (fst z1) (snd z2) rq cm cr in
  Ok (bytes_eqb q1 q2, of_bytes (sp_challenge (snd z1)), of_bytes (sp_challenge (snd z2)))) = Ok (true, 0, 1).
Proof. split; [lia|]. vm_compute. reflexivity. Qed.

(** ** The room Create asks for is not enough *)

(** An issuer's answer with a wrong value: the two masked values differ by beta - n^s instead of beta, which the ciphertext equation cannot tell
    apart, and the answer is the base point divided by that difference. *)
Definition wrong_answer (C : ec) (b : bb C) (csk : cs_private) (rq : bb_request) (c1 c2 : bytes) : outcome (list bytes * rsp_proof * rsp_proof) :=
  let* d := decrypt_request C b csk rq in
  let beta := hd 0 (snd d) in
  let ns := cs_n_to_s (bb_cs C b) in
  let N := pp_n (pd_par (bb_ped C b)) in
  let mb1 := 5 in let mb2 := 5 + ns - beta in
  let* inv := bn_mod_inverse (beta - ns) (ec_order C) in
  let* v := point_to_bytes C (pmul C inv (bb_base C b)) in
  let* com1 := ped_commit_with_rand (bb_ped C b) [mb1] 9 in
  let* com2 := ped_commit_with_rand (bb_ped C b) [mb2] 9 in
  let* i2 := bn_mod_inverse com2 N in
  let* cb := to_bytes (com1 * i2 mod N) in
  let* m1 := to_bytes mb1 in let* m2 := to_bytes mb2 in let* o := to_bytes 9 in
  let* x1 := bignum_vector_to_proto (map (fun x => 500 + x) (cs_xs csk)) in let* x2 := bignum_vector_to_proto (map (fun _ => 500) (cs_xs csk)) in
  Ok ([v], {| sp_betas := cb; sp_challenge := c1; sp_xs := x1; sp_mbetas := [m1]; sp_open := o |},
           {| sp_betas := cb; sp_challenge := c2; sp_xs := x2; sp_mbetas := [m2]; sp_open := o |}).
Definition wrong_run (flag : bool) (C : ec) (sha1 sha2 : bytes -> bytes) (b : bb C) (csk : cs_private) (m r om or_ cm cr rk ry : Z) (ek ey : nat -> list Z) (e : req_entropy) : outcome bool :=
  let* keys := bb_generate_keys flag C b rk ry ek ey in
  let pk := fst keys in let sk := snd keys in
  let* x := bb_request_and_proof flag C sha1 b [m] [r] pk cm om cr or_ e in
  let rq := fst (fst x) in
  let* w := wrong_answer C b csk rq [x01] [] in
  let rsp := fst (fst w) in let pf1 := snd (fst w) in let pf2 := snd w in
  let* _ := bb_verify_response flag C sha1 b pk rsp pf1 rq cm cr in
  let* _ := bb_verify_response flag C sha2 b pk rsp pf2 rq cm cr in
  let* q1 := response_query flag C b pk rsp pf1 rq cm cr in
  let* q2 := response_query flag C b pk rsp pf2 rq cm cr in
  let* Ps := bb_extract C rsp (snd x) in
  Ok (bytes_eqb q1 q2 && negb ((of_bytes (sp_challenge pf1) - of_bytes (sp_challenge pf2)) mod ec_order C =? 0) &&
      match Ps with [P] => negb (peqb C (pmul C (m + of_bytes (bsk_k sk) + of_bytes (bsk_y sk) * r) P) (bb_base C b)) | _ => false end).
Lemma wrong_run_inv flag C sha1 sha2 b csk m r om or_ cm cr rk ry ek ey e : ec_laws C -> wrong_run flag C sha1 sha2 b csk m r om or_ cm cr rk ry ek ey e = Ok true ->
  exists pk sk rq pf st rsp pf1 pf2 x P, bb_generate_keys flag C b rk ry ek ey = Ok (pk, sk) /\ bb_request_and_proof flag C sha1 b [m] [r] pk cm om cr or_ e = Ok (rq, pf, st) /\
    bb_verify_response flag C sha1 b pk rsp pf1 rq cm cr = Ok tt /\ bb_verify_response flag C sha2 b pk rsp pf2 rq cm cr = Ok tt /\
    response_query flag C b pk rsp pf1 rq cm cr = Ok x /\ response_query flag C b pk rsp pf2 rq cm cr = Ok x /\
    (of_bytes (sp_challenge pf1) - of_bytes (sp_challenge pf2)) mod ec_order C <> 0 /\ bb_extract C rsp st = Ok [P] /\
    ~ bb_value C (bb_base C b) (of_bytes (bsk_k sk)) (of_bytes (bsk_y sk)) m r P.
Proof.
  intros L E. unfold wrong_run in E. apply bind_ok in E. destruct E as ([pk sk] & E1 & E). cbn [fst snd] in E. apply bind_ok in E. destruct E as ([[rq pf] st] & E2 & E). cbn [fst snd] in E.
  apply bind_ok in E. destruct E as ([[rsp pf1] pf2] & _ & E). cbn [fst snd] in E. apply bind_ok in E. destruct E as ([] & E3 & E). apply bind_ok in E. destruct E as ([] & E4 & E).
  apply bind_ok in E. destruct E as (q1 & E5 & E). apply bind_ok in E. destruct E as (q2 & E6 & E). apply bind_ok in E. destruct E as (Ps & E7 & E). apply ok_inj in E.
  apply andb_prop in E. destruct E as [E E9]. apply andb_prop in E. destruct E as [Eq E8]. apply bytes_eqb_eq in Eq. subst q2. destruct Ps as [|P [|? ?]]; try discriminate.
  exists pk, sk, rq, pf, st, rsp, pf1, pf2, q1, P. repeat (split; [assumption|]). split; [|split; [exact E7|]].
  - intros X. rewrite X in E8. discriminate.
  - intros [_ V]. apply negb_true_iff in E9. rewrite V in E9. assert (peqb C (bb_base C b) (bb_base C b) = true) by (apply (peqb_spec C L); reflexivity). congruence.
Qed.

(** Without the extra room the previous theorem is false: parameters that Create accepts, an honest request, and a response with two accepted
    proofs for the same hashed string and different challenges, from which the requester extracts a wrong value. *)
Definition exw_g : Z := 3091683369.
Definition exw_ys : list Z := [1302939697].
Definition exw_e : req_entropy := let e := exb_e 3 in
  {| e_a := e_a e; e_b := fun _ => 24000; e_enc := e_enc e; e_ao := e_ao e; e_bo := e_bo e; e_zal := e_zal e; e_zga := e_zga e;
     d_m := d_m e; d_r := d_r e; d_a := d_a e; d_ao := d_ao e; d_b := d_b e; d_al := d_al e; d_ga := d_ga e;
     d_mo := d_mo e; d_ro := d_ro e; d_bo := d_bo e; d_al1 := d_al1 e; d_al2 := d_al2 e; d_ga1 := d_ga1 e; d_ga2 := d_ga2 e; d_enc := d_enc e |}.
Lemma exw_keypair : cs_keypair 253 3 exw_g [3] exw_ys.
Proof.
  constructor; [reflexivity|lia|unfold exw_g; cbn; lia|reflexivity| |].
  - repeat constructor; try lia; vm_compute; reflexivity.
  - intros i Hi. assert (i = 1 \/ i = 2 \/ i = 3) as [-> |[-> | ->]] by lia; reflexivity.
Qed.
Lemma all_objects {A} flag C p n s g ys xs pp num (k : bb C -> cs_private -> outcome A) (a : A) :
  (let* cs := cs_public_create flag n s g ys in let* csk := cs_private_create flag n s g ys xs in let* pd := ped_create pp num in let* b := bb_create C p cs pd in k b csk) = Ok a ->
  exists b csk, cs_public_create flag n s g ys = Ok (bb_cs C b) /\ cs_private_create flag n s g ys xs = Ok csk /\ ped_create pp num = Ok (bb_ped C b) /\
    bb_create C p (bb_cs C b) (bb_ped C b) = Ok b /\ k b csk = Ok a.
Proof.
  intros E. destruct (objects_ok flag C p n s g ys xs pp num) as (b & csk & E1 & E2 & E3 & E4).
  - destruct (cs_public_create flag n s g ys) as [cs|?| | |]; try discriminate. cbn [bind] in *. destruct (cs_private_create flag n s g ys xs) as [csk|?| | |]; try discriminate. cbn [bind] in *.
    destruct (ped_create pp num) as [pd|?| | |]; try discriminate. cbn [bind] in *. destruct (bb_create C p cs pd) as [b|?| | |]; try discriminate. reflexivity.
  - exists b, csk. rewrite E1, E2, E3 in E. cbn [bind] in E. rewrite E4 in E. cbn [bind] in E. repeat (split; [assumption|]). exact E.
Qed.
Definition exw_k (b : bb toy) (csk : cs_private) : outcome bool :=
  wrong_run false toy (const_hash x70) (const_hash x35) b csk 5 7 50 60 (commitment (pp_gs exb_pp) (pp_h exb_pp) (pp_n exb_pp) [5] 50) (commitment (pp_gs exb_pp) (pp_h exb_pp) (pp_n exb_pp) [7] 60)
    1000 2000 (fun i => [7; Z.of_nat i + 5]) (fun i => [Z.of_nat i + 2]) exw_e.
Lemma exw_all_true : (let* cs := cs_public_create false 253 3 exw_g exw_ys in let* csk := cs_private_create false 253 3 exw_g exw_ys [3] in let* pd := ped_create exb_pp 2 in
  let* b := bb_create toy exb_p cs pd in exw_k b csk) = Ok true.
Proof. vm_compute. reflexivity. Qed.
Lemma exw_system b csk : cs_public_create false 253 3 exw_g exw_ys = Ok (bb_cs toy b) -> cs_private_create false 253 3 exw_g exw_ys [3] = Ok csk -> ped_create exb_pp 2 = Ok (bb_ped toy b) ->
  bb_create toy exb_p (bb_cs toy b) (bb_ped toy b) = Ok b -> bb_system false toy exb_p b 253 3 exw_g [3] exw_ys csk exb_pp 2.
Proof.
  intros E1 E2 E3 E4. constructor; [exact exw_keypair|discriminate|exact E1|exact E2| | |exact E4|cbn; lia].
  - split; [cbn; lia|]. split; [left; cbn; lia|exact E3].
  - split; [repeat constructor|reflexivity].
Qed.
Lemma exw_range z : 0 <= z < 79 -> Forall (fun x => 0 <= x < ec_order toy) [z].
Proof. intros H. constructor; [exact H|constructor]. Qed.
Theorem C57_create_bound_refuted : ~ (forall flag C sha512 sha1 sha2 p b n s g xs ys csk pp num rk ry ek ey pk sk ms rs om or_ e rq pf st rsp pf1 pf2 x,
  ec_laws C -> bb_system flag C p b n s g xs ys csk pp num -> bb_generate_keys flag C b rk ry ek ey = Ok (pk, sk) ->
  Forall (fun x => 0 <= x < ec_order C) ms -> Forall (fun x => 0 <= x < ec_order C) rs -> 0 <= om -> 0 <= or_ ->
  let k := of_bytes (bsk_k sk) in let y := of_bytes (bsk_y sk) in
  let cm := commitment (pp_gs pp) (pp_h pp) (pp_n pp) ms om in let cr := commitment (pp_gs pp) (pp_h pp) (pp_n pp) rs or_ in
  bb_request_and_proof flag C sha512 b ms rs pk cm om cr or_ e = Ok (rq, pf, st) ->
  bb_verify_response flag C sha1 b pk rsp pf1 rq cm cr = Ok tt -> bb_verify_response flag C sha2 b pk rsp pf2 rq cm cr = Ok tt ->
  response_query flag C b pk rsp pf1 rq cm cr = Ok x -> response_query flag C b pk rsp pf2 rq cm cr = Ok x ->
  (of_bytes (sp_challenge pf1) - of_bytes (sp_challenge pf2)) mod ec_order C <> 0 ->
  exists Ps, bb_extract C rsp st = Ok Ps /\ Forall2 (fun mr P => bb_value C (bb_base C b) k y (fst mr) (snd mr) P) (combine ms rs) Ps).
Proof.
  intros H. destruct (all_objects _ _ _ _ _ _ _ _ _ _ exw_k true exw_all_true) as (b & csk & E1 & E2 & E3 & E4 & E). unfold exw_k in E.
  apply (wrong_run_inv _ _ _ _ _ _ _ _ _ _ _ _ _ _ _ _ _ toy_laws) in E. destruct E as (pk & sk & rq & pf & st & rsp & pf1 & pf2 & x & P & K1 & K2 & K3 & K4 & K5 & K6 & K7 & K8 & K9).
  pose proof (exw_system b csk E1 E2 E3 E4) as Sy.
  destruct (H _ _ _ _ _ _ _ _ _ _ _ _ _ _ _ _ _ _ _ _ _ [5] [7] 50 60 _ _ _ _ _ _ _ _ toy_laws Sy K1 (exw_range 5 ltac:(lia)) (exw_range 7 ltac:(lia)) ltac:(lia) ltac:(lia) K2 K3 K4 K5 K6 K7)
    as (Ps & X & F). rewrite K8 in X. apply ok_inj in X. subst Ps. inversion F; subst. cbn [fst snd] in *. contradiction.
Qed.
Print Assumptions C57_create_bound_refuted.
