(** C74, C75: dishonest provers who put questions to the hash function succeed only by luck. *)
From Coq Require Import Znumtheory.
From Verif Require Import Base M_BigNum M_Num M_EC M_Proto M_CS M_Pedersen M_VRF M_BB S_CS S_Pedersen S_BB S_BBquery S_Num L_BigNum L_Num L_Mod L_DJ L_CS L_EC L_Cipher L_Protocol
  L_Toy L_Pedersen L_VRF L_BBct L_BBhom L_BBped L_BBreq L_BBrsp L_BB L_BBsound P_CS P_Pedersen P_Forge P_VRF P_BB P_BBhash P_BBsound S_Hide L_Hide S_Oracle L_Oracle.

(** The answers of a random function are no fiction: whatever numbers below 2^k are wanted as answers, some function with outputs of 64 bytes gives them. *)
Theorem C74_every_answer : forall k f, 0 <= k <= 129023 -> (forall x, 0 <= f x < 2 ^ k) ->
  exists sha512, (forall y, length (sha512 y) = 64%nat) /\ forall x, random_oracle 512 sha512 x (2 ^ k) = Ok (f x).
Proof.
  intros k f Hk Hf. exists (programmed k f). split; [apply programmed_length|]. intros x. apply programmed_answers; [lia|exact Hf|].
  unfold blocks, ro_iterations. rewrite bit_length_2k by lia. pose proof (Z.mul_div_le (k + 1 + 512 + 512 - 1) 512 ltac:(lia)).
  assert ((k + 1 + 512 + 512 - 1) / 512 < 254) by (apply Z.div_lt_upper_bound; lia). lia.
Qed.
Print Assumptions C74_every_answer.

(** ** Pedersen generators, proof for a trusted modulus *)

(** If g is no power of h modulo the product of two safe primes (both being squares), a prover who asks the hash function q questions gets a proof with challenges
    of len bits accepted for at most the fraction (q + 1) / 2^len of all answers. *)
Theorem C74_trusted_luck : forall g h p' q' u v len,
  prime p' -> prime q' -> prime (2 * p' + 1) -> prime (2 * q' + 1) -> p' <> q' ->
  let n := (2 * p' + 1) * (2 * q' + 1) in
  h = (u * u) mod n -> g = (v * v) mod n -> Z.gcd u n = 1 -> Z.gcd v n = 1 -> 0 <= len -> 2 ^ len <= Z.min p' q' ->
  (forall x, 0 <= x -> h ^ x mod n <> g mod n) ->
  rarely_fools len (fun pf => gen_bytes g h n [tp_dummy_g pf]) (fun sha512 pf => tp_len pf = len /\ verify_trusted sha512 g h n pf = Ok tt).
Proof.
  intros g h p' q' u v len Pp Pq P Q Hne n Hh Hg Gu Gv Hl Hlen Hno. apply one_answer_rarely_fools; [exact Hl| |].
  - intros H pf [_ V]. apply C48_trusted_verify_iff in V. destruct V as (_ & _ & _ & _ & b & c & Eb & _). exists b. exact Eb.
  - intros x H1 pf1 c1 H2 pf2 c2 Q1 Q2 [L1 V1] [L2 V2] R1 R2. destruct (Z.eq_dec c1 c2) as [|Hc]; [assumption|exfalso].
    assert (ED : tp_dummy_g pf1 = tp_dummy_g pf2).
    { unfold gen_bytes in Q1, Q2. apply bind_ok in Q1. destruct Q1 as (gb & Eg & Q1). apply bind_ok in Q1. destruct Q1 as (hb & Eh & Q1). apply bind_ok in Q1. destruct Q1 as (nb & En & Q1). apply bind_ok in Q1. destruct Q1 as (d1 & E1 & Q1).
      rewrite Eg, Eh, En in Q2. cbn [bind] in Q2. apply bind_ok in Q2. destruct Q2 as (d2 & E2 & Q2). cbn [mapM] in E1, E2.
      apply bind_ok in E1. destruct E1 as (b1 & T1 & E1). apply bind_ok in E2. destruct E2 as (b2 & T2 & E2). cbn [bind] in E1, E2. apply ok_inj in E1, E2, Q1, Q2. subst d1 d2. cbn [concat] in Q1, Q2. rewrite app_nil_r in Q1, Q2.
      rewrite <- Q2 in Q1. apply app_inv_head, app_inv_head, app_inv_head in Q1. subst b2. exact (to_bytes_inj _ _ _ T1 T2). }
    destruct (C48_trusted_soundness_safe_primes H1 H2 g h p' q' u v pf1 pf2 x c1 c2) as (y & Hy & Ey); try assumption; try (rewrite L1; assumption); [congruence|]. exact (Hno y Hy Ey).
Qed.
Print Assumptions C74_trusted_luck.

(** ** Pedersen generators, repeated one-bit proof *)

(** What is missing from the code: if the lengths of all numbers of the first message are prescribed, the repeated proof has the same protection, with 2^repetitions. As the
    code is, it has none: [C74_false_statement_accepted_refuted]. *)
Theorem C74_prescribed_lengths_partial : forall g h n reps (lengths : list nat), 0 <= reps -> (forall x, ~ discrete_log n h g x) ->
  rarely_fools reps (fun pf => gen_bytes g h n (gp_dummy_gs pf))
    (fun sha512 pf => gp_reps pf = reps /\ verify_params sha512 g h n pf = Ok tt /\ Forall2 (fun d l => exists b, to_bytes d = Ok b /\ length b = l) (gp_dummy_gs pf) lengths).
Proof.
  intros g h n reps ls Hr Hno. apply one_answer_rarely_fools; [exact Hr| |].
  - intros H pf (_ & V & _). apply C48_verify_iff in V. destruct V as (_ & _ & _ & _ & _ & b & c & Eb & _). exists b. exact Eb.
  - intros x H1 pf1 c1 H2 pf2 c2 Q1 Q2 (L1 & V1 & F1) (L2 & V2 & F2) R1 R2.
    assert (ED : gp_dummy_gs pf1 = gp_dummy_gs pf2).
    { unfold gen_bytes in Q1, Q2. apply bind_ok in Q1. destruct Q1 as (gb & Eg & Q1). apply bind_ok in Q1. destruct Q1 as (hb & Eh & Q1). apply bind_ok in Q1. destruct Q1 as (nb & En & Q1). apply bind_ok in Q1. destruct Q1 as (d1 & E1 & Q1).
      rewrite Eg, Eh, En in Q2. cbn [bind] in Q2. apply bind_ok in Q2. destruct Q2 as (d2 & E2 & Q2). apply ok_inj in Q1, Q2. rewrite <- Q2 in Q1. apply app_inv_head, app_inv_head, app_inv_head in Q1.
      clear - F1 F2 E1 E2 Q1. revert d1 d2 E1 E2 Q1. generalize dependent (gp_dummy_gs pf2). induction F1 as [|d l ds ls (b & Tb & Lb) F1 IH]; intros es F2 d1 d2 E1 E2 Q; inversion F2 as [|e l' es' ls' (b' & Tb' & Lb') F2']; subst; [reflexivity|].
      cbn [mapM] in E1, E2. rewrite Tb in E1. rewrite Tb' in E2. cbn [bind] in E1, E2. apply bind_ok in E1. destruct E1 as (r1 & E1 & X1). apply bind_ok in E2. destruct E2 as (r2 & E2 & X2). apply ok_inj in X1, X2. subst d1 d2. cbn [concat] in Q.
      apply app_len_inj in Q; [|lia]. destruct Q as [-> Q]. f_equal; [exact (to_bytes_inj _ _ _ Tb Tb')|]. apply (IH es' F2' r1 r2 E1 E2 Q). }
    apply (C60_one_challenge H1 H2 g h n pf1 pf2 x c1 c2 Hno); try assumption; try (rewrite L1; assumption); congruence.
Qed.
Print Assumptions C74_prescribed_lengths_partial.

(** Both hypotheses are met, and lucky provers exist: with 23 * 47 and h = 576, which is 1 modulo 23, the number 4 is no power of h; a prover who guesses the challenge 5
    and asks nothing has a proof accepted when the hash function answers 5. *)
Example C74_trusted_ex : 576 = (24 * 24) mod 1081 /\ 4 = (2 * 2) mod 1081 /\ Z.gcd 24 1081 = 1 /\ 2 ^ 3 <= Z.min 11 23 /\ (forall x, 0 <= x -> 576 ^ x mod 1081 <> 4 mod 1081) /\
  let pf := {| tp_dummy_g := 71; tp_response := 7; tp_len := 3 |} in let x := [x04; x02; x40; x04; x39; x47] in
  (576 ^ 7) mod 1081 = (4 ^ 5 * 71) mod 1081 /\ gen_bytes 4 576 1081 [71] = Ok x /\
  play (then_checked (fun pf => gen_bytes 4 576 1081 [tp_dummy_g pf]) (Give pf)) [] [5] = Some (pf, [(x, 5)]) /\
  verify_trusted (const_hash x35) 4 576 1081 pf = Err InvalidArgument /\
  agrees (programmed 3 (fun _ => 5)) 3 [(x, 5)] /\ verify_trusted (programmed 3 (fun _ => 5)) 4 576 1081 pf = Ok tt.
Proof.
  split; [reflexivity|]. split; [reflexivity|]. split; [reflexivity|]. split; [cbv; discriminate|]. split.
  - intros x Hx E. assert (X : eqmod 23 (576 ^ x) 4). { apply mod_eqmod_iff in E; [|lia]. destruct E as [k Hk]. exists (k * 47). lia. }
    assert (eqmod 23 (576 ^ x) 1). { replace 1 with (1 ^ x) by (apply Z.pow_1_l; exact Hx). apply eqmod_pow. exists 25. reflexivity. }
    rewrite H in X. destruct X as [k Hk]. lia.
  - cbv zeta. split; [vm_compute; reflexivity|]. split; [vm_compute; reflexivity|]. split; [vm_compute; reflexivity|]. split; [vm_compute; reflexivity|]. split; [|vm_compute; reflexivity].
    intros y c [E|[]]. injection E as <- <-. apply programmed_answers; [lia|intros; lia|vm_compute; reflexivity].
Qed.

(** ** Responses of the oblivious function *)

Lemma response_query_response flag C b pk rsp pf rq cm cr x : response_query flag C b pk rsp pf rq cm cr = Ok x ->
  exists s m, x = rsp_hash_input s m /\ ss_par s = bb_par C b /\ ss_request s = rq /\ ss_response s = rsp.
Proof.
  intros E. unfold response_query in E. destruct (negb _); [discriminate|]. destruct (negb _); [discriminate|]. destruct (negb _); [discriminate|].
  apply bind_ok in E. destruct E as (cts & _ & E). apply bind_ok in E. destruct E as (vals & _ & E). apply bind_ok in E. destruct E as (bound & _ & E). destruct (negb _); [discriminate|].
  do 11 (apply bind_ok in E; destruct E as (? & _ & E)). apply ok_inj in E. subst x. do 2 eexists. split; [reflexivity|]. split; [reflexivity|]. split; reflexivity.
Qed.

(** An issuer, even one who knows every key and may question the hash function, who answers an honest request: for at most the fraction (q + 1) / 2^challenge of all answers of
    the hash function to its q questions does it have a response accepted from which the requester extracts anything but the right values. It may choose the response
    to suit the answers. The parameters need one half more room in the plaintext space than Create asks for (see C57), and challenges no longer than the order of the curve. *)
Theorem C75_wrong_response_luck : forall flag C sha512 p b n s g xs ys csk pp num rk ry ek ey pk sk ms rs om or_ e rq pf st,
  ec_laws C -> bb_system flag C p b n s g xs ys csk pp num -> bb_generate_keys flag C b rk ry ek ey = Ok (pk, sk) ->
  Forall (fun x => 0 <= x < ec_order C) ms -> Forall (fun x => 0 <= x < ec_order C) rs -> 0 <= om -> 0 <= or_ ->
  3 * 2 ^ (2 * bp_chal p + 2 * bp_sec p) * ec_order C * ec_order C * ec_order C <= n ^ Z.of_nat s -> 2 ^ bp_chal p <= ec_order C -> bb_int64 p -> rq_int64 rq ->
  let k := of_bytes (bsk_k sk) in let y := of_bytes (bsk_y sk) in
  let cm := commitment (pp_gs pp) (pp_h pp) (pp_n pp) ms om in let cr := commitment (pp_gs pp) (pp_h pp) (pp_n pp) rs or_ in
  bb_request_and_proof flag C sha512 b ms rs pk cm om cr or_ e = Ok (rq, pf, st) ->
  rarely_fools (bp_chal p) (fun a => response_query flag C b pk (fst a) (snd a) rq cm cr)
    (fun H a => bb_verify_response flag C H b pk (fst a) (snd a) rq cm cr = Ok tt /\
       ~ exists Ps, bb_extract C (fst a) st = Ok Ps /\ Forall2 (fun mr P => bb_value C (bb_base C b) k y (fst mr) (snd mr) P) (combine ms rs) Ps).
Proof.
  intros flag C sha p b n s g xs ys csk pp num rk ry ek ey pk sk ms rs om or_ e rq pf st L Sy E Hm Hr Hom Hor H3 Hq Ip Ir k y cm cr Er.
  destruct (system_facts _ _ _ _ _ _ _ _ _ _ _ _ L Sy) as [Epar _ _ _ _ _ _ _ _ _ _ _ _ Hch _ _]. subst p. assert (Hc : 0 <= bp_chal (bb_par C b)) by lia.
  apply one_answer_rarely_fools; [exact Hc| |].
  - intros H [rsp rp] [V _]. cbn [fst snd] in *. apply C57_accepts in V; [|exact Hc]. destruct V as (x & Ex & _). exists x. exact Ex.
  - intros x H1 [rsp1 pf1] c1 H2 [rsp2 pf2] c2 Q1 Q2 [V1 W1] [V2 W2] R1 R2. cbn [fst snd] in *.
    destruct (response_query_response _ _ _ _ _ _ _ _ _ _ Q1) as (s1 & m1 & X1 & P1 & Rq1 & Rs1). destruct (response_query_response _ _ _ _ _ _ _ _ _ _ Q2) as (s2 & m2 & X2 & P2 & Rq2 & Rs2).
    assert (Es : s1 = s2 /\ m1 = m2) by (apply C51_response_challenge_binding; congruence). destruct Es as [Es _]. assert (rsp2 = rsp1) by congruence. clear Rs1 Rs2. subst rsp2.
    destruct (proj1 (C57_accepts _ _ _ _ _ _ _ _ _ _ Hc) V1) as (x1 & Y1 & Z1). destruct (proj1 (C57_accepts _ _ _ _ _ _ _ _ _ _ Hc) V2) as (x2 & Y2 & Z2).
    assert (x1 = x) by congruence. assert (x2 = x) by congruence. subst x1 x2.
    assert (C1 : of_bytes (sp_challenge pf1) = c1) by congruence. assert (C2 : of_bytes (sp_challenge pf2) = c2) by congruence.
    assert (B1 : 0 <= c1 < 2 ^ bp_chal (bb_par C b)) by (eapply ro_pow2_range; [exact (proj1 Hch)|exact R1]).
    assert (B2 : 0 <= c2 < 2 ^ bp_chal (bb_par C b)) by (eapply ro_pow2_range; [exact (proj1 Hch)|exact R2]).
    destruct (Z.eq_dec c1 c2) as [|Hne]; [assumption|exfalso]. apply W1.
    apply (C57_response_sound flag C sha H1 H2 (bb_par C b) b n s g xs ys csk pp num rk ry ek ey pk sk ms rs om or_ e rq pf st rsp1 pf1 pf2 x L Sy E Hm Hr Hom Hor H3 Er V1 V2 Q1 Q2).
    rewrite C1, C2. intros H0. apply Z.mod_divide in H0; [|lia]. destruct H0 as [j Hj]. assert (j = 0) by nia. nia.
Qed.
Print Assumptions C75_wrong_response_luck.

(** The hypotheses are met (the request of [C57_response_sound_ex]; Create's parameters and keys by [exb_system]), and lucky issuers exist: a response with two values swapped and a proof
    made for the challenge 0 without any secret, accepted when the hash function answers 0 and not when it answers 1; the requester extracts other points. *)
Example C75_ex : 3 * 2 ^ (2 * bp_chal exb_p + 2 * bp_sec exb_p) * 79 * 79 * 79 <= 77 ^ 4 /\ 2 ^ bp_chal exb_p <= 79 /\ bb_int64 exb_p /\
  exb_keys (fun b csk pk sk => let ms := [5; 20; 33] in let rs := [7; 0; 78] in let cm := exb_com ms 50 in let cr := exb_com rs 60 in
  let* x := exb_request ms rs (exb_e 3) b pk in let rq := fst (fst x) in
  let* z := bb_respond false toy (const_hash x35) b rq pk cm cr csk {| s_open := 3; s_betas := fun i => 100 + Z.of_nat i; s_xs := fun i => 500; s_dopen := 99 |} in
  let rsp := rev (fst z) in
  let pf := {| sp_betas := [x01]; sp_challenge := []; sp_xs := sp_xs (snd z); sp_mbetas := [[x05]; [x06]; [x07]]; sp_open := [x09] |} in
  let* good := bb_extract toy (fst z) (snd x) in let* bad := bb_extract toy rsp (snd x) in
  Ok (is_ok (bb_verify_response false toy (const_hash x35) b pk rsp pf rq cm cr), is_ok (bb_verify_response false toy (const_hash x70) b pk rsp pf rq cm cr), map (fun pq => peqb toy (fst pq) (snd pq)) (combine good bad), rq_num rq))
  = Ok (true, false, [false; true; false], 3%nat).
Proof. split; [vm_compute; discriminate|]. split; [vm_compute; discriminate|]. split; [unfold bb_int64, exb_p; cbn [bp_sec bp_chal bp_cs pp_s]; lia|]. vm_compute. reflexivity. Qed.
