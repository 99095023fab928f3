(** Theorems on everything an issuer of signatures learns from a request (C71). *)
From Coq Require Import Znumtheory.
From Verif Require Import Base M_BigNum M_Num M_EC M_Proto M_CS M_Pedersen M_VRF M_BB S_CS S_Pedersen S_BB S_Hide S_HideBB S_HideMask S_HideView L_BigNum L_Num L_Mod L_DJ L_CS L_EC L_Cipher L_Protocol
  L_Toy L_Pedersen L_VRF L_BBct L_BBhom L_BBped L_BBreq L_BBrsp L_BB L_Hide L_HideRsp L_HideReq L_HideMix L_HideMask L_HideView P_CS P_Pedersen P_BB P_Hide P_HideBB P_HideCom P_HideMask.

Lemma logs_of h n gs : powers_of h n gs -> exists gl, nonneg gl /\ gs = map (fun a => h ^ a mod n) gl.
Proof. induction 1 as [|x gs (a & Ha & ->) F (gl & Ngl & ->)]; [exists []; split; [constructor|reflexivity]|]. exists (a :: gl). split; [constructor; assumption|reflexivity]. Qed.

(** Let the Pedersen bases be powers of h (as those made by GenerateParameters are, C66), let the orders of h and of g divide [hord] and [gord], and let the openings
    (drawn below the Pedersen modulus) and the encryption randomness (drawn below n) cover whole periods of them up to fractions v / 2^t and u / 2^t, with
    t = challenge + security length.  Then all that the issuer sees of a request for m messages in k ciphertexts - the commitments to the messages and the nonces,
    the ciphertexts, the commitments and responses of the proof - looks like the simulated view, which is made from the public parameters and the hash answer c alone.
    No test tells them apart in more than a fraction (7 m + 7 + k) / 2^security + ((m + 5) v + m + k u) / 2^t of all draws, plus the fraction of draws with unusable
    encryption randomness.  The test may use anything fixed before the draws, for example the issuer's secret keys, the messages or the nonces. *)
Theorem C71_view_hides : forall flag C sha512 p b n s g xs ys csk pp num rk ry ek ey pk sk ms rs c gord u hord v,
  ec_laws C -> bb_system flag C p b n s g xs ys csk pp num -> bb_generate_keys flag C b rk ry ek ey = Ok (pk, sk) ->
  (length ms <= length (pp_gs pp))%nat -> length rs = length ms -> Forall (fun x => 0 <= x < ec_order C) ms -> Forall (fun x => 0 <= x < ec_order C) rs ->
  let key := of_bytes (bsk_k sk) in let y := of_bytes (bsk_y sk) in
  (forall m r, In (m, r) (combine ms rs) -> (m + key + y * r) mod ec_order C <> 0) ->
  let m := length ms in let k := num_cts (length ys) m in let t := bp_chal p + bp_sec p in
  g ^ gord mod n ^ (Z.of_nat s + 1) = 1 -> nearly_periods t u gord n ->
  powers_of (pp_h pp) (pp_n pp) (pp_gs pp) -> pp_h pp ^ hord mod pp_n pp = 1 -> nearly_periods t v hord (pp_n pp) ->
  oracle_says sha512 (bp_chal p) c ->
  within_distance_but (Z.of_nat (7 * m + 7 + k) * 2 ^ bp_chal p + (Z.of_nat (m + 5) * v + (Z.of_nat m + Z.of_nat k * u))) t (view_bounds C b m k) (unusable_view n m k)
    (issuer_view flag C sha512 b ms rs pk k) (simulated_view (pp_h pp) (pp_n pp) n s g ys (ec_order C) m k c).
Proof.
  intros flag C sha p b n s g xs ys csk pp num rk ry ek ey pk sk ms rs c gord u hord v L Sy E Hl Lr Hm Hr key y Hdf m k t Ho Hper Hpow Hh Hperv HO.
  destruct (system_facts _ _ _ _ _ _ _ _ _ _ _ _ L Sy) as [sf_par0 sf_pp0 sf_W0 sf_g0 sf_k0 sf_ys0 sf_len0 sf_sv0 sf_sp0 sf_sx0 sf_po0 sf_un0 sf_sec0 sf_chal0 sf_base0 sf_bound0].
  assert (Eg : cs_g (bb_cs C b) = g).
  { destruct Sy as [K _ Ep _ _ _ _ _]. destruct (keypair_ranges _ _ _ _ _ K) as (_ & Ry & _). apply (cs_public_inv flag n s (ck_gt _ _ _ _ _ K) (ck_odd _ _ _ _ _ K) g ys _ (ck_g _ _ _ _ _ K) Ry Ep). }
  subst p pp. assert (El : cs_len (bb_cs C b) = length ys) by (unfold cs_len; rewrite sf_ys0; reflexivity).
  destruct (keys_inv flag C b n s xs sf_W0 sf_g0 sf_k0 L rk ry ek ey pk sk E) as (Rk & Ry & keys & ok & oy & Ep & Hok & Hoy & K1 & K2). fold key in Rk, K1. fold y in Ry, K2.
  pose proof (proj1 Hper) as Ho0. pose proof (proj1 Hperv) as Hh0. destruct (logs_of _ _ _ Hpow) as (gl & Ngl & Egl). unfold k, m in *. rewrite <- El in *. rewrite <- sf_ys0 in *. rewrite <- Eg in *.
  assert (Rk' : 0 <= key < ec_order C) by lia. assert (Ry' : 0 <= y < ec_order C) by lia.
  apply (view_hides flag C sha b n s xs sf_W0 sf_g0 sf_k0 sf_len0 ok oy key y Hok Hoy Rk' Ry' sf_po0 L sf_sec0 sf_chal0 pk keys Ep K1 K2 gord Ho0 Ho gl Ngl Egl hord Hh0 Hh c HO ms rs Hl Lr Hm Hr); [|exact Hperv|exact Hper].
  intros j Hj. unfold vv. apply Hdf. rewrite <- combine_nth by (symmetry; exact Lr). apply nth_In. rewrite combine_length. lia.
Qed.
Print Assumptions C71_view_hides.

(** So the issuer cannot tell requests for different messages or nonces apart. *)
Theorem C71_same_for_all_messages : forall flag C sha512 p b n s g xs ys csk pp num rk ry ek ey pk sk ms rs ms' rs' c gord u hord v,
  ec_laws C -> bb_system flag C p b n s g xs ys csk pp num -> bb_generate_keys flag C b rk ry ek ey = Ok (pk, sk) ->
  (length ms <= length (pp_gs pp))%nat -> length rs = length ms -> length ms' = length ms -> length rs' = length ms ->
  Forall (fun x => 0 <= x < ec_order C) (ms ++ rs ++ ms' ++ rs') ->
  let key := of_bytes (bsk_k sk) in let y := of_bytes (bsk_y sk) in
  (forall m r, In (m, r) (combine ms rs ++ combine ms' rs') -> (m + key + y * r) mod ec_order C <> 0) ->
  let m := length ms in let k := num_cts (length ys) m in let t := bp_chal p + bp_sec p in
  g ^ gord mod n ^ (Z.of_nat s + 1) = 1 -> nearly_periods t u gord n ->
  powers_of (pp_h pp) (pp_n pp) (pp_gs pp) -> pp_h pp ^ hord mod pp_n pp = 1 -> nearly_periods t v hord (pp_n pp) ->
  oracle_says sha512 (bp_chal p) c ->
  let num := Z.of_nat (7 * m + 7 + k) * 2 ^ bp_chal p + (Z.of_nat (m + 5) * v + (Z.of_nat m + Z.of_nat k * u)) in
  let bounds := view_bounds C b m k in
  forall test : outcome (Z * Z * bb_request * req_proof) -> bool,
  2 ^ t * Z.abs (count bounds (fun ds => test (issuer_view flag C sha512 b ms rs pk k ds)) - count bounds (fun ds => test (issuer_view flag C sha512 b ms' rs' pk k ds))) <=
  2 * (num * tuples bounds + 2 ^ t * count bounds (unusable_view n m k)).
Proof.
  intros flag C sha p b n s g xs ys csk pp num0 rk ry ek ey pk sk ms rs ms' rs' c gord u hord v L Sy E Hl Lr Lm' Lr' HF key y Hdf m k t Ho Hper Hpow Hh Hperv HO num bounds test.
  apply Forall_app in HF. destruct HF as [F1 HF]. apply Forall_app in HF. destruct HF as [F2 HF]. apply Forall_app in HF. destruct HF as [F3 F4].
  pose proof (C71_view_hides flag C sha p b n s g xs ys csk pp num0 rk ry ek ey pk sk ms rs c gord u hord v L Sy E Hl Lr F1 F2
    ltac:(intros a r Hin; apply Hdf, in_or_app; left; exact Hin) Ho Hper Hpow Hh Hperv HO test) as D1.
  pose proof (C71_view_hides flag C sha p b n s g xs ys csk pp num0 rk ry ek ey pk sk ms' rs' c gord u hord v L Sy E ltac:(lia) ltac:(lia) F3 F4
    ltac:(intros a r Hin; apply Hdf, in_or_app; right; exact Hin)) as D2. cbv zeta in D2. rewrite Lm' in D2. specialize (D2 Ho Hper Hpow Hh Hperv HO test).
  set (B := num * tuples bounds + 2 ^ t * count bounds (unusable_view n m k)).
  set (x := count bounds (fun ds => test (issuer_view flag C sha b ms rs pk k ds))). set (x' := count bounds (fun ds => test (issuer_view flag C sha b ms' rs' pk k ds))).
  set (z := count bounds (fun ds => test (simulated_view (pp_h pp) (pp_n pp) n s g ys (ec_order C) m k c ds))).
  assert (D1' : 2 ^ t * Z.abs (x - z) <= B) by exact D1. assert (D2' : 2 ^ t * Z.abs (x' - z) <= B) by exact D2.
  clearbody B x x' z t. clear - D1' D2'. assert (Q : 2 ^ t * Z.abs (x - x') <= 2 ^ t * Z.abs (x - z) + 2 ^ t * Z.abs (x' - z)); [|lia]. rewrite <- Z.mul_add_distr_l. apply Z.mul_le_mono_nonneg_l; [apply Z.pow_nonneg; lia|lia].
Qed.
Print Assumptions C71_same_for_all_messages.

(** Unusable draws are rare: if n is the product of two primes, at most a fraction 2 k (1 / p1 + 1 / p2) of all draws, for k ciphertexts. *)
Theorem C71_rarely_unusable : forall C (b : bb C) p1 p2 m k, ec_laws C -> 0 <= bp_chal (bb_par C b) + bp_sec (bb_par C b) -> 0 <= pp_n (pd_par (bb_ped C b)) ->
  prime p1 -> prime p2 -> cs_n (bb_cs C b) = p1 * p2 ->
  p1 * p2 * count (view_bounds C b m k) (unusable_view (p1 * p2) m k) <= 2 * Z.of_nat k * (p1 + p2) * tuples (view_bounds C b m k).
Proof.
  intros C b p1 p2 m k L Ht HN P1 P2 En. pose proof (order_gt1 C L) as Hq. pose proof (prime_ge_2 _ P1) as H1. pose proof (prime_ge_2 _ P2) as H2.
  set (T := 2 ^ (bp_chal (bb_par C b) + bp_sec (bb_par C b))). assert (T0 : 0 < T) by (apply Z.pow_pos_nonneg; lia). set (n := p1 * p2) in *. assert (Hn : 0 < n) by (unfold n; apply Z.mul_pos_pos; lia).
  set (q := ec_order C) in *. set (N := pp_n (pd_par (bb_ped C b))) in *.
  set (open := N * T). set (A := repeat N (m + 5) ++ repeat (q - 1) m ++ repeat (q * q * T) m).
  set (D := repeat (q * T) m ++ repeat (q * T) m ++ repeat (q * T) m ++ repeat open m ++ repeat (q * q * T * T) m ++ repeat (q * T * q) m ++ repeat (q * T * q) m ++
    [open; open; open; open * q * Z.of_nat (m + 1); open; open * q * Z.of_nat (m + 1); open]).
  assert (EV : view_bounds C b m k = A ++ repeat n k ++ D ++ repeat (n * T) k).
  { unfold view_bounds, mask_bounds, request_bounds, A, D, open. cbv zeta. rewrite En. rewrite <- !app_assoc. reflexivity. }
  assert (NA : Forall (fun x => 0 <= x) A) by (unfold A; repeat (apply Forall_app; split); apply Forall_repeat; first [lia|repeat apply Z.mul_nonneg_nonneg; lia]).
  assert (ND : Forall (fun x => 0 <= x) D).
  { unfold D, open. repeat (apply Forall_app; split); try (apply Forall_repeat; repeat apply Z.mul_nonneg_nonneg; lia). repeat constructor; repeat apply Z.mul_nonneg_nonneg; lia. }
  assert (Nn : Forall (fun x => 0 <= x) (repeat n k)) by (apply Forall_repeat; lia). assert (Nt : Forall (fun x => 0 <= x) (repeat (n * T) k)) by (apply Forall_repeat; apply Z.mul_nonneg_nonneg; lia).
  assert (LA : length A = (3 * m + 5)%nat) by (unfold A; rewrite !app_length, !repeat_length; lia). assert (LD : length D = (7 * m + 7)%nat) by (unfold D; rewrite !app_length, !repeat_length; cbn [length]; lia).
  rewrite EV. clearbody A D. clear EV En. set (ok := usable_b n).
  set (f := fun ds => negb (forallb ok (part (length A) (length (repeat n k)) ds))). set (g := fun ds => negb (forallb ok (part (length (A ++ repeat n k ++ D)) (length (repeat (n * T) k)) ds))).
  assert (E : forall ds, unusable_view n m k ds = f ds || g ds).
  { intros ds. unfold unusable_view, unusable_mask, unusable_draw, mask_part, proof_part, f, g. rewrite !part_part by lia. rewrite !app_length, LA, LD, !repeat_length.
    replace (3 * m + 5 + (k + (7 * m + 7)))%nat with (3 * m + 5 + k + (7 * m + 7))%nat by lia. replace (m + 5 + 2 * m)%nat with (3 * m + 5)%nat by lia. reflexivity. }
  rewrite (count_ext _ (unusable_view n m k) (fun ds => f ds || g ds)) by (intros; apply E). pose proof (count_or (A ++ repeat n k ++ D ++ repeat (n * T) k) f g) as Q.
  assert (Ef : count (A ++ repeat n k ++ D ++ repeat (n * T) k) f = tuples A * (count (repeat n k) (fun ds => negb (forallb ok ds)) * tuples (D ++ repeat (n * T) k))).
  { apply (count_block A (repeat n k) (D ++ repeat (n * T) k) (fun ds => negb (forallb ok ds)) NA Nn). apply Forall_app. split; assumption. }
  assert (Eg : count (A ++ repeat n k ++ D ++ repeat (n * T) k) g = tuples (A ++ repeat n k ++ D) * count (repeat (n * T) k) (fun ds => negb (forallb ok ds))).
  { pose proof (count_block (A ++ repeat n k ++ D) (repeat (n * T) k) [] (fun ds => negb (forallb ok ds)) ltac:(apply Forall_app; split; [exact NA|apply Forall_app; split; assumption]) Nt ltac:(constructor)) as Q1.
    rewrite app_nil_r, <- !app_assoc in Q1. unfold g. rewrite Q1. cbn [tuples fold_right]. rewrite Z.mul_1_r. reflexivity. }
  rewrite Ef, Eg in Q. rewrite !tuples_app in *.
  pose proof (rare_block n ok k Hn) as R1. pose proof (rare_block (n * T) ok k ltac:(apply Z.mul_pos_pos; lia)) as R2.
  pose proof (unusable_count p1 p2 1 P1 P2 ltac:(lia)) as U1. pose proof (unusable_count p1 p2 T P1 P2 ltac:(lia)) as U2. fold n in U1, U2. rewrite !Z.mul_1_r in U1. fold ok in U1, U2.
  pose proof (tuples_nonneg _ NA) as TA. pose proof (tuples_nonneg _ ND) as TD. pose proof (tuples_nonneg _ Nn) as Tn. pose proof (tuples_nonneg _ Nt) as Tt.
  set (c1 := count (repeat n k) _) in *. set (c2 := count (repeat (n * T) k) _) in *. set (b1 := count [n] _) in *. set (b2 := count [n * T] _) in *.
  set (tA := tuples A) in *. set (tD := tuples D) in *. set (tn := tuples (repeat n k)) in *. set (tt := tuples (repeat (n * T) k)) in *. set (K := Z.of_nat k). assert (HK : 0 <= K) by (unfold K; lia). fold K in R1, R2.
  assert (R1' : n * c1 <= K * (p1 + p2) * tn) by (etransitivity; [exact R1|]; apply Z.mul_le_mono_nonneg_r; [exact Tn|]; apply Z.mul_le_mono_nonneg_l; assumption).
  assert (R2' : n * c2 <= K * (p1 + p2) * tt).
  { apply (Z.mul_le_mono_pos_l _ _ T T0). transitivity (n * T * c2); [apply Z.eq_le_incl; ring|]. etransitivity; [exact R2|]. transitivity (K * ((p1 + p2) * T) * tt); [|apply Z.eq_le_incl; ring].
    apply Z.mul_le_mono_nonneg_r; [exact Tt|]. apply Z.mul_le_mono_nonneg_l; assumption. }
  transitivity (n * (tA * (c1 * (tD * tt)) + tA * (tn * tD) * c2)); [apply Z.mul_le_mono_nonneg_l; [lia|exact Q]|].
  transitivity (tA * tD * tt * (n * c1) + tA * tn * tD * (n * c2)); [apply Z.eq_le_incl; ring|].
  transitivity (tA * tD * tt * (K * (p1 + p2) * tn) + tA * tn * tD * (K * (p1 + p2) * tt)); [|apply Z.eq_le_incl; ring].
  apply Z.add_le_mono; apply Z.mul_le_mono_nonneg_l; try assumption; repeat apply Z.mul_nonneg_nonneg; assumption.
Qed.
Print Assumptions C71_rarely_unusable.

(** A case that meets the hypotheses: as C70_ex, with the Pedersen modulus 2^33 - 1, h = 2 of order 33 and the bases 2^3 and 2^7. *)
Definition exi_pp : ped_params := {| pp_gs := [8; 128]; pp_h := 2; pp_n := 8589934591 |}.
Definition exi_ds : list Z := [50; 60; 70; 80; 90; 100] ++ [10; 20; 30] ++ repeat 5 15.
Example C71_ex : exists b csk pk sk vw,
  bb_system false toy exm_p b 77 6 exm_g [3; 4] exm_ys csk exi_pp 2 /\ bb_generate_keys false toy b 1000 2000 (fun _ => [5]) (fun _ => [2]) = Ok (pk, sk) /\
  (5 + of_bytes (bsk_k sk) + of_bytes (bsk_y sk) * 7) mod ec_order toy <> 0 /\ num_cts (length exm_ys) 1 = 1%nat /\
  exm_g ^ 15 mod 77 ^ (Z.of_nat 6 + 1) = 1 /\ nearly_periods 6 2 15 77 /\
  powers_of (pp_h exi_pp) (pp_n exi_pp) (pp_gs exi_pp) /\ pp_h exi_pp ^ 33 mod pp_n exi_pp = 1 /\ nearly_periods 6 1 33 (pp_n exi_pp) /\ oracle_says ask_one (bp_chal exm_p) 1 /\
  issuer_view false toy ask_one b [5] [7] pk 1 exi_ds = Ok vw.
Proof.
  set (run := fun (A : Type) (k : cs_public -> cs_private -> pedersen -> bb toy -> bb_public * bb_private -> Z * Z * bb_request * req_proof -> outcome A) =>
    let* cs := cs_public_create false 77 6 exm_g exm_ys in let* csk := cs_private_create false 77 6 exm_g exm_ys [3; 4] in let* pd := ped_create exi_pp 2 in let* b := bb_create toy exm_p cs pd in
    let* keys := bb_generate_keys false toy b 1000 2000 (fun _ => [5]) (fun _ => [2]) in
    let* x := issuer_view false toy ask_one b [5] [7] (fst keys) 1 exi_ds in k cs csk pd b keys x).
  assert (E : run bool (fun _ _ _ _ keys _ => Ok ((5 + of_bytes (bsk_k (snd keys)) + of_bytes (bsk_y (snd keys)) * 7) mod ec_order toy =? 0)) = Ok false) by (vm_compute; reflexivity).
  unfold run in E.
  apply bind_ok in E. destruct E as (cs & E1 & E). apply bind_ok in E. destruct E as (csk & E2 & E). apply bind_ok in E. destruct E as (pd & E3 & E).
  apply bind_ok in E. destruct E as (b & E4 & E). apply bind_ok in E. destruct E as ([pk sk] & E5 & E). apply bind_ok in E. destruct E as (vw & E6 & E).
  cbn [fst snd] in E, E6.
  assert (Q : bb_cs toy b = cs /\ bb_ped toy b = pd).
  { clear - E4. unfold bb_create in E4. destruct (bp_sec exm_p <=? 0); [discriminate|]. destruct (bp_chal exm_p <=? 0); [discriminate|]. apply bind_ok in E4. destruct E4 as (bd & _ & E4).
    destruct (cs_n_to_s cs <? bd); [discriminate|]. destruct (pp_n (pd_par pd) <? bd); [discriminate|]. apply bind_ok in E4. destruct E4 as (x & _ & E4).
    assert (Eb : b = {| bb_par := exm_p; bb_base := x; bb_cs := cs; bb_ped := pd |}) by congruence. rewrite Eb. split; reflexivity. }
  destruct Q as [Q1 Q2]. exists b, csk, pk, sk, vw. split.
  - rewrite <- Q1 in E1, E4. rewrite <- Q2 in E3, E4. constructor; [exact exm_keypair|discriminate|exact E1|exact E2| | |exact E4|cbn; lia].
    + split; [cbn; lia|]. split; [left; cbn; lia|exact E3].
    + split; [repeat constructor|reflexivity].
  - split; [exact E5|]. split; [destruct (Z.eqb_spec ((5 + of_bytes (bsk_k sk) + of_bytes (bsk_y sk) * 7) mod ec_order toy) 0) as [|N]; [discriminate|exact N]|].
    split; [reflexivity|]. split; [vm_compute; reflexivity|]. split; [unfold nearly_periods; cbn; lia|]. split; [constructor; [exists 3; split; [lia|reflexivity]|constructor; [exists 7; split; [lia|reflexivity]|constructor]]|].
    split; [reflexivity|]. split; [|split; [exact asks_one|exact E6]]. unfold nearly_periods. cbn [exi_pp pp_n]. change (8589934591 mod 33) with 7. lia.
Qed.
