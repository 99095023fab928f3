(** Theorems on the Dodis-Yampolskiy verifiable random function (C49) and on what its proof challenges hash (C51). *)
From Coq Require Import Znumtheory Zpow_facts.
From Verif Require Import Base M_BigNum M_Num M_Simul M_EC M_Proto M_Pedersen M_Wire M_VRF S_Exp S_Pedersen S_VRF
  L_BigNum L_Num L_Mod L_DJ L_Exp L_CS L_EC L_PaillierKey L_Protocol L_Cipher L_Toy L_Wire L_Pedersen L_VRF P_Pedersen.

(** Entry condition: Create succeeded on these parameters with a created Pedersen object; the challenge length stays within what the
    random oracle supports. *)
Definition vrf_created (C : ec) (p : dy_params) (pp : ped_params) (num : nat) (v : dy_vrf C) : Prop :=
  dy_create C p (dv_ped C v) = Ok v /\ created pp num (dv_ped C v) /\ dp_chal p <= 120000.

Lemma vrf_created_ok C p pp num v : ec_laws C -> vrf_created C p pp num v ->
  dv_par C v = p /\ pd_par (dv_ped C v) = pp /\ ped_ok (dv_ped C v) /\ 0 < dp_sec p /\ 0 < dp_chal p <= 120000 /\ dv_base C v <> pinf C.
Proof.
  intros L (Ec & Hp & Hc). destruct (created_ok _ _ _ Hp) as [Epp O']. unfold dy_create in Ec.
  destruct (Z.leb_spec (dp_sec p) 0); [discriminate|]. destruct (Z.leb_spec (dp_chal p) 0); [discriminate|].
  destruct (point_of_bytes C (dp_base p)) as [g|?| | |] eqn:Eg; try discriminate. cbn [bind] in Ec.
  assert (Ev : v = {| dv_par := p; dv_base := g; dv_ped := dv_ped C v |}) by congruence.
  split; [rewrite Ev; reflexivity|]. split; [exact Epp|]. split; [exact O'|]. split; [lia|]. split; [lia|].
  rewrite Ev. cbn [dv_base]. apply (point_of_bytes_not_inf C L _ _ Eg).
Qed.

(** Create refuses non-positive lengths and base points that do not decode. *)
Theorem C49_create : forall C p pd,
  (0 < dp_sec p /\ 0 < dp_chal p /\ exists g, point_of_bytes C (dp_base p) = Ok g /\
     dy_create C p pd = Ok {| dv_par := p; dv_base := g; dv_ped := pd |}) \/
  ((dp_sec p <= 0 \/ dp_chal p <= 0 \/ forall g, point_of_bytes C (dp_base p) <> Ok g) /\ dy_create C p pd = Err InvalidArgument).
Proof.
  intros C p pd. unfold dy_create. destruct (Z.leb_spec (dp_sec p) 0); [right; split; [lia|reflexivity]|].
  destruct (Z.leb_spec (dp_chal p) 0); [right; split; [lia|reflexivity]|]. unfold point_of_bytes.
  destruct (ec_dec C (dp_base p)) as [g|]; [|right; split; [right; right; discriminate|reflexivity]].
  destruct (is_inf C g); [right; split; [right; right; discriminate|reflexivity]|]. left. split; [assumption|]. split; [assumption|]. exists g. split; reflexivity.
Qed.
Print Assumptions C49_create.

(** ** Evaluation *)

(** Apply computes the function at every message; it fails exactly when the key plus some message is a multiple of the order. *)
Theorem C49_apply : forall C v ms sk, ec_laws C ->
  ((forall m, In m ms -> (of_bytes (dk_key sk) + m) mod ec_order C <> 0) ->
     exists ps, dy_apply C v ms sk = Ok ps /\ Forall2 (vrf_value C (dv_base C v) (of_bytes (dk_key sk))) ms ps) /\
  ((exists m, In m ms /\ (of_bytes (dk_key sk) + m) mod ec_order C = 0) -> dy_apply C v ms sk = Err InvalidArgument).
Proof. intros C v ms sk L. split; [apply apply_ok; exact L|]. intros (m & Hin & H0). apply (apply_err C L v ms sk m); assumption. Qed.
Print Assumptions C49_apply.

(** The value is unique, and for a base other than infinity different messages (modulo the order) have different values. *)
Theorem C49_function : forall C base key m1 m2 P1 P2, ec_laws C -> vrf_value C base key m1 P1 -> vrf_value C base key m2 P2 ->
  (m1 mod ec_order C = m2 mod ec_order C -> P1 = P2) /\
  (base <> pinf C -> P1 = P2 -> m1 mod ec_order C = m2 mod ec_order C).
Proof.
  intros C base key m1 m2 P1 P2 L [N1 E1] [N2 E2]. pose proof (order_gt1 C L) as Hn. split.
  - intros Em. apply (pmul_pt_inj C L (key + m1)); [exact N1|]. rewrite E1, <- E2. apply (pmul_eqmod C L). apply mod_eqmod_iff in Em; [|lia]. rewrite Em. reflexivity.
  - intros Hb ->. assert (P2 <> pinf C) by (intros ->; rewrite (pmul_inf C L) in E2; congruence).
    assert (K : eqmod (ec_order C) (key + m1) (key + m2)) by (apply (pmul_inj C L _ _ P2); [assumption|congruence]).
    apply mod_eqmod_iff; [lia|]. unfold eqmod in *. replace (m1 - m2) with (key + m1 - (key + m2)) by lia. exact K.
Qed.
Print Assumptions C49_function.

(** Concrete instance on the toy curve: parameters, an object, and its keys. *)
Definition ex_dp : dy_params := {| dp_sec := 3; dp_chal := 6; dp_prefix := [x61]; dp_base := ec_enc toy (pgen toy);
  dp_ped := {| ppr_n := [x04; x39]; ppr_gs := [[x09]; [x64]]; ppr_h := [x04] |} |}.
Definition ex_run {A} (k : dy_vrf toy -> outcome A) : outcome A :=
  let* pd := ped_create ex_pp 2 in let* v := dy_create toy ex_dp pd in k v.
Lemma ex_created : exists v, vrf_created toy ex_dp ex_pp 2 v.
Proof.
  destruct ex_pp_created as (pd & Hpd). assert (Eb : point_of_bytes toy (dp_base ex_dp) = Ok (pgen toy)) by (apply (point_of_bytes_enc toy toy_laws); apply (gen_not_inf toy toy_laws)).
  exists {| dv_par := ex_dp; dv_base := pgen toy; dv_ped := pd |}. cbn [dv_ped]. split; [|split; [exact Hpd|cbn; lia]].
  unfold dy_create. rewrite Eb. reflexivity.
Qed.
Example C49_apply_ex :
  match ex_run (fun v => dy_apply toy v [5; 70; 84] {| dk_key := [x0a]; dk_open := [] |}) with
  | Ok [a; b; c] => peqb toy (pmul toy 15 a) (pgen toy) = true /\ peqb toy (pmul toy 80 b) (pgen toy) = true /\ peqb toy a c = true /\ peqb toy a b = false
  | _ => False end /\
  ex_run (fun v => dy_apply toy v [5; 69] {| dk_key := [x0a]; dk_open := [] |}) = Err InvalidArgument.
Proof. split; vm_compute; tauto. Qed.

(** ** Key generation proofs *)

(** Key generation succeeds whatever randomness is drawn; the public key is a commitment to the private key in every slot; the proof verifies. *)
Theorem C49_keys_honest : forall C sha512 p pp num v rk ro rdk rdo, ec_laws C -> vrf_created C p pp num v ->
  Forall (fun g => Z.gcd g (pp_n pp) = 1) (pp_gs pp) -> Z.gcd (pp_h pp) (pp_n pp) = 1 ->
  exists pk sk pf, dy_generate C sha512 v rk ro rdk rdo = Ok (pk, sk, pf) /\
    0 < of_bytes (dk_key sk) < ec_order C /\ 0 <= of_bytes (dk_open sk) < pp_n pp /\
    of_bytes pk = commitment (pp_gs pp) (pp_h pp) (pp_n pp) (repeat (of_bytes (dk_key sk)) (length (pp_gs pp))) (of_bytes (dk_open sk)) /\
    dy_verify_keys C sha512 v pk pf = Ok tt.
Proof.
  intros C sha p pp num v rk ro rdk rdo L Hv Hg Hh. destruct (vrf_created_ok C p pp num v L Hv) as (Ep & Epp & O' & Hs & Hc & _). subst p pp.
  destruct (honest_keys C L sha v O' Hs Hc rk ro rdk rdo (conj Hg Hh)) as (pk & sk & pf & E & K1 & K2 & K3 & A). exists pk, sk, pf. repeat (split; [assumption|]).
  destruct (verify_keys_cases C sha v O' Hs Hc pk pf) as [[_ E']|[NA _]]; [exact E'|contradiction].
Qed.
Print Assumptions C49_keys_honest.

(** Verification of a keys proof, on any input: it answers yes exactly when the masked key is in range and, for the one value d that makes
    the commitment equation hold, the challenge is the hash of the statement and d; otherwise InvalidArgument.  It never aborts. *)
Theorem C49_verify_keys : forall C sha512 p pp num v pk pf, ec_laws C -> vrf_created C p pp num v ->
  let c := of_bytes (kp_challenge pf) in
  let accepts := of_bytes (kp_masked_key pf) <= ec_order C * 2 ^ (dp_chal p + dp_sec p + 1) /\ Z.gcd (of_bytes pk ^ c) (pp_n pp) = 1 /\
    exists d db, 0 <= d < pp_n pp /\ to_bytes d = Ok db /\
      (of_bytes pk ^ c * d) mod pp_n pp =
        commitment (pp_gs pp) (pp_h pp) (pp_n pp) (repeat (of_bytes (kp_masked_key pf)) (length (pp_gs pp))) (of_bytes (kp_masked_open pf)) /\
      random_oracle 512 sha512 (keys_hash_input p pk db) (2 ^ dp_chal p) = Ok c in
  (accepts /\ dy_verify_keys C sha512 v pk pf = Ok tt) \/ (~ accepts /\ dy_verify_keys C sha512 v pk pf = Err InvalidArgument).
Proof.
  intros C sha p pp num v pk pf L Hv c acc. destruct (vrf_created_ok C p pp num v L Hv) as (Ep & Epp & O' & Hs & Hc & _). subst p pp.
  assert (Q : acc <-> exists d, keys_accepts C sha v pk pf d).
  { unfold acc, keys_accepts. fold c. unfold keys_challenge. rewrite lshift_ok by lia. cbn [bind]. rewrite Z.mul_1_l. split.
    - intros (A & B & d & db & D1 & D2 & D3 & D4). exists d. repeat (split; [assumption|]). exists db. split; assumption.
    - intros (d & A & B & D1 & D3 & db & D2 & D4). repeat (split; [assumption|]). exists d, db. repeat (split; [assumption|]). exact D4. }
  rewrite Q. apply verify_keys_cases; assumption.
Qed.
Print Assumptions C49_verify_keys.

(** Soundness: two accepted keys proofs for one public key with the same first message d and challenges whose difference is invertible in
    the exponent group yield one value x committed to in every slot. *)
Theorem C49_keys_soundness : forall C H1 H2 p pp num v pk pf1 pf2 d E, ec_laws C -> vrf_created C p pp num v ->
  let com pf := commitment (pp_gs pp) (pp_h pp) (pp_n pp) (repeat (of_bytes (kp_masked_key pf)) (length (pp_gs pp))) (of_bytes (kp_masked_open pf)) in
  let c1 := of_bytes (kp_challenge pf1) in let c2 := of_bytes (kp_challenge pf2) in
  dy_verify_keys C H1 v pk pf1 = Ok tt -> dy_verify_keys C H2 v pk pf2 = Ok tt ->
  (of_bytes pk ^ c1 * d) mod pp_n pp = com pf1 -> (of_bytes pk ^ c2 * d) mod pp_n pp = com pf2 ->
  1 < E -> Forall (fun g => g ^ E mod pp_n pp = 1) (pp_gs pp) -> pp_h pp ^ E mod pp_n pp = 1 -> of_bytes pk ^ E mod pp_n pp = 1 -> Z.gcd (c1 - c2) E = 1 ->
  exists x y, 0 <= x /\ 0 <= y /\ of_bytes pk mod pp_n pp = commitment (pp_gs pp) (pp_h pp) (pp_n pp) (repeat x (length (pp_gs pp))) y.
Proof.
  intros C H1 H2 p pp num v pk pf1 pf2 d E L Hv com c1 c2 _ _ Q1 Q2 HE Xg Xh Xk G. pose proof Hv as (_ & (HN & _) & _). set (N := pp_n pp) in *. set (ck := of_bytes pk) in *.
  assert (one : forall a, a mod N = 1 -> eqmod N a 1) by (intros a Ha; apply eq_eqmod; rewrite Ha, Z.mod_small by lia; reflexivity).
  assert (P1 : 0 <= c1) by apply of_bytes_nonneg. assert (P2 : 0 <= c2) by apply of_bytes_nonneg.
  destruct (multiplier c1 c2 E HE P1 P2 G) as (u & k & Hu & Hk & Huk & _).
  set (m1 := of_bytes (kp_masked_key pf1)) in *. set (m2 := of_bytes (kp_masked_key pf2)) in *.
  set (r1 := of_bytes (kp_masked_open pf1)) in *. set (r2 := of_bytes (kp_masked_open pf2)) in *.
  assert (0 <= m1) by apply of_bytes_nonneg. assert (0 <= m2) by apply of_bytes_nonneg. assert (0 <= r1) by apply of_bytes_nonneg. assert (0 <= r2) by apply of_bytes_nonneg.
  assert (X : eqmod N ck (raw_commit pp (vscale u (vadd (repeat m1 (length (pp_gs pp))) (vscale (E - 1) (repeat m2 (length (pp_gs pp)))))) (u * (r1 + (E - 1) * r2)))).
  { apply (extract_opening pp ck c1 c2 _ _ r1 r2 E u k); try assumption; try (apply nonneg_repeat; assumption).
    - split; [|apply one; exact Xh]. eapply Forall_impl; [|exact Xg]. intros g Hg. apply one. exact Hg.
    - apply one. exact Xk.
    - fold N. assert (A1 : eqmod N (ck ^ c1 * d) (raw_commit pp (repeat m1 (length (pp_gs pp))) r1)) by (apply mod_eqmod_iff; [lia|exact Q1]).
      assert (A2 : eqmod N (ck ^ c2 * d) (raw_commit pp (repeat m2 (length (pp_gs pp))) r2)) by (apply mod_eqmod_iff; [lia|exact Q2]).
      rewrite <- A1, <- A2. apply eq_eqmod. f_equal. ring. }
  rewrite repeat_extract in X. exists (u * (m1 + (E - 1) * m2)), (u * (r1 + (E - 1) * r2)).
  assert (0 <= (E - 1) * m2) by (apply Z.mul_nonneg_nonneg; lia). assert (0 <= (E - 1) * r2) by (apply Z.mul_nonneg_nonneg; lia).
  split; [apply Z.mul_nonneg_nonneg; lia|]. split; [apply Z.mul_nonneg_nonneg; lia|]. apply eqmod_eq; [lia|]. exact X.
Qed.
Print Assumptions C49_keys_soundness.

(** Instances: an honest key pair verifies and is rejected under another hash; two transcripts with one first message as the soundness
    theorem wants them (253 is an exponent of the bases modulo 1081). *)
Example C49_keys_ex :
  match ex_run (fun v => let* a := dy_generate toy (const_hash x35) v 41 777 12345 67890 in
                         let* b := dy_generate toy (const_hash x53) v 41 777 12345 67890 in Ok (v, a, b)) with
  | Ok (v, (pk1, sk1, pf1), (pk2, sk2, pf2)) =>
      dy_verify_keys toy (const_hash x35) v pk1 pf1 = Ok tt /\ dy_verify_keys toy (const_hash x53) v pk1 pf2 = Ok tt /\
      dy_verify_keys toy (const_hash x53) v pk1 pf1 = Err InvalidArgument /\
      pk1 = pk2 /\ Z.gcd (of_bytes (kp_challenge pf1) - of_bytes (kp_challenge pf2)) 253 = 1 /\
      9 ^ 253 mod 1081 = 1 /\ 100 ^ 253 mod 1081 = 1 /\ 4 ^ 253 mod 1081 = 1 /\ of_bytes pk1 ^ 253 mod 1081 = 1
  | _ => False end.
Proof. vm_compute. tauto. Qed.

(** ** Evaluation proofs *)

(** For a valid key pair, messages below the order, their evaluations and a commitment to them: the prover produces a proof that verifies,
    whatever randomness it draws, unless the dummy value of some message is a multiple of the order, when it reports Internal. *)
Theorem C49_apply_honest : forall C sha512 p pp num v ms evals pk sk com opn rdk rm rdo, ec_laws C -> vrf_created C p pp num v ->
  let key := of_bytes (dk_key sk) in
  0 < key < ec_order C -> of_bytes pk = commitment (pp_gs pp) (pp_h pp) (pp_n pp) (repeat key (length (pp_gs pp))) (of_bytes (dk_open sk)) ->
  Forall (fun m => 0 <= m < ec_order C) ms -> (length ms <= length (pp_gs pp))%nat ->
  dy_apply C v ms sk = Ok evals -> ped_commit_with_rand (dv_ped C v) ms opn = Ok com ->
  exists dkey dms, dummy_values C v ms rdk rm = Ok (dkey, dms) /\ length dms = length (pp_gs pp) /\
    ((forall i, (i < length ms)%nat -> nth i dms 0 mod ec_order C <> 0) ->
       exists pf, dy_prove_apply C sha512 v ms evals pk sk com opn rdk rm rdo = Ok pf /\ dy_verify_apply C sha512 v evals pk com pf = Ok tt) /\
    ((exists i, (i < length ms)%nat /\ nth i dms 0 mod ec_order C = 0) ->
       dy_prove_apply C sha512 v ms evals pk sk com opn rdk rm rdo = Err Internal).
Proof.
  intros C sha p pp num v ms evals pk sk com opn rdk rm rdo L Hv key Hkey Hpk Hms Hlen Eev Ecom.
  destruct (vrf_created_ok C p pp num v L Hv) as (Ep & Epp & O' & Hs & Hc & Hb). subst p pp.
  destruct (commit_inv _ _ _ _ O' Ecom) as [(_ & _ & Hopn) Vcom].
  assert (Hev : Forall2 (vrf_value C (dv_base C v) key) ms evals).
  { destruct (existsb (fun m => (key + m) mod ec_order C =? 0) ms) eqn:Ex.
    - apply existsb_exists in Ex. destruct Ex as (m & Hin & H0). apply Z.eqb_eq in H0. rewrite (apply_err C L v ms sk m Hin H0) in Eev. discriminate.
    - destruct (apply_ok C L v ms sk) as (ps & Eps & Vps); [|assert (ps = evals) by congruence; subst; exact Vps].
      intros m Hin H0. assert (existsb (fun m => (key + m) mod ec_order C =? 0) ms = true); [|congruence]. apply existsb_exists. exists m. split; [exact Hin|]. apply Z.eqb_eq. exact H0. }
  destruct (honest_apply C L sha v O' Hs Hc Hb ms evals pk sk com opn rdk rm rdo Hkey Hms Hlen Hopn Vcom Hpk Hev) as (dkey & dms & Ed & Ld & A & B).
  exists dkey, dms. split; [exact Ed|]. split; [exact Ld|]. split; [|exact B]. intros Hnz. destruct (A Hnz) as (pf & c & dpts & Epf & Acc). exists pf. split; [exact Epf|].
  assert (Hcom : 0 <= com) by (rewrite Vcom; apply Z.mod_pos_bound; destruct O'; lia).
  destruct (verify_apply_cases C L sha v O' Hc evals pk com pf Hcom) as [[_ E]|[NA _]]; [exact E|]. exfalso. apply NA. exists c, dpts. exact Acc.
Qed.
Print Assumptions C49_apply_honest.

(** Verification of an evaluation proof, on any input with a non-negative commitment: the exact acceptance condition; otherwise an error
    status (Internal only if an evaluation is the point at infinity).  It never aborts. *)
Theorem C49_verify_apply : forall C sha512 p pp num v evals pk com pf, ec_laws C -> vrf_created C p pp num v -> 0 <= com ->
  let masked := map of_bytes (ap_masked pf) in
  let accepts := exists c dpts cb,
    (length evals <= length (pp_gs pp))%nat /\ length masked = length (pp_gs pp) /\ length dpts = length evals /\
    Forall (fun P => P <> pinf C) evals /\ parse_point_vector C (ap_points pf) = Ok dpts /\ to_bytes com = Ok cb /\
    random_oracle 512 sha512 (apply_hash_input p pk cb (map (ec_enc C) evals) (ap_commit pf) (ap_points pf)) (2 ^ dp_chal p) = Ok c /\
    Forall (fun m => bit_length m <= bit_length (ec_order C) + dp_chal p + dp_sec p + 2) masked /\
    (forall i e m d, nth_error evals i = Some e -> nth_error masked i = Some m -> nth_error dpts i = Some d ->
       pmul C m e = padd C d (pmul C c (dv_base C v))) /\
    commitment (pp_gs pp) (pp_h pp) (pp_n pp) masked (of_bytes (ap_masked_open pf)) = (of_bytes (ap_commit pf) * (com * of_bytes pk) ^ c) mod pp_n pp in
  (accepts /\ dy_verify_apply C sha512 v evals pk com pf = Ok tt) \/
  (~ accepts /\ (dy_verify_apply C sha512 v evals pk com pf = Err InvalidArgument \/
                 (~ Forall (fun P => P <> pinf C) evals /\ dy_verify_apply C sha512 v evals pk com pf = Err Internal))).
Proof.
  intros C sha p pp num v evals pk com pf L Hv Hcom masked acc. destruct (vrf_created_ok C p pp num v L Hv) as (Ep & Epp & O' & Hs & Hc & Hb). subst p pp.
  assert (Q : acc <-> exists c dpts, apply_accepts C sha v evals pk com pf c dpts).
  { destruct (to_bytes_of com Hcom) as (cb0 & Ecb & _). unfold acc, apply_accepts. cbv zeta. fold masked. unfold apply_challenge. rewrite Ecb. cbn [bind]. split.
    - intros (c & dpts & cb & A1 & A2 & A3 & A4 & A5 & A6 & A7 & A8 & A9 & A10). exists c, dpts. assert (cb = cb0) by congruence. subst cb0.
      rewrite (points_to_proto C L) by exact A4. cbn [bind]. rewrite lshift_ok by lia. cbn [bind]. rewrite Z.mul_1_l. repeat (split; [assumption|]). exact A10.
    - intros (c & dpts & A4 & A1 & A2 & A5 & A3 & A7 & A8 & A9 & A10). rewrite (points_to_proto C L) in A7 by exact A4. cbn [bind] in A7. rewrite lshift_ok in A7 by lia. cbn [bind] in A7. rewrite Z.mul_1_l in A7.
      exists c, dpts, cb0. repeat (split; [assumption || reflexivity|]). exact A10. }
  rewrite Q. apply verify_apply_cases; assumption.
Qed.
Print Assumptions C49_verify_apply.

(** Soundness: two accepted proofs for the same evaluations, key and commitment, with the same first message and challenges whose
    difference is invertible modulo the orders involved, determine values x_i (the committed messages plus the committed key) such that
    every evaluation is g^(1/x_i). *)
Theorem C49_apply_soundness : forall C H1 H2 p pp num v evals pk com cb pf1 pf2 c1 c2 E, ec_laws C -> vrf_created C p pp num v -> 0 <= com ->
  dy_verify_apply C H1 v evals pk com pf1 = Ok tt -> dy_verify_apply C H2 v evals pk com pf2 = Ok tt ->
  ap_commit pf1 = ap_commit pf2 -> ap_points pf1 = ap_points pf2 -> to_bytes com = Ok cb ->
  let input := apply_hash_input p pk cb (map (ec_enc C) evals) (ap_commit pf1) (ap_points pf1) in
  random_oracle 512 H1 input (2 ^ dp_chal p) = Ok c1 -> random_oracle 512 H2 input (2 ^ dp_chal p) = Ok c2 ->
  0 < E -> Forall (fun g => g ^ E mod pp_n pp = 1) (pp_gs pp) -> pp_h pp ^ E mod pp_n pp = 1 -> (com * of_bytes pk) ^ E mod pp_n pp = 1 ->
  Z.gcd (c1 - c2) (E * ec_order C) = 1 ->
  exists xs y, length xs = length (pp_gs pp) /\ 0 <= y /\ Forall (fun x => 0 <= x) xs /\
    (com * of_bytes pk) mod pp_n pp = commitment (pp_gs pp) (pp_h pp) (pp_n pp) xs y /\
    forall i e, nth_error evals i = Some e -> pmul C (nth i xs 0) e = dv_base C v.
Proof.
  intros C H1 H2 p pp num v evals pk com cb pf1 pf2 c1 c2 E L Hv Hcom V1 V2 Eac Eap Ecb input R1 R2 HE Xg Xh Xk G.
  pose proof (order_gt1 C L) as Hn. pose proof Hv as (_ & (HN & _) & _).
  destruct (C49_verify_apply C H1 p pp num v evals pk com pf1 L Hv Hcom) as [[A1 _]|[_ [B|[_ B]]]]; [|congruence|congruence].
  destruct (C49_verify_apply C H2 p pp num v evals pk com pf2 L Hv Hcom) as [[A2 _]|[_ [B|[_ B]]]]; [|congruence|congruence].
  destruct A1 as (c1' & dpts1 & cb1 & L1 & M1 & D1 & _ & P1 & Cb1 & O1 & _ & F1 & W1). destruct A2 as (c2' & dpts2 & cb2 & _ & M2 & D2 & _ & P2 & Cb2 & O2 & _ & F2 & W2).
  assert (cb1 = cb) by congruence. assert (cb2 = cb) by congruence. subst cb1 cb2. rewrite <- Eac, <- Eap in O2. rewrite <- Eap in P2. rewrite <- Eac in W2. fold input in O1, O2.
  assert (c1' = c1) by congruence. assert (c2' = c2) by congruence. assert (dpts2 = dpts1) by congruence. subst c1' c2' dpts2.
  set (N := pp_n pp) in *. set (K := com * of_bytes pk) in *. set (F := E * ec_order C) in *. set (d := of_bytes (ap_commit pf1)) in *.
  set (ms1 := map of_bytes (ap_masked pf1)) in *. set (ms2 := map of_bytes (ap_masked pf2)) in *. set (r1 := of_bytes (ap_masked_open pf1)) in *. set (r2 := of_bytes (ap_masked_open pf2)) in *.
  assert (Nn : forall l, nonneg (map of_bytes l)) by (intros l; apply Forall_forall; intros x Hx; apply in_map_iff in Hx; destruct Hx as (b & <- & _); apply of_bytes_nonneg).
  assert (Hr1 : 0 <= r1) by apply of_bytes_nonneg. assert (Hr2 : 0 <= r2) by apply of_bytes_nonneg.
  destruct (vrf_created_ok C p pp num v L Hv) as (_ & _ & _ & _ & Hch & Hb).
  assert (Hc1 : 0 <= c1) by (apply ro_pow2_range in R1; lia). assert (Hc2 : 0 <= c2) by (apply ro_pow2_range in R2; lia).
  assert (HF : 1 < F) by (clear - HE Hn; unfold F; nia).
  destruct (multiplier c1 c2 F HF Hc1 Hc2 G) as (u & k & Hu & Hk & Huk & Hinv).
  assert (one : forall a, a ^ E mod N = 1 -> eqmod N (a ^ F) 1).
  { intros a Ha. unfold F. rewrite Z.pow_mul_r by lia. rewrite (eqmod_pow N (a ^ E) 1 (ec_order C)); [rewrite Z.pow_1_l by lia; reflexivity|].
    apply eq_eqmod. rewrite Ha, Z.mod_small by lia. reflexivity. }
  set (xs := vscale u (vadd ms1 (vscale (F - 1) ms2))). set (y := u * (r1 + (F - 1) * r2)).
  assert (HF2 : 0 <= (F - 1) * r2) by (apply Z.mul_nonneg_nonneg; lia).
  exists xs, y. split; [unfold xs; rewrite vscale_len, vadd_len, vscale_len, M1, M2; lia|]. split; [apply Z.mul_nonneg_nonneg; lia|].
  split; [apply nonneg_vscale; [exact Hu|]; apply nonneg_vadd; [apply Nn|]; apply nonneg_vscale; [lia|apply Nn]|]. split.
  - apply eqmod_eq; [lia|]. fold (raw_commit pp xs y). apply (extract_opening pp K c1 c2 ms1 ms2 r1 r2 F u k); try assumption; try apply Nn.
    + split; [|apply one; exact Xh]. eapply Forall_impl; [|exact Xg]. intros g Hg. apply one. exact Hg.
    + apply one. exact Xk.
    + fold N. assert (A1 : eqmod N (raw_commit pp ms1 r1) (d * K ^ c1)) by (apply mod_eqmod_iff; [lia|exact W1]).
      assert (A2 : eqmod N (raw_commit pp ms2 r2) (d * K ^ c2)) by (apply mod_eqmod_iff; [lia|exact W2]).
      rewrite A1, A2. apply eq_eqmod. f_equal. ring.
  - intros i e Ee. assert (Hi : (i < length evals)%nat) by (apply nth_error_Some; congruence).
    assert (Em1 : nth_error ms1 i = Some (nth i ms1 0)) by (apply nth_error_nth'; lia). assert (Em2 : nth_error ms2 i = Some (nth i ms2 0)) by (apply nth_error_nth'; lia).
    destruct (nth_error dpts1 i) as [dp|] eqn:Edp; [|apply nth_error_None in Edp; lia].
    specialize (F1 i e _ dp Ee Em1 Edp). specialize (F2 i e _ dp Ee Em2 Edp).
    unfold xs. rewrite vscale_nth, vadd_nth, vscale_nth. set (a := nth i ms1 0) in *. set (b := nth i ms2 0) in *.
    rewrite (pmul_eqmod C L _ (u * (a - b))).
    2:{ assert (Z0 : eqmod (ec_order C) F 0) by (exists E; unfold F; lia). replace (u * (a + (F - 1) * b)) with (u * (a - b) + u * b * F) by ring. rewrite Z0. replace (u * (a - b) + u * b * 0) with (u * (a - b)) by ring. reflexivity. }
    rewrite (pmul_mul C L). replace (pmul C (a - b) e) with (pmul C (c1 - c2) (dv_base C v)).
    2:{ rewrite (pmul_sub C L a b), F1, F2, (pmul_sub C L c1 c2). set (P := pmul C c1 (dv_base C v)). set (Q := pmul C c2 (dv_base C v)).
        rewrite (neg_add C L). rewrite (add_swap C L dp P (pneg C dp) (pneg C Q)). rewrite (padd_neg C L), (padd_inf C L). reflexivity. }
    rewrite <- (pmul_mul C L). rewrite (pmul_eqmod C L _ 1); [apply (pmul_1 C)|].
    apply (eqmod_divide (ec_order C) F); [exists E; unfold F; lia|exact Hinv].
Qed.
Print Assumptions C49_apply_soundness.

(** Instances: honest proofs for two messages under two hash functions share the first message, both verify, and the soundness conditions
    hold; a wrong evaluation, or a proof for another commitment, is rejected; a drawn dummy value that is a multiple of the order. *)
Example C49_apply_proof_ex :
  match ex_run (fun v => let* (pk, sk, kp) := dy_generate toy (const_hash x35) v 41 777 12345 67890 in
                         let* ev := dy_apply toy v [5; 70] sk in
                         let* com := ped_commit_with_rand (dv_ped toy v) [5; 70] 31 in
                         let* a := dy_prove_apply toy (const_hash x35) v [5; 70] ev pk sk com 31 99 (fun i => Z.of_nat i * 1001 + 7) 4242 in
                         let* b := dy_prove_apply toy (const_hash x53) v [5; 70] ev pk sk com 31 99 (fun i => Z.of_nat i * 1001 + 7) 4242 in Ok (v, pk, sk, ev, com, a, b)) with
  | Ok (v, pk, sk, ev, com, a, b) =>
      is_ok (dy_verify_apply toy (const_hash x35) v ev pk com a) = true /\ is_ok (dy_verify_apply toy (const_hash x53) v ev pk com b) = true /\
      is_ok (dy_verify_apply toy (const_hash x53) v ev pk com a) = false /\
      is_ok (dy_verify_apply toy (const_hash x35) v (rev ev) pk com a) = false /\ is_ok (dy_verify_apply toy (const_hash x35) v ev pk (com + 1) a) = false /\
      ap_commit a = ap_commit b /\ ap_points a = ap_points b /\ Z.gcd (26 - 41) (253 * 79) = 1 /\
      (com * of_bytes pk) ^ 253 mod 1081 = 1 /\
      random_oracle 512 (const_hash x35) [] (2 ^ 6) = Ok 26 /\ random_oracle 512 (const_hash x53) [] (2 ^ 6) = Ok 41 /\
      is_ok (dy_prove_apply toy (const_hash x35) v [5; 70] ev pk sk com 31 72 (fun i => 7) 4242) = false
  | _ => False end.
Proof. vm_compute. tauto. Qed.

(** Size mismatches are not checked by the prover: a missing evaluation, or more messages than bases, reads out of bounds. *)
Theorem C49_prover_sizes : forall C sha512 p pp num v ms evals pk sk com opn rdk rm rdo, ec_laws C -> vrf_created C p pp num v ->
  (length evals < length ms <= length (pp_gs pp))%nat \/ (length (pp_gs pp) < length ms <= length evals)%nat ->
  dy_prove_apply C sha512 v ms evals pk sk com opn rdk rm rdo = UB.
Proof.
  intros C sha p pp num v ms evals pk sk com opn rdk rm rdo L Hv Hlen. destruct (vrf_created_ok C p pp num v L Hv) as (Ep & Epp & O' & Hs & Hc & Hb). subst p pp.
  pose proof (order_gt1 C L) as Hn. assert (HN : 1 < pp_n (pd_par (dv_ped C v))) by apply O'. set (p := dv_par C v) in *. set (k := length (pp_gs (pd_par (dv_ped C v)))) in *.
  assert (HT : 0 < 2 ^ (dp_sec p + dp_chal p)) by (apply Z.pow_pos_nonneg; lia). set (B := ec_order C * 2 ^ (dp_sec p + dp_chal p)). assert (HB : 0 < B) by (unfold B; nia).
  unfold dy_prove_apply, apply_message1, dummy_values. fold p. rewrite !lshift_ok by lia. cbn [bind]. fold B. rewrite rand_ok by exact HB. cbn [bind].
  set (dval := fun i => if (i <? length ms)%nat then rm i mod B + rdk mod B else rdk mod B).
  assert (Em : mapM (fun i => if (i <? length ms)%nat then let* d := generate_rand_less_than B (rm i) in Ok (d + rdk mod B) else Ok (rdk mod B)) (seq 0 (num_gs C v)) = Ok (map dval (seq 0 k))).
  { apply mapM_seq. intros i _. unfold dval. destruct (i <? length ms)%nat; [|reflexivity]. rewrite rand_ok by exact HB. reflexivity. }
  rewrite Em. cbn [bind]. rewrite rand_ok by nia. cbn [bind]. assert (Ldm : length (map dval (seq 0 k)) = k) by (rewrite map_length, seq_length; reflexivity).
  assert (Bd : forall raw, 0 <= raw mod B) by (intros raw; apply Z.mod_pos_bound; exact HB).
  rewrite (commit_ok _ _ _ O').
  2:{ split; [lia|]. split; [|apply Z.mod_pos_bound; nia]. apply Forall_forall. intros x Hx. apply in_map_iff in Hx. destruct Hx as (i & <- & _). unfold dval.
      pose proof (Bd (rm i)). pose proof (Bd rdk). destruct (i <? length ms)%nat; lia. }
  cbn [bind].
  match goal with |- context [mapM ?f (seq 0 (length ms))] => assert (Eu : mapM f (seq 0 (length ms)) = UB); [|rewrite Eu; reflexivity]; set (F := f) end.
  set (j := Nat.min (length evals) k). assert (Hj : (j < length ms)%nat) by lia.
  assert (Fj : F j = UB).
  { unfold F. unfold at_index. destruct (nth_error evals j) as [e|] eqn:E1; [|reflexivity]. cbn [bind].
    assert (j < length evals)%nat by (apply nth_error_Some; congruence). replace (nth_error (map dval (seq 0 k)) j) with (@None Z); [reflexivity|]. symmetry. apply nth_error_None. lia. }
  assert (Fi : forall i, (i < j)%nat -> exists P, F i = Ok P).
  { intros i Hi. unfold F. destruct (nth_error evals i) as [e|] eqn:E1; [|apply nth_error_None in E1; lia]. rewrite (at_index_some _ _ _ E1). cbn [bind]. rewrite at_index_ok by lia. cbn [bind]. eexists. reflexivity. }
  replace (length ms) with (j + S (length ms - j - 1))%nat by lia. clear - Fj Fi.
  assert (G : forall s t, (forall i, (s <= i < s + t)%nat -> exists P, F i = Ok P) -> F (s + t)%nat = UB -> forall r, mapM F (seq s (t + S r)) = UB).
  { intros s t. revert s. induction t as [|t IH]; intros s H1 H2 r.
    - rewrite Nat.add_0_r in H2. cbn [Nat.add seq mapM]. rewrite H2. reflexivity.
    - cbn [Nat.add seq mapM]. destruct (H1 s ltac:(lia)) as (P & ->). cbn [bind]. rewrite IH; [reflexivity|intros i Hi; apply H1; lia|]. replace (S s + t)%nat with (s + S t)%nat by lia. exact H2. }
  apply G; [intros i Hi; apply Fi; lia|exact Fj].
Qed.
Print Assumptions C49_prover_sizes.
Example C49_sizes_ex : (length ([] : list (pt toy)) < length [5] <= length (pp_gs ex_pp))%nat /\ (length (pp_gs ex_pp) < length [1; 2; 3] <= length [pgen toy; pgen toy; pgen toy])%nat.
Proof. cbn. lia. Qed.

(** ** C51: what the challenges hash *)

(** The integer fields hold 64-bit values, as the message type makes them. *)
Definition int64_params (p : dy_params) : Prop := - 2 ^ 63 <= dp_sec p < 2 ^ 63 /\ - 2 ^ 63 <= dp_chal p < 2 ^ 63.

Ltac only_tac := first [apply only_bytes|apply only_int|apply only_msg|apply only_rep|apply only_rep_msg].
Ltac above_tac := repeat apply above_app; (eapply only_above; [|only_tac]; lia).
Ltac wf_tac := repeat (apply Forall_app; split); first [apply wf_bytes|apply wf_int|apply wf_msg|apply wf_rep|apply wf_rep_msg]; lia.
(** Splits off the first field of an equality of messages. *)
Ltac peel k E H := apply (split_fields k) in E; [destruct E as [H E]|only_tac|only_tac|above_tac|above_tac].

Lemma wf_ped p : Forall wf_entry (wire_ped p). Proof. unfold wire_ped. wf_tac. Qed.
Lemma wf_dy_params p : Forall wf_entry (wire_dy_params p). Proof. unfold wire_dy_params. wf_tac. Qed.
Lemma wf_vector bs : Forall wf_entry (wire_vector bs). Proof. unfold wire_vector. wf_tac. Qed.
Lemma wf_dy_public pk : Forall wf_entry (wire_dy_public pk). Proof. unfold wire_dy_public. wf_tac. Qed.

Lemma wire_ped_inj p q : wire_ped p = wire_ped q -> p = q.
Proof.
  destruct p as [n1 gs1 h1], q as [n2 gs2 h2]. unfold wire_ped. cbn [ppr_n ppr_gs ppr_h]. intros E. peel 1 E A. peel 2 E B.
  apply f_bytes_inj in A. apply f_bytes_inj in E. apply f_msg_inj in B; [|apply wf_vector|apply wf_vector]. apply f_rep_inj in B. congruence.
Qed.
Lemma wire_dy_params_inj p q : int64_params p -> int64_params q -> wire_dy_params p = wire_dy_params q -> p = q.
Proof.
  destruct p as [s1 c1 x1 b1 d1], q as [s2 c2 x2 b2 d2]. unfold wire_dy_params, int64_params. cbn [dp_sec dp_chal dp_prefix dp_base dp_ped]. intros [P1 P2] [Q1 Q2] E.
  peel 1 E A1. peel 2 E A2. peel 3 E A3. peel 4 E A4. apply f_int_inj in A1; [|assumption|assumption]. apply f_int_inj in A2; [|assumption|assumption].
  apply f_bytes_inj in A3. apply f_bytes_inj in A4. apply f_msg_inj in E; [|apply wf_ped|apply wf_ped]. apply wire_ped_inj in E. congruence.
Qed.

(** The keys-proof challenge: parameters, public key and first message are determined by what is hashed. *)
Theorem C51_keys_challenge_binding : forall p1 pk1 d1 p2 pk2 d2, int64_params p1 -> int64_params p2 ->
  keys_hash_input p1 pk1 d1 = keys_hash_input p2 pk2 d2 -> p1 = p2 /\ pk1 = pk2 /\ d1 = d2.
Proof.
  intros p1 pk1 d1 p2 pk2 d2 I1 I2 E. unfold keys_hash_input in E. apply framed_inj in E; [|unfold keys_statement; wf_tac|unfold keys_statement; wf_tac|wf_tac|wf_tac].
  destruct E as [E Em]. unfold keys_statement in E. peel 1 E A. apply f_msg_inj in A; [|apply wf_dy_params|apply wf_dy_params]. apply wire_dy_params_inj in A; [|assumption|assumption].
  apply f_msg_inj in E; [|apply wf_dy_public|apply wf_dy_public]. apply f_bytes_inj in E. apply f_bytes_inj in Em. tauto.
Qed.
Print Assumptions C51_keys_challenge_binding.

(** The evaluation-proof challenge: parameters, public key, commitment, evaluations and first message are determined by what is hashed. *)
Theorem C51_apply_challenge_binding : forall p1 pk1 com1 ev1 d1 pts1 p2 pk2 com2 ev2 d2 pts2, int64_params p1 -> int64_params p2 ->
  apply_hash_input p1 pk1 com1 ev1 d1 pts1 = apply_hash_input p2 pk2 com2 ev2 d2 pts2 ->
  p1 = p2 /\ pk1 = pk2 /\ com1 = com2 /\ ev1 = ev2 /\ d1 = d2 /\ pts1 = pts2.
Proof.
  intros p1 pk1 com1 ev1 d1 pts1 p2 pk2 com2 ev2 d2 pts2 I1 I2 E. unfold apply_hash_input in E.
  apply framed_inj in E; [|unfold apply_statement; wf_tac|unfold apply_statement; wf_tac|unfold apply_message_1; wf_tac|unfold apply_message_1; wf_tac].
  destruct E as [E Em]. unfold apply_statement in E. unfold apply_message_1 in Em. peel 1 E A1. peel 2 E A2. peel 3 E A3. peel 1 Em B1.
  apply f_msg_inj in A1; [|apply wf_dy_params|apply wf_dy_params]. apply wire_dy_params_inj in A1; [|assumption|assumption].
  apply f_msg_inj in A2; [|apply wf_dy_public|apply wf_dy_public]. apply f_bytes_inj in A2. apply f_bytes_inj in A3. apply f_msg_inj in E; [|apply wf_vector|apply wf_vector].
  apply f_rep_inj in E. apply f_bytes_inj in B1. apply f_msg_inj in Em; [|apply wf_vector|apply wf_vector]. apply f_rep_inj in Em. tauto.
Qed.
Print Assumptions C51_apply_challenge_binding.

(** For points and numbers themselves: evaluations (finite points) and the commitment are determined too. *)
Theorem C51_apply_challenge_values : forall C p1 pk1 c1 ev1 d1 pts1 p2 pk2 c2 ev2 d2 pts2 b1 b2, ec_laws C -> int64_params p1 -> int64_params p2 ->
  Forall (fun P => P <> pinf C) ev1 -> Forall (fun P => P <> pinf C) ev2 -> to_bytes c1 = Ok b1 -> to_bytes c2 = Ok b2 ->
  apply_hash_input p1 pk1 b1 (map (ec_enc C) ev1) d1 pts1 = apply_hash_input p2 pk2 b2 (map (ec_enc C) ev2) d2 pts2 ->
  c1 = c2 /\ ev1 = ev2.
Proof.
  intros C p1 pk1 c1 ev1 d1 pts1 p2 pk2 c2 ev2 d2 pts2 b1 b2 L I1 I2 F1 F2 E1 E2 E. apply C51_apply_challenge_binding in E; [|assumption|assumption].
  destruct E as (_ & _ & Eb & Ev & _). split; [apply (to_bytes_inj c1 c2 b1); congruence|]. revert ev2 F2 Ev. induction F1 as [|P ps HP _ IH]; intros [|Q qs] F2 Ev; try discriminate; [reflexivity|].
  cbn [map] in Ev. inversion F2; subst. assert (A : ec_enc C P = ec_enc C Q /\ map (ec_enc C) ps = map (ec_enc C) qs) by (split; congruence). destruct A as [A1 A2].
  f_equal; [apply (enc_inj C L); assumption|apply IH; assumption].
Qed.
Print Assumptions C51_apply_challenge_values.

(** The two kinds of challenge never hash the same string. *)
Theorem C51_challenges_disjoint : forall p1 pk1 d1 p2 pk2 com2 ev2 d2 pts2,
  keys_hash_input p1 pk1 d1 <> apply_hash_input p2 pk2 com2 ev2 d2 pts2.
Proof.
  intros p1 pk1 d1 p2 pk2 com2 ev2 d2 pts2 E. apply (f_equal (fun l => nth_error l 37)) in E.
  vm_compute in E. discriminate.
Qed.
Print Assumptions C51_challenges_disjoint.

Example C51_ex : int64_params ex_dp /\ keys_hash_input ex_dp [x01] [x02] <> keys_hash_input ex_dp [x01; x02] [] /\
  length (apply_hash_input ex_dp [x01] [x02] [ec_enc toy (pgen toy)] [x03] [[x02]]) = 109%nat.
Proof. split; [unfold int64_params, ex_dp; cbn [dp_sec dp_chal]; lia|]. split; [vm_compute; discriminate|vm_compute; reflexivity]. Qed.
