(** Theorems on what the proofs reveal about the secrets they are made from (C65). *)
From Coq Require Import Znumtheory Zpow_facts.
From Verif Require Import Base M_BigNum M_Num M_Simul M_EC M_Proto M_Pedersen M_Wire M_VRF S_Exp S_Pedersen S_VRF S_Hide
  L_BigNum L_Num L_Mod L_DJ L_Exp L_CS L_EC L_PaillierKey L_Protocol L_Cipher L_Toy L_Wire L_Pedersen L_VRF L_Hide P_Pedersen P_VRF.

(** A constant hash function whose leading k bits after the first are those of c answers c. *)
Lemma oracle_const k c b : 0 < k <= 511 -> 0 <= c < 2 ^ k -> of_bytes b = c * 2 ^ (511 - k) -> oracle_says (fun _ => b) k c.
Proof.
  intros Hk Hc Vb. assert (P2 : 0 < 2 ^ k) by (apply Z.pow_pos_nonneg; lia). assert (Pe : 0 < 2 ^ (511 - k)) by (apply Z.pow_pos_nonneg; lia). set (v := c * 2 ^ (511 - k)) in *. intros x.
  unfold random_oracle. assert (Eb : bit_length (2 ^ k) = k + 1). { unfold bit_length. rewrite Z.abs_eq by lia. destruct (Z.eqb_spec (2 ^ k) 0); [lia|]. rewrite Z.log2_pow2 by lia. reflexivity. }
  rewrite Eb. assert (Ei : ro_iterations 512 (k + 1 + 512) = 2) by (unfold ro_iterations; Z.to_euclidean_division_equations; lia). rewrite Ei.
  change (negb (2 * 512 <? 130048)) with false. cbv iota. change (Z.to_nat 2) with 2%nat. cbn [ro_loop].
  destruct (to_bytes_of 1 ltac:(lia)) as (b1 & E1 & _). destruct (to_bytes_of (1 + 1) ltac:(lia)) as (b2 & E2 & _). rewrite lshift_ok by lia. cbn [bind]. rewrite E1. cbn [bind]. rewrite lshift_ok by lia. cbn [bind]. rewrite E2. cbn [bind]. rewrite Vb.
  unfold bn_rshift. destruct (Z.ltb_spec (2 * 512 - (k + 1 + 512)) 0); [lia|]. cbn [bind]. replace (2 * 512 - (k + 1 + 512)) with (511 - k) by lia. rewrite bn_mod_ok by lia. f_equal.
  replace ((0 * 2 ^ 512 + v) * 2 ^ 512 + v) with (c * (2 ^ 512 + 1) * 2 ^ (511 - k)) by (unfold v; ring). rewrite Z.quot_mul by lia.
  apply (eqmod_mod_small (2 ^ k)); [exact Hc|]. exists (c * 2 ^ (512 - k)). replace (2 ^ 512) with (2 ^ (512 - k) * 2 ^ k) by (rewrite <- Z.pow_add_r by lia; f_equal; lia). ring.
Qed.
(** Every challenge can come up: for lengths up to 511 bits there is, for every c, a hash function that answers c. *)
Lemma oracle_can_say k c : 0 < k <= 511 -> 0 <= c < 2 ^ k -> exists sha, oracle_says sha k c.
Proof.
  intros Hk Hc. assert (Pe : 0 < 2 ^ (511 - k)) by (apply Z.pow_pos_nonneg; lia). destruct (to_bytes_of (c * 2 ^ (511 - k)) ltac:(nia)) as (b & _ & Vb).
  exists (fun _ => b). apply oracle_const; assumption.
Qed.

(** ** The proof that comes with a generated key *)

(** What somebody without the key can produce: the responses are drawn directly. *)
Definition simulated_keys_proof (c : Z) (ds : list Z) : outcome keys_proof :=
  let* cb := to_bytes c in let* mk := to_bytes (nth 0 ds 0) in let* mo := to_bytes (nth 1 ds 0) in
  Ok {| kp_challenge := cb; kp_masked_key := mk; kp_masked_open := mo |}.

(** Whatever the key and its opening, and whatever the challenge c: over the draws of the two dummy values, the published result is within 2 / 2^security
    of one whose proof is simulated without the key. *)
Theorem C65_key_proof_hides : forall C p pp num v rk ro, ec_laws C -> vrf_created C p pp num v ->
  let bounds := [ec_order C * 2 ^ (dp_chal p + dp_sec p); pp_n pp * 2 ^ (dp_chal p + dp_sec p)] in
  exists pk sk, of_bytes (dk_key sk) = generate_private_key C rk /\ of_bytes (dk_open sk) = ro mod pp_n pp /\
    to_bytes (commitment (pp_gs pp) (pp_h pp) (pp_n pp) (repeat (of_bytes (dk_key sk)) (length (pp_gs pp))) (of_bytes (dk_open sk))) = Ok pk /\
    forall sha512 c, oracle_says sha512 (dp_chal p) c -> within_distance 2 (dp_sec p) bounds
    (fun ds => dy_generate C sha512 v rk ro (nth 0 ds 0) (nth 1 ds 0))
    (fun ds => let* pf := simulated_keys_proof c ds in Ok (pk, sk, pf)).
Proof.
  intros C p pp num v rk ro L Hv bounds. destruct (vrf_created_ok C p pp num v L Hv) as (Ep & Epp & PO & Hs & Hch & _). subst p pp.
  set (N := pp_n (pd_par (dv_ped C v))) in *. set (n := ec_order C) in *. assert (HN : 1 < N) by apply PO. pose proof (order_gt1 C L) as Hn. fold n in Hn.
  set (chal := dp_chal (dv_par C v)) in *. set (sec := dp_sec (dv_par C v)) in *.
  set (key := generate_private_key C rk). assert (Hkey : 0 < key < n) by (apply private_key_range; exact L).
  set (o := ro mod N). assert (Ho : 0 <= o < N) by (apply Z.mod_pos_bound; lia).
  set (k := length (pp_gs (pd_par (dv_ped C v)))). set (cm := raw_commit (pd_par (dv_ped C v)) (repeat key k) o mod N). assert (Hcm : 0 <= cm < N) by (apply Z.mod_pos_bound; lia).
  destruct (to_bytes_of cm ltac:(lia)) as (pkb & Epk & Vpk). destruct (to_bytes_of key ltac:(lia)) as (kb & Ek & Vk). destruct (to_bytes_of o ltac:(lia)) as (ob & Eo & Vo).
  exists pkb, {| dk_key := kb; dk_open := ob |}. split; [exact Vk|]. split; [exact Vo|]. cbn [dk_key dk_open]. rewrite Vk, Vo. split; [exact Epk|]. intros sha c HO.
  assert (Hc : 0 <= c < 2 ^ chal) by (apply (ro_pow2_range sha [] chal c); [lia|apply HO]).
  set (T := 2 ^ (chal + sec)) in *. assert (HT : 0 < T) by (apply Z.pow_pos_nonneg; lia).
  set (sim := fun ds => let* pf := simulated_keys_proof c ds in Ok (pkb, {| dk_key := kb; dk_open := ob |}, pf)).
  assert (ET : 2 ^ chal * 2 ^ sec = T) by (unfold T; rewrite Z.pow_add_r by lia; reflexivity). assert (0 < 2 ^ sec) by (apply Z.pow_pos_nonneg; lia).
  assert (K1 : 0 <= key * c) by nia. assert (K2 : 0 <= o * c) by nia.
  eapply distance_ext; [| |apply (shift_close sec bounds [(key * c, 1); (o * c, 1)] sim); [lia|]].
  - intros ds Hl Hr. destruct ds as [|dk [|dop [|? ?]]]; try discriminate Hl. inversion Hr as [|? ? ? ? R1 Hr2]. subst. inversion Hr2 as [|? ? ? ? R2 _]. subst. clear Hr Hr2 Hl.
    unfold sim, simulated_keys_proof. cbn [map fst snd shift nth]. unfold dy_generate. fold key.
    unfold ped_commit. rewrite rand_ok by (fold N; lia). cbn [bind]. fold N. fold o. unfold num_gs. rewrite (commit_ok _ _ _ PO (legal_repeat _ key o ltac:(lia) ltac:(lia))). cbn [bind].
    fold N. fold k. fold cm. rewrite Epk. cbn [bind]. rewrite Ek. cbn [bind]. rewrite Eo. cbn [bind]. fold n. rewrite !lshift_ok by (fold chal sec; lia). cbn [bind]. fold chal sec. fold T.
    rewrite !rand_ok by nia. cbn [bind]. rewrite (Z.mod_small dk), (Z.mod_small dop) by assumption.
    unfold k. rewrite (commit_ok _ _ _ PO (legal_repeat _ dk dop ltac:(lia) ltac:(lia))). cbn [bind]. fold N.
    destruct (to_bytes_of (raw_commit (pd_par (dv_ped C v)) (repeat dk k) dop mod N)) as (db & Ed & _); [apply Z.mod_pos_bound; lia|]. fold k. rewrite Ed. cbn [bind].
    unfold keys_challenge. rewrite lshift_ok by (fold chal; lia). cbn [bind]. fold chal. rewrite Z.mul_1_l, HO. cbn [bind].
    destruct (to_bytes_of c ltac:(lia)) as (cb & Ecb & _). rewrite Ecb. cbn [bind].
    destruct (to_bytes_of (dk + key * c) ltac:(lia)) as (mkb & Emk & _). rewrite Emk. cbn [bind]. destruct (to_bytes_of (dop + o * c) ltac:(lia)) as (mob & Emo & _). rewrite Emo. reflexivity.
  - intros ds _ _. reflexivity.
  - unfold bounds. repeat constructor; cbn [fst snd]; try lia; try nia.
    + rewrite Z.mul_1_l, <- ET. rewrite Z.mul_assoc. apply Z.mul_le_mono_nonneg_r; [lia|]. apply Z.mul_le_mono_nonneg; lia.
    + rewrite Z.mul_1_l, <- ET. rewrite Z.mul_assoc. apply Z.mul_le_mono_nonneg_r; [lia|]. apply Z.mul_le_mono_nonneg; lia.
Qed.
Print Assumptions C65_key_proof_hides.

(** ** The proof that function values are right *)

(** What somebody who only knows the values, the public key and the commitment to the messages can produce for the challenge c: draw the masked values
    and compute the first message from them. *)
Definition simulated_apply_proof (C : ec) (v : dy_vrf C) (evals : list (pt C)) (pk : bytes) (com c : Z) (ds : list Z) : outcome apply_proof :=
  let count := length evals in
  let masked := map (fun i => if (i <? count)%nat then nth (1 + i) ds 0 + nth 0 ds 0 else nth 0 ds 0) (seq 0 (length (pp_gs (pd_par (dv_ped C v))))) in
  let opn := nth (1 + count) ds 0 in
  let* mcom := ped_commit_with_rand (dv_ped C v) masked opn in
  let* both := ped_add (dv_ped C v) com (of_bytes pk) in
  let* bc := ped_multiply (dv_ped C v) both c in
  let* inv := bn_mod_inverse bc (pp_n (pd_par (dv_ped C v))) in
  let* dcom := ped_add (dv_ped C v) inv mcom in
  let* dcb := to_bytes dcom in
  let* dpb := point_vector_to_proto C (map (fun i => padd C (pmul C (nth i masked 0) (nth i evals (pinf C))) (pmul C ((ec_order C - 1) * c) (dv_base C v))) (seq 0 count)) in
  let* mb := bignum_vector_to_proto masked in
  let* mob := to_bytes opn in
  Ok {| ap_commit := dcb; ap_points := dpb; ap_masked := mb; ap_masked_open := mob |}.

(** For all keys, messages and openings: over the draws of the dummy values, the proof is within (messages + 3) / 2^security of the simulated one. *)
Theorem C65_apply_proof_hides : forall C sha512 p pp num v ms evals pk sk com opn c, ec_laws C -> vrf_created C p pp num v ->
  Forall (fun g => Z.gcd g (pp_n pp) = 1) (pp_gs pp) -> Z.gcd (pp_h pp) (pp_n pp) = 1 ->
  let key := of_bytes (dk_key sk) in
  0 < key < ec_order C -> of_bytes (dk_open sk) < pp_n pp -> of_bytes pk = commitment (pp_gs pp) (pp_h pp) (pp_n pp) (repeat key (length (pp_gs pp))) (of_bytes (dk_open sk)) ->
  Forall (fun m => 0 <= m < ec_order C) ms -> (length ms <= length (pp_gs pp))%nat -> opn < pp_n pp ->
  dy_apply C v ms sk = Ok evals -> ped_commit_with_rand (dv_ped C v) ms opn = Ok com ->
  oracle_says sha512 (dp_chal p) c ->
  let mask := 2 ^ (dp_chal p + dp_sec p) in
  within_distance (Z.of_nat (length ms) + 3) (dp_sec p) (ec_order C * mask :: repeat (ec_order C * mask) (length ms) ++ [pp_n pp * mask])
    (fun ds => dy_prove_apply C sha512 v ms evals pk sk com opn (nth 0 ds 0) (fun i => nth (1 + i) ds 0) (nth (1 + length ms) ds 0))
    (fun ds => simulated_apply_proof C v evals pk com c ds).
Proof.
  intros C sha p pp num v ms evals pk sk com opn c L Hv Hg Hh key Hkey Hko1 Hpk Hms Hlen Hopn1 Eev Ecom HO mask.
  destruct (vrf_created_ok C p pp num v L Hv) as (Ep & Epp & PO & Hs & Hch & Hbase). subst p pp.
  destruct (commit_inv _ _ _ _ PO Ecom) as [(_ & _ & Hopn) Vcom].
  assert (Hev : Forall2 (vrf_value C (dv_base C v) key) ms evals).
  { destruct (C49_apply C v ms sk L) as [A B]. destruct (Exists_dec (fun m => (key + m) mod ec_order C = 0) ms (fun m => Z.eq_dec _ _)) as [X|X].
    - apply Exists_exists in X. destruct X as (m & Hin & H0). rewrite (B (ex_intro _ m (conj Hin H0))) in Eev. discriminate.
    - destruct A as (ps & E & F); [intros m Hin H0; apply X, Exists_exists; exists m; split; assumption|]. assert (ps = evals) by congruence. subst ps. exact F. }
  set (pp := pd_par (dv_ped C v)) in *. set (N := pp_n pp) in *. set (n := ec_order C) in *. set (k := length (pp_gs pp)) in *. set (g := dv_base C v) in *. assert (HN : 1 < N) by apply PO. pose proof (order_gt1 C L) as Hn. fold n in Hn.
  set (chal := dp_chal (dv_par C v)) in *. set (sec := dp_sec (dv_par C v)) in *. set (ko := of_bytes (dk_open sk)) in *. assert (Hko : 0 <= ko) by apply of_bytes_nonneg.
  assert (Hc : 0 <= c < 2 ^ chal) by (apply (ro_pow2_range sha [] chal c); [lia|apply HO]).
  assert (ET : 2 ^ chal * 2 ^ sec = mask) by (unfold mask; rewrite Z.pow_add_r by lia; reflexivity). assert (0 < 2 ^ sec) by (apply Z.pow_pos_nonneg; lia). assert (HT : 0 < mask) by (apply Z.pow_pos_nonneg; lia).
  pose proof (Forall2_len _ _ _ Hev) as Lev.
  assert (Eat : forall i, (i < length ms)%nat -> exists e, nth_error evals i = Some e /\ vrf_value C g key (nth i ms 0) e).
  { clear - Hev. induction Hev as [|m e ms' ev' H _ IH]; intros i Hi; cbn [length] in Hi; [lia|]. destruct i as [|i]; [exists e; split; [reflexivity|exact H]|]. apply IH. lia. }
  assert (Enotinf : forall m e, vrf_value C g key m e -> e <> pinf C) by (intros m e [_ E] ->; rewrite (pmul_inf C L) in E; congruence).
  assert (Hevn : Forall (fun P => P <> pinf C) evals) by (clear - Hev Enotinf; induction Hev; constructor; [eapply Enotinf; eassumption|assumption]).
  assert (Hmsn : forall i, 0 <= nth i ms 0 < n).
  { intros i. destruct (Nat.lt_ge_cases i (length ms)) as [D|D]; [|rewrite nth_overflow by exact D; lia]. rewrite Forall_forall in Hms. apply Hms. apply nth_In. exact D. }
  set (wus := (key * c, 1) :: map (fun m => (m * c, 1)) ms ++ [((ko + opn) * c, 2)]).
  set (sim := simulated_apply_proof C v evals pk com c).
  assert (Hu : zsum_list (map snd wus) = Z.of_nat (length ms) + 3).
  { unfold wus. cbn [map snd]. rewrite map_app, map_map. cbn [map snd]. unfold zsum_list. cbn [fold_right].
    assert (E : fold_right Z.add 0 (map (fun _ : Z => 1) ms ++ [2]) = Z.of_nat (length ms) + 2).
    { clear. induction ms as [|m ms IH]; [reflexivity|]. cbn [map app fold_right snd length]. rewrite IH. lia. }
    rewrite E. lia. }
  set (bounds := n * mask :: repeat (n * mask) (length ms) ++ [N * mask]).
  assert (Lb : length bounds = S (S (length ms))) by (unfold bounds; cbn [length]; rewrite app_length, repeat_length; cbn [length]; lia).
  rewrite <- Hu. eapply distance_ext; [| |apply (shift_close sec bounds wus sim); [lia|]].
  2:{ intros ds _ _. reflexivity. }
  2:{ unfold bounds, wus, small_shift. constructor; [cbn [fst snd]; split; [nia|]; split; [lia|]; split; [|nia]; rewrite Z.mul_1_l, <- ET, Z.mul_assoc; apply Z.mul_le_mono_nonneg_r; [lia|]; apply Z.mul_le_mono_nonneg; lia|]. apply Forall2_app.
      - clear - Hms Hc ET H HT Hn. induction Hms as [|m ms Hm _ IH]; [constructor|]. cbn [length repeat map]. constructor; [|exact IH]. cbn [fst snd]. split; [nia|]. split; [lia|]. split; [|nia].
        rewrite Z.mul_1_l, <- ET, Z.mul_assoc. apply Z.mul_le_mono_nonneg_r; [lia|]. apply Z.mul_le_mono_nonneg; lia.
      - constructor; [|constructor]. cbn [fst snd]. split; [nia|]. split; [lia|]. split; [|nia]. rewrite <- ET, !Z.mul_assoc. apply Z.mul_le_mono_nonneg_r; [lia|]. apply Z.mul_le_mono_nonneg; lia. }
  intros ds Hl Hr. rewrite Lb in Hl.
  assert (Hr0 : 0 <= nth 0 ds 0 < n * mask) by (pose proof (draw_range _ _ 0%nat Hr ltac:(lia)) as Q; exact Q).
  assert (Hri : forall i, (i < length ms)%nat -> 0 <= nth (1 + i) ds 0 < n * mask).
  { intros i Hi. pose proof (draw_range _ _ (1 + i)%nat Hr ltac:(lia)) as Q. unfold bounds in Q. cbn [nth Nat.add] in Q. rewrite app_nth1 in Q by (rewrite repeat_length; lia). rewrite repeat_nth in Q. destruct (Nat.ltb_spec i (length ms)); [exact Q|lia]. }
  assert (Hro : 0 <= nth (1 + length ms) ds 0 < N * mask).
  { pose proof (draw_range _ _ (1 + length ms)%nat Hr ltac:(lia)) as Q. unfold bounds in Q. cbn [nth Nat.add] in Q. rewrite app_nth2 in Q by (rewrite repeat_length; lia). rewrite repeat_length, Nat.sub_diag in Q. exact Q. }
  set (dkey := nth 0 ds 0) in *. set (dop := nth (1 + length ms) ds 0) in *. set (draw := fun i => nth (1 + i) ds 0) in *. 
  set (ds' := shift (map fst wus) ds).
  assert (S0 : nth 0 ds' 0 = dkey + key * c) by (unfold ds'; rewrite shift_nth by lia; reflexivity).
  assert (Si : forall i, (i < length ms)%nat -> nth (1 + i) ds' 0 = draw i + nth i ms 0 * c).
  { intros i Hi. unfold ds'. rewrite shift_nth by lia. unfold wus. cbn [map fst nth Nat.add]. rewrite map_app, map_map. cbn [fst]. rewrite app_nth1 by (rewrite map_length; lia).
    rewrite (nth_map _ ms i 0) by exact Hi. reflexivity. }
  assert (So : nth (1 + length ms) ds' 0 = dop + (ko + opn) * c).
  { unfold ds'. rewrite shift_nth by lia. unfold wus. cbn [map fst nth Nat.add]. rewrite map_app, map_map. cbn [fst]. rewrite app_nth2 by (rewrite map_length; lia). rewrite map_length, Nat.sub_diag. reflexivity. }
  set (dval := fun i => if (i <? length ms)%nat then draw i + dkey else dkey).
  assert (Ed : dummy_values C v ms dkey draw = Ok (dkey, map dval (seq 0 k))).
  { unfold dummy_values. fold n chal sec. rewrite lshift_ok by lia. cbn [bind]. replace (2 ^ (sec + chal)) with mask by (unfold mask; f_equal; lia). rewrite rand_ok by nia. cbn [bind]. rewrite Z.mod_small by exact Hr0. unfold num_gs. fold pp k.
    rewrite (mapM_seq _ dval); [reflexivity|]. intros i _. unfold dval. destruct (Nat.ltb_spec i (length ms)); [|reflexivity]. rewrite rand_ok by nia. cbn [bind]. rewrite Z.mod_small by (apply Hri; assumption). reflexivity. }
  set (dms := map dval (seq 0 k)) in *. assert (Ldm : length dms = k) by (unfold dms; rewrite map_length, seq_length; reflexivity).
  assert (Ndm : forall i, (i < k)%nat -> nth i dms 0 = dval i) by (intros i Hi; unfold dms; rewrite seq_map_nth; destruct (Nat.ltb_spec i k); [reflexivity|lia]).
  assert (Bdv : forall i, 0 <= dval i) by (intros i; unfold dval; destruct (Nat.ltb_spec i (length ms)) as [D|D]; [specialize (Hri i D); unfold draw|]; lia).
  assert (Pdm : nonneg dms) by (unfold dms; apply Forall_forall; intros x Hx; apply in_map_iff in Hx; destruct Hx as (i & <- & _); apply Bdv).
  set (dc := raw_commit pp dms dop mod N). assert (Hdc : 0 <= dc < N) by (apply Z.mod_pos_bound; lia).
  set (dpt := fun i => pmul C (dval i) (nth i evals (pinf C))).
  assert (Em1 : apply_message1 C v ms evals dkey draw dop = Ok (dc, map dpt (seq 0 (length ms)), (dms, dkey, dop))).
  { unfold apply_message1. rewrite Ed. cbn [bind]. fold pp N chal sec. rewrite lshift_ok by lia. cbn [bind]. replace (2 ^ (sec + chal)) with mask by (unfold mask; f_equal; lia). rewrite rand_ok by nia. cbn [bind]. rewrite Z.mod_small by exact Hro.
    rewrite (commit_ok _ dms dop PO) by (split; [fold pp k; lia|]; split; [exact Pdm|lia]). cbn [bind]. fold pp N. fold dc.
    rewrite (mapM_seq _ dpt); [reflexivity|]. intros i Hi. destruct (Eat i Hi) as (e & Ee & _). rewrite (at_index_some _ _ _ Ee). cbn [bind].
    rewrite at_index_ok by lia. cbn [bind]. rewrite (point_mul_eq C L). unfold dpt. rewrite Ndm by lia. rewrite (nth_error_nth _ _ _ Ee). reflexivity. }
  unfold sim, simulated_apply_proof, dy_prove_apply. fold ds' key ko. change (fun i => nth (1 + i) ds 0) with draw. fold dkey dop. rewrite Em1. cbn [bind]. fold pp k N n g. rewrite <- Lev.
  set (mval := fun i => if (i <? length ms)%nat then dval i + (nth i ms 0 + key) * c else dkey + key * c).
  assert (Emk : map (fun i => if (i <? length ms)%nat then nth (1 + i) ds' 0 + nth 0 ds' 0 else nth 0 ds' 0) (seq 0 k) = map mval (seq 0 k)).
  { apply map_ext_in. intros i _. unfold mval, dval. destruct (Nat.ltb_spec i (length ms)) as [D|D]; rewrite ?S0, ?Si by exact D; lia. }
  rewrite Emk, So. set (masked := map mval (seq 0 k)).
  assert (Bmv : forall i, 0 <= mval i).
  { intros i. unfold mval. specialize (Bdv i). specialize (Hmsn i). destruct (i <? length ms)%nat; nia. }
  assert (Pm : nonneg masked) by (unfold masked; apply Forall_forall; intros x Hx; apply in_map_iff in Hx; destruct Hx as (i & <- & _); apply Bmv).
  assert (Hmo : 0 <= dop + (ko + opn) * c) by (assert (0 <= (ko + opn) * c) by (apply Z.mul_nonneg_nonneg; lia); lia).
  assert (Lm : length masked = k) by (unfold masked; rewrite map_length, seq_length; reflexivity).
  rewrite (commit_ok _ masked _ PO) by (split; [fold pp k; lia|]; split; [exact Pm|exact Hmo]). cbn [bind]. fold pp N.
  unfold ped_add, ped_multiply. fold pp N. rewrite bn_mod_mul_ok by lia. cbn [bind]. rewrite bn_mod_exp_ok by lia. cbn [bind].
  assert (Nms : nonneg ms) by (eapply Forall_impl; [|exact Hms]; cbn beta; intros; lia). assert (Nk : nonneg (repeat key k)) by (apply nonneg_repeat; lia).
  set (S1 := raw_commit pp ms opn * raw_commit pp (repeat key k) ko).
  assert (ES : eqmod N ((com * of_bytes pk) mod N) S1) by (rewrite eqmod_mod, Vcom, Hpk; unfold commitment; fold pp N; rewrite !eqmod_mod; reflexivity).
  assert (ESc : eqmod N (((com * of_bytes pk) mod N) ^ c) (S1 ^ c)) by (apply eqmod_pow; exact ES).
  assert (GS : Z.gcd (((com * of_bytes pk) mod N) ^ c mod N) N = 1).
  { rewrite (eqmod_eq N _ (S1 ^ c) ltac:(lia) ESc). rewrite Z.gcd_mod by lia. rewrite Z.gcd_comm. apply gcd_pow_l; [lia|]. unfold S1.
    apply Zgcd_1_rel_prime. apply rel_prime_sym. apply rel_prime_mult; apply rel_prime_sym, Zgcd_1_rel_prime; apply raw_commit_unit; (lia || assumption || (split; assumption)). }
  destruct (bn_mod_inverse_ok _ N ltac:(lia) GS) as (inv & Ei & Hi & Ii). rewrite Ei. cbn [bind]. rewrite bn_mod_mul_ok by lia. cbn [bind].
  assert (Emask : masked = vadd dms (vscale c (vadd ms (repeat key k)))).
  { apply (nth_ext _ _ 0 0).
    - rewrite vadd_len, vscale_len, vadd_len, repeat_length. lia.
    - intros i Hi'. rewrite Lm in Hi'. unfold masked. rewrite vadd_nth, vscale_nth, vadd_nth, repeat_nth, seq_map_nth, Ndm by exact Hi'.
      destruct (Nat.ltb_spec i k); [|lia]. unfold mval, dval. destruct (Nat.ltb_spec i (length ms)); [lia|]. rewrite (nth_overflow ms) by lia. lia. }
  assert (Edc : (inv * (raw_commit pp masked (dop + (ko + opn) * c) mod N)) mod N = dc).
  { unfold dc. apply eqmod_eq; [lia|]. rewrite eqmod_mod, Emask. rewrite (Z.mul_comm (ko + opn) c), (Z.add_comm ko opn).
    rewrite raw_commit_add; [|exact Pdm|apply nonneg_vscale; [lia|apply nonneg_vadd; assumption]|lia|apply Z.mul_nonneg_nonneg; lia].
    rewrite raw_commit_scale by (lia || (apply nonneg_vadd; assumption)). rewrite raw_commit_add by (assumption || lia). fold S1.
    assert (Iq : eqmod N (S1 ^ c * inv) 1) by (rewrite <- ESc; rewrite <- (eqmod_mod N (((com * of_bytes pk) mod N) ^ c)); apply eq_eqmod; exact Ii).
    replace (inv * (raw_commit pp dms dop * S1 ^ c)) with (raw_commit pp dms dop * (S1 ^ c * inv)) by ring. rewrite Iq, Z.mul_1_r. reflexivity. }
  rewrite Edc. destruct (to_bytes_of dc ltac:(lia)) as (dcb & Edcb & _). rewrite Edcb. cbn [bind].
  assert (Ept : map (fun i => padd C (pmul C (nth i masked 0) (nth i evals (pinf C))) (pmul C ((n - 1) * c) g)) (seq 0 (length ms)) = map dpt (seq 0 (length ms))).
  { apply map_ext_in. intros i Hi'. apply in_seq in Hi'. destruct (Eat i ltac:(lia)) as (e & Ee & _ & Ve). unfold dpt. rewrite (nth_error_nth _ _ _ Ee). unfold masked. rewrite seq_map_nth. destruct (Nat.ltb_spec i k); [|lia].
    unfold mval. destruct (Nat.ltb_spec i (length ms)); [|lia]. rewrite <- Ve, <- (pmul_mul C L), <- (pmul_add C L). apply (pmul_eqmod C L). fold n. exists ((key + nth i ms 0) * c). ring. }
  rewrite Ept. set (dpts := map dpt (seq 0 (length ms))).
  destruct (all_not_inf_dec C L v Hch dpts) as [Fd|Fd]; [|rewrite (points_to_proto_err C L) by exact Fd; reflexivity].
  rewrite (points_to_proto C L) by exact Fd. cbn [bind].
  assert (Ech : apply_challenge C sha v evals pk com dcb (map (ec_enc C) dpts) = Ok c).
  { assert (Hcom0 : 0 <= com) by (rewrite Vcom; apply Z.mod_pos_bound; lia). unfold apply_challenge. destruct (to_bytes_of com Hcom0) as (cb & Ecb & _). rewrite Ecb. cbn [bind]. rewrite (points_to_proto C L) by exact Hevn. cbn [bind].
    fold chal. rewrite lshift_ok by lia. cbn [bind]. rewrite Z.mul_1_l. apply HO. }
  rewrite Ech. cbn [bind].
  assert (Em2 : apply_message2 C v ms opn key ko dms dkey dop c = Ok (masked, dop + (ko + opn) * c)).
  { unfold apply_message2, num_gs. fold pp k. rewrite (mapM_seq _ mval); [reflexivity|]. intros i Hi'. unfold mval. destruct (Nat.ltb_spec i (length ms)); [|reflexivity].
    rewrite !at_index_ok by lia. cbn [bind]. rewrite Ndm by lia. reflexivity. }
  rewrite Em2. reflexivity.
Qed.
Print Assumptions C65_apply_proof_hides.

(** ** The proofs that commitment parameters were generated correctly *)

(** For the challenge bits c: draw the responses and compute the first messages from them, without knowing the exponent of g. *)
Definition simulated_params_proof (g h n reps c : Z) (ds : list Z) : outcome gen_proof :=
  let* ig := bn_mod_inverse g n in
  Ok {| gp_reps := reps;
        gp_dummy_gs := map (fun i => if Z.testbit c (Z.of_nat i) then (h ^ nth i ds 0 * ig) mod n else h ^ nth i ds 0 mod n) (seq 0 (Z.to_nat reps));
        gp_responses := part 0 (Z.to_nat reps) ds |}.

Lemma combine_seq {A B} (a : nat -> A) (b : nat -> B) (l : list nat) : combine (map a l) (map b l) = map (fun i => (a i, b i)) l.
Proof. induction l as [|x l IH]; [reflexivity|]. cbn [map combine]. rewrite IH. reflexivity. Qed.

Theorem C65_params_proof_hides : forall sha512 g h n r reps zk c,
  1 < n -> 0 <= h -> Z.gcd h n = 1 -> 0 <= r <= n -> g = h ^ r mod n -> 0 < reps <= 120000 -> 0 < zk -> oracle_says sha512 reps c ->
  within_distance reps (zk + 1) (repeat (n * 2 ^ (1 + zk)) (Z.to_nat reps))
    (fun ds => prove_params sha512 g h n r reps zk (fun i => nth i ds 0))
    (fun ds => simulated_params_proof g h n reps c ds).
Proof.
  intros sha g h n r reps zk c Hn Hh G Hr Hg Hreps Hzk HO. set (B := n * 2 ^ (1 + zk)). set (m := Z.to_nat reps).
  assert (P1 : 0 < 2 ^ (1 + zk)) by (apply Z.pow_pos_nonneg; lia). assert (HB : 0 < B) by (unfold B; nia).
  set (bit := fun i => Z.testbit c (Z.of_nat i)). set (wus := map (fun i => (if bit i then r else 0, 1)) (seq 0 m)).
  assert (Hu : zsum_list (map snd wus) = reps).
  { unfold wus. rewrite map_map. cbn [snd]. transitivity (Z.of_nat (length (seq 0 m))); [|rewrite seq_length; unfold m; lia].
    generalize (seq 0 m) as l. induction l as [|x l IH]; [reflexivity|]. cbn [map zsum_list fold_right length]. fold (zsum_list (map (fun _ : nat => 1) l)). rewrite IH. lia. }
  rewrite <- Hu at 1. eapply distance_ext; [| |apply (shift_close (zk + 1) (repeat B m) wus (simulated_params_proof g h n reps c)); [lia|]].
  2:{ intros; reflexivity. }
  2:{ unfold wus. clear -HB P1 Hr Hn. subst B. generalize 0%nat. induction m as [|m IH]; intros s; [constructor|]. cbn [seq map repeat]. constructor; [|apply IH]. unfold small_shift. cbn [fst snd].
      replace (zk + 1) with (1 + zk) by lia. destruct (bit s); [|lia]. split; [lia|]. split; [lia|]. split; [|lia]. rewrite Z.mul_1_l. apply Z.mul_le_mono_nonneg_r; lia. }
  intros ds Hl Hrg. rewrite repeat_length in Hl.
  assert (Hd : forall i, (i < m)%nat -> 0 <= nth i ds 0 < B).
  { intros i Hi. pose proof (draw_range _ _ i Hrg) as Q. rewrite repeat_length in Q. specialize (Q Hi). rewrite repeat_nth in Q. destruct (Nat.ltb_spec i m); [exact Q|lia]. }
  assert (Sn : forall i, (i < m)%nat -> nth i (shift (map fst wus) ds) 0 = nth i ds 0 + (if bit i then r else 0)).
  { intros i Hi. rewrite shift_nth by lia. unfold wus. rewrite map_map. cbn [fst]. rewrite (seq_map_nth (fun j => if bit j then r else 0) m i). destruct (Nat.ltb_spec i m); [reflexivity|lia]. }
  assert (Gg : Z.gcd g n = 1) by (rewrite Hg, Z.gcd_mod, Z.gcd_comm by lia; apply gcd_pow_l; [lia|exact G]).
  destruct (bn_mod_inverse_ok g n ltac:(lia) Gg) as (ig & Eig & Hig & Iig).
  unfold simulated_params_proof. rewrite Eig. cbn [bind].
  unfold prove_params. destruct (Z.leb_spec reps 0); [lia|]. destruct (Z.leb_spec zk 0); [lia|]. unfold bn_gcd. rewrite G. cbn [Z.eqb Pos.eqb negb].
  rewrite bn_mod_exp_ok by lia. cbn [bind]. rewrite <- Hg, Z.eqb_refl. cbn [negb].
  rewrite gen_dummies_ok by lia. cbn [bind fst snd]. fold B m.
  assert (Er : map (fun raw => raw mod B) (map (fun i => nth i ds 0) (seq 0 m)) = map (fun i => nth i ds 0) (seq 0 m)).
  { rewrite map_map. apply map_ext_in. intros i Hi. apply in_seq in Hi. apply Z.mod_small. apply Hd. lia. }
  assert (Ed : map (fun raw => h ^ (raw mod B) mod n) (map (fun i => nth i ds 0) (seq 0 m)) = map (fun i => h ^ nth i ds 0 mod n) (seq 0 m)).
  { rewrite map_map. apply map_ext_in. intros i Hi. apply in_seq in Hi. rewrite (Z.mod_small (nth i ds 0) B) by (apply Hd; lia). reflexivity. }
  rewrite Er, Ed. set (dgs := map (fun i => h ^ nth i ds 0 mod n) (seq 0 m)).
  assert (Hds : Forall (fun d => 0 <= d) dgs) by (apply Forall_forall; intros d Hin; unfold dgs in Hin; apply in_map_iff in Hin; destruct Hin as (x & <- & _); apply Z.mod_pos_bound; lia).
  assert (Hg0 : 0 <= g) by (rewrite Hg; apply Z.mod_pos_bound; lia). destruct (gen_bytes_ok g h n dgs Hg0 Hh ltac:(lia) Hds) as (b & Eb).
  rewrite (gen_challenge_ok sha g h n dgs reps b c) by (apply HO || assumption || lia). cbn [bind]. fold m. change (map (fun i => Z.testbit c (Z.of_nat i)) (seq 0 m)) with (map bit (seq 0 m)).
  rewrite combine_seq, map_map. cbn [fst snd]. f_equal. f_equal.
  - unfold dgs. apply map_ext_in. intros i Hi. apply in_seq in Hi. rewrite Sn by lia. fold (bit i). specialize (Hd i ltac:(lia)). destruct (bit i); [|rewrite Z.add_0_r; reflexivity].
    apply eqmod_eq; [lia|]. rewrite Z.pow_add_r by lia. assert (Iq : eqmod n (h ^ r * ig) 1) by (rewrite <- (eqmod_mod n (h ^ r)), <- Hg; apply eq_eqmod; exact Iig).
    rewrite <- Z.mul_assoc, Iq, Z.mul_1_r. reflexivity.
  - unfold part. apply map_ext_in. intros i Hi. apply in_seq in Hi. cbn [Nat.add]. rewrite Sn by lia. destruct (bit i); lia.
Qed.
Print Assumptions C65_params_proof_hides.

(** The variant for a trusted modulus. *)
Definition simulated_trusted_proof (g h n len c : Z) (ds : list Z) : outcome trusted_proof :=
  let* gc := bn_mod_exp g c n in let* i := bn_mod_inverse gc n in
  Ok {| tp_len := len; tp_dummy_g := (h ^ nth 0 ds 0 * i) mod n; tp_response := nth 0 ds 0 |}.

Theorem C65_trusted_proof_hides : forall sha512 g h n r len zk c,
  1 < n -> 0 <= h -> Z.gcd h n = 1 -> 0 <= r <= n -> g = h ^ r mod n -> 0 < len <= 120000 -> 0 < zk -> oracle_says sha512 len c ->
  within_distance 1 zk [n * 2 ^ (len + zk)]
    (fun ds => prove_trusted sha512 g h n r len zk (nth 0 ds 0))
    (fun ds => simulated_trusted_proof g h n len c ds).
Proof.
  intros sha g h n r len zk c Hn Hh G Hr Hg Hlen Hzk HO. set (B := n * 2 ^ (len + zk)).
  assert (P1 : 0 < 2 ^ (len + zk)) by (apply Z.pow_pos_nonneg; lia). assert (HB : 0 < B) by (unfold B; nia).
  assert (Hc : 0 <= c < 2 ^ len) by (apply (ro_pow2_range sha [] len c); [lia|apply HO]).
  eapply distance_ext; [| |apply (shift_close zk [B] [(c * r, 1)] (simulated_trusted_proof g h n len c)); [lia|]].
  2:{ intros; reflexivity. }
  2:{ constructor; [|constructor]. unfold small_shift. cbn [fst snd]. split; [nia|]. split; [lia|]. split; [|lia]. rewrite Z.mul_1_l. unfold B. rewrite Z.pow_add_r by lia. rewrite (Z.mul_comm c r), Z.mul_assoc.
      apply Z.mul_le_mono_nonneg_r; [apply Z.pow_nonneg; lia|]. apply Z.mul_le_mono_nonneg; lia. }
  intros ds Hl Hrg. destruct ds as [|x [|? ?]]; try discriminate Hl. inversion Hrg as [|? ? ? ? Hx _]. subst. clear Hrg Hl. cbn [map fst shift nth].
  unfold prove_trusted, simulated_trusted_proof. destruct (Z.leb_spec len 0); [lia|]. destruct (Z.leb_spec zk 0); [lia|]. unfold bn_gcd. rewrite G. cbn [Z.eqb Pos.eqb negb].
  rewrite (bn_mod_exp_ok h r n) by lia. cbn [bind]. rewrite Z.eqb_refl. cbn [negb]. rewrite lshift_ok by lia. cbn [bind]. fold B. set (g := h ^ r mod n). cbn [nth].
  rewrite rand_ok by assumption. cbn [bind]. rewrite Z.mod_small by exact Hx. rewrite (bn_mod_exp_ok h x n) by lia. cbn [bind].
  assert (Hg0 : 0 <= g) by (apply Z.mod_pos_bound; lia). assert (Hd : 0 <= h ^ x mod n) by (apply Z.mod_pos_bound; lia).
  destruct (gen_bytes_ok g h n [h ^ x mod n] Hg0 Hh ltac:(lia) ltac:(repeat constructor; exact Hd)) as (b & Eb).
  assert (Et : trusted_challenge sha g h n (h ^ x mod n) len = Ok c).
  { unfold trusted_challenge. rewrite Eb. cbn [bind]. rewrite lshift_ok, Z.mul_1_l by lia. cbn [bind]. apply HO. }
  rewrite Et. cbn [bind]. rewrite (bn_mod_exp_ok g c n) by lia. cbn [bind].
  assert (Gg : Z.gcd (g ^ c mod n) n = 1). { rewrite Z.gcd_mod, Z.gcd_comm by lia. apply gcd_pow_l; [lia|]. unfold g. rewrite Z.gcd_mod, Z.gcd_comm by lia. apply gcd_pow_l; [lia|exact G]. }
  destruct (bn_mod_inverse_ok _ n ltac:(lia) Gg) as (i & Ei & _ & Ii). rewrite Ei. cbn [bind shift nth]. f_equal. f_equal.
  apply eqmod_eq; [lia|]. rewrite Z.pow_add_r by nia. assert (Iq : eqmod n (h ^ (c * r) * i) 1).
  { rewrite (Z.mul_comm c r), Z.pow_mul_r by lia. rewrite <- (eqmod_pow n (h ^ r mod n) (h ^ r) c (eqmod_mod _ _)). fold g. rewrite <- (eqmod_mod n (g ^ c)). apply eq_eqmod; exact Ii. }
  rewrite <- Z.mul_assoc, Iq, Z.mul_1_r. reflexivity.
Qed.
Print Assumptions C65_trusted_proof_hides.

(** The hypotheses are met: objects on the toy curve, every challenge of 6 bits, and parameters modulo 15. *)
Example C65_ex : exists v sha, vrf_created toy ex_dp ex_pp 2 v /\ oracle_says sha (dp_chal ex_dp) 37.
Proof.
  destruct ex_created as (v & Hv). destruct (oracle_can_say (dp_chal ex_dp) 37) as (sha & Hs); [cbn; lia|cbn; lia|]. exists v, sha. split; assumption.
Qed.
(** Counting it out: with the secret exponent 3 (g = 4^3 mod 15 = 4), one repetition, challenge bit 1 and 15 * 2^2 draws, the responses of the prover range
    over 3..62, those of the simulator over 0..59; the test "below 30" succeeds 27 and 30 times out of 60. *)
Example C65_count_ex : let below pf := match pf with Ok p => match gp_responses p with z :: _ => z <? 30 | [] => false end | _ => false end in
  count [60] (fun ds => below (prove_params (const_hash x44) 4 4 15 3 1 1 (fun i => nth i ds 0))) = 27 /\
  count [60] (fun ds => below (simulated_params_proof 4 4 15 1 1 ds)) = 30.
Proof. vm_compute. split; reflexivity. Qed.
