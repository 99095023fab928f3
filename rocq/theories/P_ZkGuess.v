(** C79: how rarely an observer guesses what a prover will ask the hash function, when the base of the masks has a large order. *)
From Coq Require Import Znumtheory Zpow_facts.
From Verif Require Import Base M_BigNum M_Num M_Simul M_EC M_Proto M_Pedersen M_Wire M_VRF S_Exp S_Pedersen S_VRF S_Hide S_Num
  L_BigNum L_Num L_Mod L_DJ L_Exp L_CS L_EC L_PaillierKey L_Protocol L_Cipher L_Toy L_Wire L_Pedersen L_VRF L_Hide P_Pedersen P_VRF P_Hide
  S_Oracle L_Oracle P_Oracle S_Zk L_Zk S_ZkQuery P_Zk.


Lemma f2_len {A B} (R : A -> B -> Prop) l l' : Forall2 R l l' -> length l = length l'.
Proof. intros F. induction F; cbn [length]; [reflexivity|]. f_equal. assumption. Qed.
Lemma mapM_same {A B} (f g : A -> outcome B) l : (forall a, In a l -> f a = g a) -> mapM f l = mapM g l.
Proof. induction l as [|a l IH]; intros H; [reflexivity|]. cbn [mapM]. rewrite (H a) by (left; reflexivity). rewrite IH by (intros; apply H; right; assumption). reflexivity. Qed.

(** Powers of h that are equal modulo n have exponents that differ by a multiple of ord; [ord] may be the order of h in the group of units. *)
Definition powers_differ (h n ord : Z) : Prop := 0 < ord /\ forall i j, 0 <= i -> 0 <= j -> h ^ i mod n = h ^ j mod n -> (ord | i - j).

Theorem C79_trusted_guess : forall g h n r len zk ord,
  1 < n -> 0 <= h -> Z.gcd h n = 1 -> 0 <= r <= n -> g = h ^ r mod n -> 0 < len <= 120000 -> 0 < zk -> powers_differ h n ord ->
  shows_little len 1 zk [n * 2 ^ (len + zk)] never ((n * 2 ^ (len + zk) + ord - 1) / ord)
    (fun sha512 ds => prove_trusted sha512 g h n r len zk (nth 0 ds 0)) (fun pf => gen_bytes g h n [tp_dummy_g pf]) (fun c ds => simulated_trusted_proof g h n len c ds).
Proof.
  intros g h n r len zk ord Hn Hh G Hr Hg Hlen Hzk [Ho Hord]. set (B := n * 2 ^ (len + zk)).
  assert (P1 : 0 < 2 ^ (len + zk)) by (apply Z.pow_pos_nonneg; lia). assert (HB : 0 < B) by (unfold B; nia).
  replace ((B + ord - 1) / ord) with (tuples [] * tuples [] * ((B + ord - 1) / ord)) by (change (tuples []) with 1; lia).
  apply (guesses_counted len 1 zk [] B [] ord); try lia.
  - repeat constructor. lia.
  - apply every_answer. lia.
  - intros sha a i j c r1 r2 x HO La Ri Rj _ _ E1 E2 Q1 Q2. destruct a; [|discriminate]. cbn [app] in *.
    assert (V : forall d pf, 0 <= d < B -> prove_trusted sha g h n r len zk d = Ok pf -> tp_dummy_g pf = h ^ d mod n).
    { intros d pf Hd E. unfold prove_trusted in E. destruct (Z.leb_spec len 0); [lia|]. destruct (Z.leb_spec zk 0); [lia|]. unfold bn_gcd in E. rewrite G in E. cbn [Z.eqb Pos.eqb negb] in E.
      rewrite (bn_mod_exp_ok h r n) in E by lia. cbn [bind] in E. rewrite <- Hg, Z.eqb_refl in E. cbn [negb] in E. rewrite lshift_ok in E by lia. cbn [bind] in E. fold B in E.
      rewrite rand_ok in E by assumption. cbn [bind] in E. rewrite Z.mod_small in E by exact Hd. rewrite (bn_mod_exp_ok h d n) in E by lia. cbn [bind] in E.
      apply bind_ok in E. destruct E as (y & _ & E). injection E as <-. reflexivity. }
    inversion Ri as [|? ? ? ? Hi Rc]. inversion Rj as [|? ? ? ? Hj _]. subst. cbn [nth] in *. apply V in E1; [|exact Hi]. apply V in E2; [|exact Hj]. cbv beta in Q1, Q2. rewrite E1 in Q1. rewrite E2 in Q2.
    apply Hord; [lia|lia|]. unfold gen_bytes in Q1, Q2.
    apply bind_ok in Q1. destruct Q1 as (gb & Eg & Q1). rewrite Eg in Q2. cbn [bind] in Q2. apply bind_ok in Q1. destruct Q1 as (hb & Eh & Q1). rewrite Eh in Q2. cbn [bind] in Q2.
    apply bind_ok in Q1. destruct Q1 as (nb & En & Q1). rewrite En in Q2. cbn [bind mapM] in Q1, Q2.
    destruct (to_bytes (h ^ i mod n)) as [b1|?| | |] eqn:T1; try discriminate. destruct (to_bytes (h ^ j mod n)) as [b2|?| | |] eqn:T2; try discriminate. cbn [bind concat] in Q1, Q2.
    rewrite !app_nil_r in Q1, Q2. assert (X : gb ++ hb ++ nb ++ b1 = gb ++ hb ++ nb ++ b2) by congruence. apply app_inv_head, app_inv_head, app_inv_head in X. subst b2. exact (to_bytes_inj _ _ _ T1 T2).
  - apply C79_trusted_proof; assumption.
Qed.
Print Assumptions C79_trusted_guess.

Theorem C79_params_guess : forall g h n r reps zk ord,
  1 < n -> 0 <= h -> Z.gcd h n = 1 -> 0 <= r <= n -> g = h ^ r mod n -> 0 < reps <= 120000 -> 0 < zk -> powers_differ h n ord ->
  shows_little reps reps (zk + 1) (repeat (n * 2 ^ (1 + zk)) (Z.to_nat reps)) never (tuples (repeat (n * 2 ^ (1 + zk)) (Z.to_nat reps - 1)) * ((n * 2 ^ (1 + zk) + ord - 1) / ord))
    (fun sha512 ds => prove_params sha512 g h n r reps zk (fun i => nth i ds 0)) (fun pf => gen_bytes g h n (gp_dummy_gs pf)) (fun c ds => simulated_params_proof g h n reps c ds).
Proof.
  intros g h n r reps zk ord Hn Hh G Hr Hg Hreps Hzk [Ho Hord]. set (B := n * 2 ^ (1 + zk)). set (m := Z.to_nat reps).
  assert (P1 : 0 < 2 ^ (1 + zk)) by (apply Z.pow_pos_nonneg; lia). assert (HB : 0 < B) by (unfold B; nia).
  destruct m as [|m'] eqn:Em; [lia|]. cbn [repeat Nat.sub]. rewrite Nat.sub_0_r.
  replace (tuples (repeat B m')) with (tuples [] * tuples (repeat B m')) by (change (tuples []) with 1; lia).
  apply (guesses_counted reps reps (zk + 1) [] B (repeat B m') ord); try lia.
  - constructor; [lia|]. apply Forall_forall. intros y Hy. apply repeat_spec in Hy. lia.
  - apply every_answer. lia.
  - intros sha a i j c r1 r2 x HO La Ri Rj _ _ E1 E2 Q1 Q2. destruct a; [|discriminate]. cbn [app] in *.
    assert (V : forall d pf, 0 <= d < B -> prove_params sha g h n r reps zk (fun k => nth k (d :: c) 0) = Ok pf ->
       gp_dummy_gs pf = h ^ d mod n :: map (fun raw => h ^ (raw mod B) mod n) (map (fun k => nth k c 0) (seq 0 m'))).
    { intros d pf Hd E. unfold prove_params in E. destruct (Z.leb_spec reps 0); [lia|]. destruct (Z.leb_spec zk 0); [lia|]. unfold bn_gcd in E. rewrite G in E. cbn [Z.eqb Pos.eqb negb] in E.
      rewrite (bn_mod_exp_ok h r n) in E by lia. cbn [bind] in E. rewrite <- Hg, Z.eqb_refl in E. cbn [negb] in E. rewrite gen_dummies_ok in E by lia. cbn [bind fst snd] in E. fold B in E.
      apply bind_ok in E. destruct E as (y & _ & E). fold m in E. rewrite Em in E. injection E as <-. cbn [gp_dummy_gs seq map nth]. rewrite (Z.mod_small d) by exact Hd. f_equal.
      rewrite <- seq_shift, !map_map. reflexivity. }
    inversion Ri as [|? ? ? ? Hi Rc]. inversion Rj as [|? ? ? ? Hj _]. subst. apply V in E1; [|exact Hi]. apply V in E2; [|exact Hj]. cbv beta in Q1, Q2. rewrite E1 in Q1. rewrite E2 in Q2.
    apply Hord; [lia|lia|]. unfold gen_bytes in Q1, Q2.
    apply bind_ok in Q1. destruct Q1 as (gb & Eg & Q1). rewrite Eg in Q2. cbn [bind] in Q2. apply bind_ok in Q1. destruct Q1 as (hb & Eh & Q1). rewrite Eh in Q2. cbn [bind] in Q2.
    apply bind_ok in Q1. destruct Q1 as (nb & En & Q1). rewrite En in Q2. cbn [bind mapM] in Q1, Q2.
    destruct (to_bytes (h ^ i mod n)) as [b1|?| | |] eqn:T1; try discriminate. destruct (to_bytes (h ^ j mod n)) as [b2|?| | |] eqn:T2; try discriminate. cbn [bind] in Q1, Q2.
    match type of Q1 with context [mapM to_bytes ?l] => destruct (mapM to_bytes l) as [rest|?| | |]; try discriminate end. cbn [bind concat] in Q1, Q2.
    assert (X : gb ++ hb ++ nb ++ b1 ++ concat rest = gb ++ hb ++ nb ++ b2 ++ concat rest) by congruence. apply app_inv_head, app_inv_head, app_inv_head in X. apply app_inv_tail in X. subst b2. exact (to_bytes_inj _ _ _ T1 T2).
  - pose proof (C79_params_proof g h n r reps zk Hn Hh G Hr Hg Hreps Hzk) as T. fold B m in T. rewrite Em in T. exact T.
Qed.
Print Assumptions C79_params_guess.

Lemma of_to_bytes x b : to_bytes x = Ok b -> of_bytes b = x.
Proof. intros E. destruct (Z.ltb_spec x 0); [rewrite to_bytes_neg in E by assumption; discriminate|]. destruct (to_bytes_of x ltac:(lia)) as (s & E1 & E2). congruence. Qed.
(** The commitment to dummy values determines its opening up to a multiple of ord. *)
Lemma commit_opening pd ms i j c ord : ped_ok pd -> units (pd_par pd) -> powers_differ (pp_h (pd_par pd)) (pp_n (pd_par pd)) ord ->
  ped_commit_with_rand pd ms i = Ok c -> ped_commit_with_rand pd ms j = Ok c -> (ord | i - j).
Proof.
  intros PO U [Ho Hord] E1 E2. destruct (commit_inv pd ms i c PO E1) as [(L1 & L2 & L3) V1]. destruct (commit_inv pd ms j c PO E2) as [(_ & _ & L4) V2]. apply Hord; [exact L3|exact L4|].
  assert (HN : 1 < pp_n (pd_par pd)) by apply PO. apply mod_eqmod_iff; [lia|]. apply (eqmod_cancel _ (multi_exp (pp_gs (pd_par pd)) ms)).
  - pose proof (raw_commit_unit (pd_par pd) ms 0 U L2 ltac:(lia)) as K. unfold raw_commit in K. rewrite Z.pow_0_r, Z.mul_1_r in K. exact K.
  - apply mod_eqmod_iff; [lia|]. unfold raw_commit in V1, V2. congruence.
Qed.

Theorem C79_key_guess : forall C p pp num v rk ro ord, ec_laws C -> vrf_created C p pp num v -> Forall (fun g => Z.gcd g (pp_n pp) = 1) (pp_gs pp) -> Z.gcd (pp_h pp) (pp_n pp) = 1 ->
  int64_params p -> powers_differ (pp_h pp) (pp_n pp) ord ->
  let mask := 2 ^ (dp_chal p + dp_sec p) in
  exists pk sk, shows_little (dp_chal p) 2 (dp_sec p) [ec_order C * mask; pp_n pp * mask] never (ec_order C * mask * ((pp_n pp * mask + ord - 1) / ord))
    (fun sha512 ds => dy_generate C sha512 v rk ro (nth 0 ds 0) (nth 1 ds 0)) (fun a => keys_query C v (fst (fst a)) (snd a))
    (fun c ds => let* pf := simulated_keys_proof c ds in Ok (pk, sk, pf)).
Proof.
  intros C p pp num v rk ro ord L Hv Hg Hh I64 Hord mask. destruct (C79_key_proof C p pp num v rk ro L Hv Hg Hh) as (pk & sk & T). exists pk, sk.
  destruct (vrf_created_ok C p pp num v L Hv) as (Ep & Epp & PO & Hs & Hch & _). subst p pp.
  assert (HN : 1 < pp_n (pd_par (dv_ped C v))) by apply PO. pose proof (order_gt1 C L) as Hn. assert (PT : 0 < mask) by (apply Z.pow_pos_nonneg; lia).
  set (B := pp_n (pd_par (dv_ped C v)) * mask) in *. set (A := ec_order C * mask) in *.
  assert (HB : 0 < B) by (unfold B; nia). assert (HA : 0 < A) by (unfold A; nia).
  replace (A * ((B + ord - 1) / ord)) with (tuples [A] * tuples [] * ((B + ord - 1) / ord)) by (unfold tuples; cbn [fold_right]; lia).
  apply (guesses_counted _ _ _ [A] B [] ord); try lia; try (destruct Hord; lia).
  - repeat constructor; lia.
  - apply every_answer. lia.
  - intros sha a i j c r1 r2 x HO La Ri Rj _ _ E1 E2 Q1 Q2. destruct a as [|dk [|? ?]]; try discriminate. cbn [app nth] in *.
    inversion Ri as [|? ? ? ? Hd Ri']. inversion Ri' as [|? ? ? ? Hi Rc]. inversion Rc. inversion Rj as [|? ? ? ? _ Rj']. inversion Rj' as [|? ? ? ? Hj _]. subst.
    assert (V : forall d r x, 0 <= d < B -> dy_generate C sha v rk ro dk d = Ok r -> keys_query C v (fst (fst r)) (snd r) = Ok x ->
       exists pkb db dcom mcom, x = keys_hash_input (dv_par C v) pkb db /\ to_bytes dcom = Ok db /\ ped_commit_with_rand (dv_ped C v) (repeat dk (num_gs C v)) d = Ok mcom /\ dcom = mcom mod pp_n (pd_par (dv_ped C v))).
    { clear - HN Hn Hch Hs PT HA HB Hd HO. intros d r x Hdd E Q. unfold dy_generate in E. cbv zeta in E.
      apply bind_ok in E. destruct E as ([com opn] & _ & E). apply bind_ok in E. destruct E as (pkb & _ & E). apply bind_ok in E. destruct E as (kb & _ & E). apply bind_ok in E. destruct E as (ob & _ & E).
      rewrite !lshift_ok in E by lia. cbn [bind] in E. fold mask in E. fold A B in E. rewrite !rand_ok in E by assumption. cbn [bind] in E. rewrite !Z.mod_small in E by assumption.
      apply bind_ok in E. destruct E as (dcom & _ & E). apply bind_ok in E. destruct E as (db & _ & E). apply bind_ok in E. destruct E as (c & Ec & E).
      unfold keys_challenge in Ec. rewrite lshift_ok, Z.mul_1_l in Ec by lia. cbn [bind] in Ec. rewrite HO in Ec. assert (c = 0) by congruence. subst c. rewrite !Z.mul_0_r, !Z.add_0_r in E.
      apply bind_ok in E. destruct E as (cb & Ecb & E). apply bind_ok in E. destruct E as (mk & Emk & E). apply bind_ok in E. destruct E as (mo & Emo & E). injection E as <-. cbn [fst snd] in Q.
      unfold keys_query in Q. cbn [kp_challenge kp_masked_key kp_masked_open] in Q. cbv zeta in Q.
      rewrite (of_to_bytes _ _ Ecb), (of_to_bytes _ _ Emk), (of_to_bytes _ _ Emo) in Q.
      apply bind_ok in Q. destruct Q as (bound & _ & Q). destruct (bound <? dk); [discriminate|]. apply bind_ok in Q. destruct Q as (mcom & Em & Q).
      unfold ped_multiply in Q. rewrite bn_mod_exp_ok in Q by lia. cbn [bind] in Q. rewrite Z.pow_0_r, Z.mod_1_l in Q by lia. apply bind_ok in Q. destruct Q as (inv & Ei & Q).
      apply bn_mod_inverse_inv in Ei. destruct Ei as (_ & _ & Bi & Pi). rewrite Z.mul_1_l, (Z.mod_small inv), Z.mod_1_l in Pi by lia. subst inv. unfold ped_add in Q. rewrite bn_mod_mul_ok in Q by lia. cbn [bind] in Q.
      rewrite Z.mul_1_l in Q. apply bind_ok in Q. destruct Q as (db' & Edb & Q). injection Q as <-. exists pkb, db', (mcom mod pp_n (pd_par (dv_ped C v))), mcom. repeat (split; [first [reflexivity|assumption]|]). reflexivity. }
    destruct (V i r1 x Hi E1 Q1) as (p1 & d1 & c1 & m1 & X1 & T1 & M1 & D1). destruct (V j r2 x Hj E2 Q2) as (p2 & d2 & c2 & m2 & X2 & T2 & M2 & D2).
    rewrite X1 in X2. apply C51_keys_challenge_binding in X2; [|assumption|assumption]. destruct X2 as (_ & _ & ->). pose proof (to_bytes_inj _ _ _ T1 T2) as Ec.
    assert (S1 : m1 mod pp_n (pd_par (dv_ped C v)) = m1) by (destruct (commit_inv _ _ _ _ PO M1) as [_ ->]; apply Z.mod_mod; lia).
    assert (S2 : m2 mod pp_n (pd_par (dv_ped C v)) = m2) by (destruct (commit_inv _ _ _ _ PO M2) as [_ ->]; apply Z.mod_mod; lia).
    assert (m1 = m2) by congruence. subst m2. exact (commit_opening _ _ _ _ _ _ PO (conj Hg Hh) Hord M1 M2).
  - exact T.
Qed.
Print Assumptions C79_key_guess.

Theorem C79_apply_guess : forall C p pp num v ms evals pk sk com opn ord, ec_laws C -> vrf_created C p pp num v ->
  Forall (fun g => Z.gcd g (pp_n pp) = 1) (pp_gs pp) -> Z.gcd (pp_h pp) (pp_n pp) = 1 ->
  let key := of_bytes (dk_key sk) in
  0 < key < ec_order C -> of_bytes (dk_open sk) < pp_n pp -> of_bytes pk = commitment (pp_gs pp) (pp_h pp) (pp_n pp) (repeat key (length (pp_gs pp))) (of_bytes (dk_open sk)) ->
  Forall (fun m => 0 <= m < ec_order C) ms -> (length ms <= length (pp_gs pp))%nat -> opn < pp_n pp ->
  dy_apply C v ms sk = Ok evals -> ped_commit_with_rand (dv_ped C v) ms opn = Ok com ->
  int64_params p -> powers_differ (pp_h pp) (pp_n pp) ord ->
  let mask := 2 ^ (dp_chal p + dp_sec p) in
  let dummies := ec_order C * mask :: repeat (ec_order C * mask) (length ms) in
  shows_little (dp_chal p) (Z.of_nat (length ms) + 3) (dp_sec p) (dummies ++ [pp_n pp * mask])
    (fun _ => apply_draws_bad (ec_order C) (length ms)) (tuples dummies * ((pp_n pp * mask + ord - 1) / ord))
    (fun sha512 ds => dy_prove_apply C sha512 v ms evals pk sk com opn (nth 0 ds 0) (fun i => nth (1 + i) ds 0) (nth (1 + length ms) ds 0))
    (apply_query C v evals pk com)
    (fun c ds => simulated_apply_proof C v evals pk com c ds).
Proof.
  intros C p pp num v ms evals pk sk com opn ord L Hv Hg Hh key Hkey Hko Hpk Hms Hlen Hopn Eev Ecom I64 Hord mask dummies.
  pose proof (C79_apply_proof C p pp num v ms evals pk sk com opn L Hv Hg Hh Hkey Hko Hpk Hms Hlen Hopn Eev Ecom) as T. cbv zeta in T. fold mask in T.
  destruct (vrf_created_ok C p pp num v L Hv) as (Ep & Epp & PO & Hs & Hch & _). subst p pp. pose proof (order_gt1 C L) as Hn. assert (HN : 1 < pp_n (pd_par (dv_ped C v))) by apply PO.
  assert (PT : 0 < mask) by (apply Z.pow_pos_nonneg; lia). set (B := pp_n (pd_par (dv_ped C v)) * mask) in *. assert (HB : 0 < B) by (unfold B; nia).
  assert (Ln : length dummies = (1 + length ms)%nat) by (unfold dummies; cbn [length]; rewrite repeat_length; reflexivity).
  replace (tuples dummies * ((B + ord - 1) / ord)) with (tuples dummies * tuples [] * ((B + ord - 1) / ord)) by (change (tuples []) with 1; rewrite Z.mul_1_r; reflexivity).
  apply (guesses_counted _ _ _ dummies B [] ord); try lia; try (destruct Hord; lia).
  - apply Forall_app. split; [constructor; [nia|apply Forall_forall; intros y Hy; apply repeat_spec in Hy; nia]|repeat constructor; lia].
  - apply every_answer. lia.
  - intros sha a i j c r1 r2 x HO La Ri Rj _ _ E1 E2 Q1 Q2. rewrite Ln in La.
    assert (Rc : c = [] /\ 0 <= i < B /\ 0 <= j < B).
    { apply Forall2_app_inv_l in Ri. destruct Ri as (a1 & b1 & F1 & F2 & Ei). apply Forall2_app_inv_l in Rj. destruct Rj as (a2 & b2 & F3 & F4 & Ej). apply f2_len in F1. apply f2_len in F3.
      rewrite Ln in F1, F3. apply app_len_inj in Ei; [|lia]. apply app_len_inj in Ej; [|lia]. destruct Ei as [_ <-], Ej as [_ <-]. inversion F2 as [|? ? ? ? K1 K2]. inversion F4 as [|? ? ? ? K3 _]. subst. inversion K2. subst. auto. }
    destruct Rc as (-> & Hi & Hj).
    assert (N0 : forall d k, (k < 1 + length ms)%nat -> nth k (a ++ [d]) 0 = nth k a 0) by (intros d k Hk; apply app_nth1; lia).
    assert (N1 : forall d, nth (1 + length ms) (a ++ [d]) 0 = d) by (intros d; rewrite app_nth2 by lia; rewrite La, Nat.sub_diag; reflexivity).
    assert (V : forall d r x, 0 <= d < B -> dy_prove_apply C sha v ms evals pk sk com opn (nth 0 (a ++ [d]) 0) (fun k => nth (1 + k) (a ++ [d]) 0) (nth (1 + length ms) (a ++ [d]) 0) = Ok r -> apply_query C v evals pk com r = Ok x ->
      exists dkey dms cb eb db pb dcom, dummy_values C v ms (nth 0 a 0) (fun k => nth (1 + k) a 0) = Ok (dkey, dms) /\ x = apply_hash_input (dv_par C v) pk cb eb db pb /\ to_bytes dcom = Ok db /\ ped_commit_with_rand (dv_ped C v) dms d = Ok dcom).
    { intros d r y Hd E Q. unfold dy_prove_apply in E. cbv zeta in E. apply bind_ok in E. destruct E as ([[dcom dpts] [[dms dkey] dopn]] & E0 & E). apply bind_ok in E. destruct E as (dcb & Eb & E). apply bind_ok in E. destruct E as (dpb & _ & E).
      apply bind_ok in E. destruct E as (c & _ & E). apply bind_ok in E. destruct E as ([masked mopn] & _ & E). apply bind_ok in E. destruct E as (mb & _ & E). apply bind_ok in E. destruct E as (mob & _ & E). injection E as <-.
      unfold apply_query in Q. cbn [ap_commit ap_points] in Q. apply bind_ok in Q. destruct Q as (cb & _ & Q). apply bind_ok in Q. destruct Q as (eb & _ & Q). injection Q as <-.
      unfold apply_message1 in E0. cbv zeta in E0. apply bind_ok in E0. destruct E0 as ([dkey' dms'] & Ed & E0). rewrite lshift_ok in E0 by lia. cbn [bind] in E0. replace (dp_sec (dv_par C v) + dp_chal (dv_par C v)) with (dp_chal (dv_par C v) + dp_sec (dv_par C v)) in E0 by lia.
      fold mask in E0. fold B in E0. rewrite rand_ok, N1, Z.mod_small in E0 by assumption. cbn [bind] in E0. apply bind_ok in E0. destruct E0 as (dcom' & Ec & E0). apply bind_ok in E0. destruct E0 as (dpts' & _ & E0). injection E0 as -> -> -> -> ->.
      exists dkey, dms, cb, eb, dcb, dpb, dcom. split; [|split; [reflexivity|split; [exact Eb|exact Ec]]]. rewrite <- Ed. unfold dummy_values. cbv zeta. destruct (bn_lshift (ec_order C) _); cbn [bind]; try reflexivity.
      rewrite N0 by lia. destruct (generate_rand_less_than a0 (nth 0 a 0)); cbn [bind]; try reflexivity. f_equal. apply mapM_same. intros k Hk. destruct (Nat.ltb_spec k (length ms)); [rewrite N0 by lia; reflexivity|reflexivity]. }
    destruct (V i r1 x Hi E1 Q1) as (k1 & dm1 & cb1 & eb1 & db1 & pb1 & c1 & D1 & X1 & T1 & M1). destruct (V j r2 x Hj E2 Q2) as (k2 & dm2 & cb2 & eb2 & db2 & pb2 & c2 & D2 & X2 & T2 & M2).
    rewrite D1 in D2. assert (dm2 = dm1) by congruence. subst dm2. rewrite X1 in X2. apply C51_apply_challenge_binding in X2; [|assumption|assumption]. destruct X2 as (_ & _ & _ & _ & -> & _).
    rewrite <- (to_bytes_inj _ _ _ T1 T2) in M2. exact (commit_opening _ _ _ _ _ _ PO (conj Hg Hh) Hord M1 M2).
  - exact T.
Qed.
Print Assumptions C79_apply_guess.

(** The order of h meets the hypothesis. *)
Lemma order_powers h n ord : 1 < n -> Z.gcd h n = 1 -> 0 < ord -> h ^ ord mod n = 1 -> (forall k, 0 < k < ord -> h ^ k mod n <> 1) -> powers_differ h n ord.
Proof.
  intros Hn G Ho H1 Hk. split; [exact Ho|]. assert (W : forall i j, 0 <= i <= j -> h ^ i mod n = h ^ j mod n -> (ord | j - i)).
  { intros i j Hij E. assert (E1 : eqmod n (h ^ (j - i)) 1).
    { apply (eqmod_cancel n (h ^ i)); [apply coprime_pow_gcd; [lia|exact G]|]. rewrite <- Z.pow_add_r by lia. replace (i + (j - i)) with j by lia. rewrite Z.mul_1_r. symmetry. apply mod_eqmod_iff; [lia|exact E]. }
    set (d := j - i) in *. assert (Hd : 0 <= d) by (unfold d; lia). apply Z.mod_divide; [lia|]. pose proof (Z.mod_pos_bound d ord Ho) as B. destruct (Z.eq_dec (d mod ord) 0) as [Z0|N0]; [exact Z0|]. exfalso.
    apply (Hk (d mod ord)); [lia|]. assert (E2 : eqmod n (h ^ (d mod ord)) 1); [|apply mod_eqmod_iff in E2; [rewrite E2; apply Z.mod_1_l; lia|lia]].
    assert (E3 : eqmod n (h ^ ord) 1) by (apply mod_eqmod_iff; [lia|rewrite H1, Z.mod_1_l by lia; reflexivity]). pose proof (Z.div_pos d ord Hd Ho) as HQ.
    assert (E4 : h ^ d = (h ^ ord) ^ (d / ord) * h ^ (d mod ord)) by (rewrite <- Z.pow_mul_r, <- Z.pow_add_r by (try apply Z.mul_nonneg_nonneg; lia); f_equal; apply Z.div_mod; lia).
    rewrite E4 in E1. rewrite (eqmod_pow n _ _ (d / ord) E3), Z.pow_1_l, Z.mul_1_l in E1 by lia. exact E1. }
  intros i j Hi Hj E. destruct (Z.le_gt_cases i j) as [Hl|Hl]; [|apply W; [lia|symmetry; exact E]]. destruct (W i j ltac:(lia) E) as [q Q]. exists (- q). lia.
Qed.

(** With these parameters the observer's questions before it sees the proof help it with one in 253 of the draws each. *)
Lemma ex_order : powers_differ (pp_h ex_pp) (pp_n ex_pp) 253.
Proof.
  apply order_powers; try (cbn [ex_pp pp_h pp_n]; lia); try (vm_compute; reflexivity). intros k Hk E. cbn [ex_pp pp_h pp_n] in E.
  assert (T : forallb (fun i => negb (4 ^ Z.of_nat i mod 1081 =? 1)) (seq 1 252) = true) by (vm_compute; reflexivity). rewrite forallb_forall in T. specialize (T (Z.to_nat k) ltac:(apply in_seq; lia)).
  rewrite Z2Nat.id, E in T by lia. discriminate.
Qed.
Example C79_ex : exists v, vrf_created toy ex_dp ex_pp 2 v /\ Forall (fun g => Z.gcd g (pp_n ex_pp) = 1) (pp_gs ex_pp) /\ Z.gcd (pp_h ex_pp) (pp_n ex_pp) = 1 /\ int64_params ex_dp /\
  powers_differ (pp_h ex_pp) (pp_n ex_pp) 253 /\ Forall (fun m => 0 <= m < ec_order toy) [5; 70].
Proof.
  destruct ex_created as (v & Hv). exists v. split; [exact Hv|]. split; [repeat constructor|]. split; [reflexivity|]. split; [unfold int64_params, ex_dp; cbn [dp_sec dp_chal]; lia|]. split; [exact ex_order|].
  repeat constructor; vm_compute; try discriminate; reflexivity.
Qed.

(** Counting it out, with g = h = 4, n = 15 (the order of 4 is 2), the secret exponent 3, one challenge bit and one bit of statistical distance: 60 draws and a
    tape of two answers. The first observer guesses the question that starts with the mask 1, keeps the answer and says yes if the proof has that mask and does
    not fit the answer: the prover never makes it say yes, the simulator does in 60 cases of 240. The second asks only after it has seen the proof, says yes if the
    proof does not fit the answer, and never does. *)
Definition zk_ex_query (d : Z) : bytes := match gen_bytes 4 4 15 [d] with Ok b => b | _ => [] end.
Definition zk_ex_tree (ds : list Z) : prover (outcome trusted_proof) :=
  Ask (zk_ex_query (4 ^ nth 0 ds 0 mod 15)) (fun c => Give (Ok {| tp_len := 1; tp_dummy_g := 4 ^ nth 0 ds 0 mod 15; tp_response := nth 0 ds 0 + c * 3 |})).
Definition zk_ex_fits (pf : trusted_proof) (c : Z) : bool := 4 ^ tp_response pf mod 15 =? tp_dummy_g pf * 4 ^ c mod 15.
Definition zk_ex_guesser : observer trusted_proof :=
  Ask (zk_ex_query 1) (fun c => Give (fun r => Give (match r with Ok pf => (tp_dummy_g pf =? 1) && negb (zk_ex_fits pf c) | _ => false end))).
Definition zk_ex_checker : observer trusted_proof :=
  Give (fun r => match r with Ok pf => Ask (zk_ex_query (tp_dummy_g pf)) (fun c => Give (negb (zk_ex_fits pf c))) | _ => Give false end).
Definition zk_ex_counts (o : observer trusted_proof) : Z * Z * Z :=
  let sim c ds := simulated_trusted_proof 4 4 15 1 c ds in
  let query pf := gen_bytes 4 4 15 [tp_dummy_g pf] in
  (count [2; 2; 60] (fun v => sees_real o (zk_ex_tree (skipn 2 v)) (firstn 2 v)),
   count [2; 2; 60] (fun v => sees_simulated o query (fun c => sim c (skipn 2 v)) (firstn 2 v)),
   count [2; 2; 60] (fun v => asked_before o (zk_ex_tree (skipn 2 v)) (firstn 2 v))).
Example C79_count_ex : answered (const_hash x35) 1 (zk_ex_tree [7]) = prove_trusted (const_hash x35) 4 4 15 3 1 1 7 /\ zk_ex_counts zk_ex_guesser = (0, 60, 120) /\ zk_ex_counts zk_ex_checker = (0, 0, 0).
Proof. vm_compute. repeat split; reflexivity. Qed.
