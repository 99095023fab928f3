(** C79: what the proofs show to observers who may question the hash function. *)
From Coq Require Import Znumtheory Zpow_facts.
From Verif Require Import Base M_BigNum M_Num M_Simul M_EC M_Proto M_Pedersen M_Wire M_VRF S_Exp S_Pedersen S_VRF S_Hide S_Num
  L_BigNum L_Num L_Mod L_DJ L_Exp L_CS L_EC L_PaillierKey L_Protocol L_Cipher L_Toy L_Wire L_Pedersen L_VRF L_Hide P_Pedersen P_VRF P_Hide
  S_Oracle L_Oracle P_Oracle S_Zk L_Zk S_ZkQuery.

Lemma every_answer k : 0 <= k <= 129023 -> forall f, (forall x, 0 <= f x < 2 ^ k) -> exists sha512, forall x : bytes, random_oracle 512 sha512 x (2 ^ k) = Ok (f x).
Proof. intros Hk f Hf. destruct (C74_every_answer k f Hk Hf) as (sha & _ & E). exists sha. exact E. Qed.

(** ** Pedersen generators *)
Theorem C79_trusted_proof : forall g h n r len zk,
  1 < n -> 0 <= h -> Z.gcd h n = 1 -> 0 <= r <= n -> g = h ^ r mod n -> 0 < len <= 120000 -> 0 < zk ->
  shows_nothing len 1 zk [n * 2 ^ (len + zk)] never
    (fun sha512 ds => prove_trusted sha512 g h n r len zk (nth 0 ds 0)) (fun pf => gen_bytes g h n [tp_dummy_g pf]) (fun c ds => simulated_trusted_proof g h n len c ds).
Proof.
  intros g h n r len zk Hn Hh G Hr Hg Hlen Hzk. set (B := n * 2 ^ (len + zk)).
  assert (P1 : 0 < 2 ^ (len + zk)) by (apply Z.pow_pos_nonneg; lia). assert (HB : 0 < B) by (unfold B; nia).
  set (x := fun ds => match gen_bytes g h n [h ^ nth 0 ds 0 mod n] with Ok b => b | _ => [] end).
  apply (explicit_close len 1 zk [B] (fun _ => false) _ _ _ x (fun ds c => Ok {| tp_len := len; tp_dummy_g := h ^ nth 0 ds 0 mod n; tp_response := nth 0 ds 0 + c * r |}) UB); try lia.
  - repeat constructor. lia.
  - apply every_answer. lia.
  - intros ds Hds _. inversion Hds as [|? y ? ds' Hy Hds']. subst. inversion Hds'. subst. cbn [nth].
    set (g := h ^ r mod n). assert (Hg0 : 0 <= g) by (apply Z.mod_pos_bound; lia). assert (Hd : 0 <= h ^ y mod n) by (apply Z.mod_pos_bound; lia).
    destruct (gen_bytes_ok g h n [h ^ y mod n] Hg0 Hh ltac:(lia) ltac:(repeat constructor; exact Hd)) as (b & Eb).
    assert (Ex : x [y] = b) by (unfold x; cbn [nth]; fold g; rewrite Eb; reflexivity). rewrite Ex. split.
    + intros sha. unfold prove_trusted. destruct (Z.leb_spec len 0); [lia|]. destruct (Z.leb_spec zk 0); [lia|]. unfold bn_gcd. rewrite G. cbn [Z.eqb Pos.eqb negb].
      rewrite (bn_mod_exp_ok h r n) by lia. cbn [bind]. fold g. rewrite Z.eqb_refl. cbn [negb]. rewrite lshift_ok by lia. cbn [bind]. fold B.
      rewrite rand_ok by assumption. cbn [bind]. rewrite Z.mod_small by exact Hy. rewrite (bn_mod_exp_ok h y n) by lia. cbn [bind].
      unfold trusted_challenge. rewrite Eb. cbn [bind]. rewrite lshift_ok, Z.mul_1_l by lia. reflexivity.
    + intros c Hc. eexists. split; [reflexivity|]. cbn [tp_dummy_g]. exact Eb.
  - intros sha c HO. apply (C65_trusted_proof_hides sha g h n r len zk c); assumption.
Qed.
Print Assumptions C79_trusted_proof.

Theorem C79_params_proof : forall g h n r reps zk,
  1 < n -> 0 <= h -> Z.gcd h n = 1 -> 0 <= r <= n -> g = h ^ r mod n -> 0 < reps <= 120000 -> 0 < zk ->
  shows_nothing reps reps (zk + 1) (repeat (n * 2 ^ (1 + zk)) (Z.to_nat reps)) never
    (fun sha512 ds => prove_params sha512 g h n r reps zk (fun i => nth i ds 0)) (fun pf => gen_bytes g h n (gp_dummy_gs pf)) (fun c ds => simulated_params_proof g h n reps c ds).
Proof.
  intros g h n r reps zk Hn Hh G Hr Hg Hreps Hzk. set (B := n * 2 ^ (1 + zk)). set (m := Z.to_nat reps).
  assert (P1 : 0 < 2 ^ (1 + zk)) by (apply Z.pow_pos_nonneg; lia). assert (HB : 0 < B) by (unfold B; nia).
  set (raws := fun ds : list Z => map (fun i => nth i ds 0) (seq 0 m)). set (dgs := fun ds => map (fun raw => h ^ (raw mod B) mod n) (raws ds)).
  set (x := fun ds => match gen_bytes g h n (dgs ds) with Ok b => b | _ => [] end).
  apply (explicit_close reps reps (zk + 1) (repeat B m) (fun _ => false) _ _ _ x
    (fun ds c => let* cs := challenge_bits m c in
       Ok {| gp_reps := reps; gp_dummy_gs := dgs ds; gp_responses := map (fun cr => if fst cr : bool then snd cr + r else snd cr) (combine cs (map (fun raw => raw mod B) (raws ds))) |}) UB); try lia.
  - apply Forall_forall. intros y Hy. apply repeat_spec in Hy. lia.
  - apply every_answer. lia.
  - intros ds Hds _. assert (Hg0 : 0 <= g) by (rewrite Hg; apply Z.mod_pos_bound; lia).
    assert (Hd : Forall (fun d => 0 <= d) (dgs ds)) by (apply Forall_forall; intros d Hin; unfold dgs in Hin; apply in_map_iff in Hin; destruct Hin as (z & <- & _); apply Z.mod_pos_bound; lia).
    destruct (gen_bytes_ok g h n (dgs ds) Hg0 Hh ltac:(lia) Hd) as (b & Eb). assert (Ex : x ds = b) by (unfold x; rewrite Eb; reflexivity). rewrite Ex. split.
    + intros sha. unfold prove_params. destruct (Z.leb_spec reps 0); [lia|]. destruct (Z.leb_spec zk 0); [lia|]. unfold bn_gcd. rewrite G. cbn [Z.eqb Pos.eqb negb].
      rewrite bn_mod_exp_ok by lia. cbn [bind]. rewrite <- Hg, Z.eqb_refl. cbn [negb]. rewrite gen_dummies_ok by lia. cbn [bind fst snd]. fold B m. fold (raws ds). fold (dgs ds).
      unfold gen_challenge. rewrite Eb. cbn [bind]. rewrite lshift_ok, Z.mul_1_l by lia. cbn [bind]. fold m. destruct (random_oracle 512 sha b (2 ^ reps)); reflexivity.
    + intros c Hc. rewrite challenge_bits_ok by lia. cbn [bind]. eexists. split; [reflexivity|]. cbn [gp_dummy_gs]. exact Eb.
  - intros sha c HO. apply (C65_params_proof_hides sha g h n r reps zk c); assumption.
Qed.
Print Assumptions C79_params_proof.

(** ** The verifiable random function *)
Lemma verify_keys_query C sha v pk pf : 0 <= dp_chal (dv_par C v) -> dy_verify_keys C sha v pk pf =
  let* x := keys_query C v pk pf in let* c := random_oracle 512 sha x (2 ^ dp_chal (dv_par C v)) in if negb (c =? of_bytes (kp_challenge pf)) then Err InvalidArgument else Ok tt.
Proof.
  intros Hc. unfold dy_verify_keys, keys_query, keys_challenge. rewrite (lshift_ok 1) by exact Hc. rewrite Z.mul_1_l.
  repeat match goal with
    | |- (if ?c then _ else _) = _ => destruct c; [reflexivity|]
    | |- bind (if ?c then _ else _) _ = _ => destruct c; [reflexivity|]
    | |- bind (Ok _) _ = _ => cbn [bind]
    | |- bind (bind ?o _) _ = _ => destruct o; cbn [bind]; try reflexivity
    | |- bind ?o _ = _ => destruct o; cbn [bind]; try reflexivity
    end.
Qed.
Definition generate_tree C v rk ro rdk rdo : as_tree (dp_chal (dv_par C v)) 1 (fun sha512 => dy_generate C sha512 v rk ro rdk rdo).
Proof.
  unfold dy_generate. cbv zeta. do 11 code_step.
  apply code_after. unfold keys_challenge. apply code_bind. intros bound E. assert (Hb : bound = 2 ^ dp_chal (dv_par C v)).
  { unfold bn_lshift in E. destruct (_ <? 0); [discriminate|]. injection E as <-. apply Z.mul_1_l. }
  rewrite Hb. apply code_oracle.
Defined.

(** The observer is even told the private key. *)
Theorem C79_key_proof : forall C p pp num v rk ro, ec_laws C -> vrf_created C p pp num v -> Forall (fun g => Z.gcd g (pp_n pp) = 1) (pp_gs pp) -> Z.gcd (pp_h pp) (pp_n pp) = 1 ->
  exists pk sk, shows_nothing (dp_chal p) 2 (dp_sec p) [ec_order C * 2 ^ (dp_chal p + dp_sec p); pp_n pp * 2 ^ (dp_chal p + dp_sec p)] never
    (fun sha512 ds => dy_generate C sha512 v rk ro (nth 0 ds 0) (nth 1 ds 0)) (fun a => keys_query C v (fst (fst a)) (snd a))
    (fun c ds => let* pf := simulated_keys_proof c ds in Ok (pk, sk, pf)).
Proof.
  intros C p pp num v rk ro L Hv Hg Hh. destruct (C65_key_proof_hides C p pp num v rk ro L Hv) as (pk & sk & _ & _ & _ & Hd). exists pk, sk.
  destruct (vrf_created_ok C p pp num v L Hv) as (Ep & Epp & PO & Hs & Hch & _). subst p pp.
  assert (HN : 1 < pp_n (pd_par (dv_ped C v))) by apply PO. pose proof (order_gt1 C L) as Hn.
  assert (PT : 0 < 2 ^ (dp_chal (dv_par C v) + dp_sec (dv_par C v))) by (apply Z.pow_pos_nonneg; lia).
  assert (Run : forall rdk rdo sha, exists a x, dy_generate C sha v rk ro rdk rdo = Ok a /\ keys_query C v (fst (fst a)) (snd a) = Ok x /\
      random_oracle 512 sha x (2 ^ dp_chal (dv_par C v)) = Ok (of_bytes (kp_challenge (snd a)))).
  { intros rdk rdo sha. destruct (C49_keys_honest C sha (dv_par C v) _ num v rk ro rdk rdo L Hv Hg Hh) as (pk' & sk' & pf & E & _ & _ & _ & A).
    rewrite verify_keys_query in A by lia. apply bind_ok in A. destruct A as (x & Ex & A). apply bind_ok in A. destruct A as (c & Ec & A).
    destruct (Z.eqb_spec c (of_bytes (kp_challenge pf))); [|discriminate]. subst c. exists (pk', sk', pf), x. split; [exact E|]. split; [exact Ex|exact Ec]. }
  pose proof (every_answer (dp_chal (dv_par C v)) ltac:(lia)) as EA.
  apply (games_close _ _ _ _ never _ _ _ (fun ds => proj1_sig (generate_tree C v rk ro (nth 0 ds 0) (nth 1 ds 0)))); try lia.
  - repeat constructor; nia.
  - apply every_answer. lia.
  - intros ds _. exact (proj2_sig (generate_tree C v rk ro (nth 0 ds 0) (nth 1 ds 0))).
  - intros ds c _ Hc _. destruct (generate_tree C v rk ro (nth 0 ds 0) (nth 1 ds 0)) as (tree & T1 & T2). cbn [proj1_sig].
    apply (accepted_one_question (dp_chal (dv_par C v)) _ (fun a => of_bytes (kp_challenge (snd a))) _ _ _ (proj1 Hch) Hc EA T1 T2).
    + intros sha y _ _ _. apply Run.
    + apply (not_silent (dp_chal (dv_par C v)) (fun a => keys_query C v (fst (fst a)) (snd a)) (fun a => of_bytes (kp_challenge (snd a))) _ _ (proj1 Hch) EA T2).
      intros sha _. destruct (Run (nth 0 ds 0) (nth 1 ds 0) sha) as (a & x & E & _ & Ec). exists a. split; [exact E|]. exists x. exact Ec.
  - intros sha c HO test. specialize (Hd sha c HO test). cbv beta in Hd. change (fun ds => never c ds) with (fun _ : list Z => false). rewrite (count_none _ (never c)) by reflexivity. lia.
Qed.
Print Assumptions C79_key_proof.

(** The guard: some sum of dummy values is a multiple of the order, and no proof can be made. *)
Definition apply_draws_bad (order : Z) (m : nat) (ds : list Z) : bool := existsb (fun i => (nth (1 + i) ds 0 + nth 0 ds 0) mod order =? 0) (seq 0 m).

Theorem C79_apply_proof : forall C p pp num v ms evals pk sk com opn, ec_laws C -> vrf_created C p pp num v ->
  Forall (fun g => Z.gcd g (pp_n pp) = 1) (pp_gs pp) -> Z.gcd (pp_h pp) (pp_n pp) = 1 ->
  let key := of_bytes (dk_key sk) in
  0 < key < ec_order C -> of_bytes (dk_open sk) < pp_n pp -> of_bytes pk = commitment (pp_gs pp) (pp_h pp) (pp_n pp) (repeat key (length (pp_gs pp))) (of_bytes (dk_open sk)) ->
  Forall (fun m => 0 <= m < ec_order C) ms -> (length ms <= length (pp_gs pp))%nat -> opn < pp_n pp ->
  dy_apply C v ms sk = Ok evals -> ped_commit_with_rand (dv_ped C v) ms opn = Ok com ->
  let mask := 2 ^ (dp_chal p + dp_sec p) in
  shows_nothing (dp_chal p) (Z.of_nat (length ms) + 3) (dp_sec p) (ec_order C * mask :: repeat (ec_order C * mask) (length ms) ++ [pp_n pp * mask])
    (fun _ => apply_draws_bad (ec_order C) (length ms))
    (fun sha512 ds => dy_prove_apply C sha512 v ms evals pk sk com opn (nth 0 ds 0) (fun i => nth (1 + i) ds 0) (nth (1 + length ms) ds 0))
    (apply_query C v evals pk com)
    (fun c ds => simulated_apply_proof C v evals pk com c ds).
Proof.
  intros C p pp num v ms evals pk sk com opn L Hv Hg Hh key Hkey Hko Hpk Hms Hlen Hopn Eev Ecom mask.
  pose proof (fun sha rdk rm rdo => C49_apply_honest C sha p pp num v ms evals pk sk com opn rdk rm rdo L Hv Hkey Hpk Hms Hlen Eev Ecom) as Hon.
  pose proof (fun sha c HO => C65_apply_proof_hides C sha p pp num v ms evals pk sk com opn c L Hv Hg Hh Hkey Hko Hpk Hms Hlen Hopn Eev Ecom HO) as Hd. cbv zeta in Hd. fold mask in Hd.
  destruct (vrf_created_ok C p pp num v L Hv) as (Ep & Epp & PO & Hs & Hch & _). subst p pp. pose proof (order_gt1 C L) as Hn. assert (HN : 1 < pp_n (pd_par (dv_ped C v))) by apply PO.
  assert (HT : 0 < mask) by (apply Z.pow_pos_nonneg; lia).
  set (msg1 := fun ds : list Z => apply_message1 C v ms evals (nth 0 ds 0) (fun i => nth (1 + i) ds 0) (nth (1 + length ms) ds 0)).
  set (x := fun ds => match (let* (dcom, dpts, st) := msg1 ds in let* dcb := to_bytes dcom in let* dpb := point_vector_to_proto C dpts in let* cb := to_bytes com in let* eb := point_vector_to_proto C evals in
                             Ok (apply_hash_input (dv_par C v) pk cb eb dcb dpb)) with Ok b => b | _ => [] end).
  set (fin := fun ds c => let* (dcom, dpts, st) := msg1 ds in let '(dms, dkey, dopn) := st in let* dcb := to_bytes dcom in let* dpb := point_vector_to_proto C dpts in
                           let* (masked, mopn) := apply_message2 C v ms opn key (of_bytes (dk_open sk)) dms dkey dopn c in let* mb := bignum_vector_to_proto masked in let* mob := to_bytes mopn in
                           Ok {| ap_commit := dcb; ap_points := dpb; ap_masked := mb; ap_masked_open := mob |}).
  assert (Dummies : forall ds, in_range (ec_order C * mask :: repeat (ec_order C * mask) (length ms) ++ [pp_n (pd_par (dv_ped C v)) * mask]) ds ->
     forall dkey dms, dummy_values C v ms (nth 0 ds 0) (fun i => nth (1 + i) ds 0) = Ok (dkey, dms) -> forall i, (i < length ms)%nat -> nth i dms 0 = nth (1 + i) ds 0 + nth 0 ds 0).
  { intros ds Hr dkey dms E i Hi. unfold dummy_values in E. rewrite lshift_ok in E by lia. cbn [bind] in E. replace (2 ^ (dp_sec (dv_par C v) + dp_chal (dv_par C v))) with mask in E by (unfold mask; f_equal; lia).
    rewrite rand_ok in E by nia. cbn [bind] in E. unfold num_gs in E.
    assert (R0 : 0 <= nth 0 ds 0 < ec_order C * mask) by (apply (draw_range _ _ 0%nat Hr); cbn [length]; lia). rewrite (Z.mod_small (nth 0 ds 0)) in E by exact R0.
    rewrite (mapM_seq _ (fun i => if (i <? length ms)%nat then (nth (1 + i) ds 0) mod (ec_order C * mask) + nth 0 ds 0 else nth 0 ds 0)) in E
      by (intros j _; destruct (j <? length ms)%nat; [rewrite rand_ok by nia; reflexivity|reflexivity]). cbn [bind] in E. injection E as _ <-.
    rewrite seq_map_nth. destruct (Nat.ltb_spec i (length (pp_gs (pd_par (dv_ped C v))))); [|lia]. destruct (Nat.ltb_spec i (length ms)); [|lia]. f_equal. apply Z.mod_small.
    apply (part_range [ec_order C * mask] (ec_order C * mask) (length ms) [pp_n (pd_par (dv_ped C v)) * mask] ds Hr i Hi). }
  apply (explicit_close _ _ _ _ (apply_draws_bad (ec_order C) (length ms)) _ _ _ x fin (Err Internal)); try lia.
  - constructor; [nia|]. apply Forall_app. split; [apply Forall_forall; intros y Hy; apply repeat_spec in Hy; nia|repeat constructor; nia].
  - apply every_answer. lia.
  - intros ds Hr Hb sha. destruct (Hon sha (nth 0 ds 0) (fun i => nth (1 + i) ds 0) (nth (1 + length ms) ds 0)) as (dkey & dms & E & _ & _ & B). apply B.
    apply existsb_exists in Hb. destruct Hb as (i & Hi & H0). apply in_seq in Hi. exists i. split; [lia|]. rewrite (Dummies ds Hr dkey dms E i) by lia. apply Z.eqb_eq. exact H0.
  - intros ds Hr Hb. assert (Ok_ : forall sha, exists pf, dy_prove_apply C sha v ms evals pk sk com opn (nth 0 ds 0) (fun i => nth (1 + i) ds 0) (nth (1 + length ms) ds 0) = Ok pf).
    { intros sha. destruct (Hon sha (nth 0 ds 0) (fun i => nth (1 + i) ds 0) (nth (1 + length ms) ds 0)) as (dkey & dms & E & _ & A & _). destruct A as (pf & Epf & _); [|exists pf; exact Epf].
      intros i Hi H0. rewrite (Dummies ds Hr dkey dms E i Hi) in H0. assert (X : apply_draws_bad (ec_order C) (length ms) ds = true); [|congruence].
      apply existsb_exists. exists i. split; [apply in_seq; lia|]. apply Z.eqb_eq. exact H0. }
    assert (Parts : exists dcom dpts dms dkey dopn dcb dpb cb eb, msg1 ds = Ok (dcom, dpts, (dms, dkey, dopn)) /\ to_bytes dcom = Ok dcb /\ point_vector_to_proto C dpts = Ok dpb /\ to_bytes com = Ok cb /\ point_vector_to_proto C evals = Ok eb).
    { destruct (Ok_ (fun _ => [])) as (pf & E). unfold dy_prove_apply in E. fold (msg1 ds) in E. apply bind_ok in E. destruct E as ([[dcom dpts] [[dms dkey] dopn]] & E1 & E). apply bind_ok in E. destruct E as (dcb & E2 & E).
      apply bind_ok in E. destruct E as (dpb & E3 & E). apply bind_ok in E. destruct E as (c & Ec & _). unfold apply_challenge in Ec. apply bind_ok in Ec. destruct Ec as (cb & E4 & Ec). apply bind_ok in Ec. destruct Ec as (eb & E5 & _).
      exists dcom, dpts, dms, dkey, dopn, dcb, dpb, cb, eb. repeat (split; [assumption|]). assumption. }
    destruct Parts as (dcom & dpts & dms & dkey & dopn & dcb & dpb & cb & eb & E1 & E2 & E3 & E4 & E5).
    assert (Ex : x ds = apply_hash_input (dv_par C v) pk cb eb dcb dpb) by (unfold x; rewrite E1; cbn [bind]; rewrite E2; cbn [bind]; rewrite E3; cbn [bind]; rewrite E4; cbn [bind]; rewrite E5; reflexivity).
    assert (Run : forall sha, dy_prove_apply C sha v ms evals pk sk com opn (nth 0 ds 0) (fun i => nth (1 + i) ds 0) (nth (1 + length ms) ds 0) = let* c := random_oracle 512 sha (x ds) (2 ^ dp_chal (dv_par C v)) in fin ds c).
    { intros sha. unfold dy_prove_apply. fold (msg1 ds). rewrite E1. cbn [bind]. rewrite E2. cbn [bind]. rewrite E3. cbn [bind]. unfold apply_challenge. rewrite E4. cbn [bind]. rewrite E5. cbn [bind].
      rewrite lshift_ok by lia. cbn [bind]. rewrite Z.mul_1_l, Ex. unfold fin. rewrite E1. cbn [bind]. rewrite E2. cbn [bind]. rewrite E3. cbn [bind]. reflexivity. }
    split; [exact Run|]. intros c Hc. destruct (every_answer (dp_chal (dv_par C v)) ltac:(lia) (fun _ => c) (fun _ => Hc)) as (sha & Esha). destruct (Ok_ sha) as (pf & Epf). rewrite Run, Esha in Epf. cbn [bind] in Epf.
    exists pf. split; [exact Epf|]. unfold fin in Epf. rewrite E1 in Epf. cbn [bind] in Epf. rewrite E2 in Epf. cbn [bind] in Epf. rewrite E3 in Epf. cbn [bind] in Epf.
    apply bind_ok in Epf. destruct Epf as ([masked mopn] & _ & Epf). apply bind_ok in Epf. destruct Epf as (mb & _ & Epf). apply bind_ok in Epf. destruct Epf as (mob & _ & Epf). injection Epf as <-.
    unfold apply_query. cbn [ap_commit ap_points]. rewrite E4. cbn [bind]. rewrite E5. cbn [bind]. rewrite Ex. reflexivity.
  - intros sha c HO. apply Hd. exact HO.
Qed.
Print Assumptions C79_apply_proof.
