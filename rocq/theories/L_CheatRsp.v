(** Lemmas about the answer to the requester of S_Cheat: it is a signature on a message of the requester's choice. *)
From Coq Require Import Znumtheory.
From Verif Require Import Base M_BigNum L_BigNum M_Num L_Mod L_Num L_NT M_DJ L_DJ M_Paillier L_Paillier L_PaillierKey M_EC L_EC L_Cipher M_Proto M_CS S_CS L_CS
  M_Simul M_Pedersen M_Wire M_VRF M_BB L_BBct L_BBhom L_BBped L_BBreq L_BBrsp S_Exp S_Pedersen L_Exp L_Protocol L_Pedersen L_VRF S_BB S_Cheat L_BB L_HideKey L_Cheat.

Section Answer.
Variable flag : bool.
Variable C : ec.
Variable sha : bytes -> bytes.
Variable b : bb C.
Variable n : Z.
Variable s : nat.
Variable xs : list Z.
Notation cs := (bb_cs C b).
Notation len := (cs_len cs).
Notation q := (ec_order C).
Notation par := (bb_par C b).
Notation pp := (pd_par (bb_ped C b)).
Notation N := (pp_n pp).
Notation G := (length (pp_gs pp)).
Notation t := (bp_chal par + bp_sec par).
Notation M := (n ^ (Z.of_nat s + 1)).
Notation P := (n ^ Z.of_nat s).
Notation E := (enc n s cs xs).
Hypothesis W : cs_valid n s cs.
Hypothesis Hg : Z.gcd (cs_g cs) n = 1.
Hypothesis Hk : key_match n s (cs_g cs) xs (cs_ys cs).
Hypothesis Hlen : (0 < len)%nat.
Hypothesis PO : ped_ok (bb_ped C b).
Hypothesis UN : units (pd_par (bb_ped C b)).
Hypothesis L : ec_laws C.
Hypothesis Hsec : 0 < bp_sec par.
Hypothesis Hchal : 0 < bp_chal par <= 120000.
Hypothesis Hbase : bb_base C b <> pinf C.
Hypothesis Hbound : 2 ^ (2 * bp_chal par + 2 * bp_sec par + 1) * q * q * q <= n ^ Z.of_nat s.
Variable sk : cs_private.
Hypothesis SV : cs_priv_valid n s sk.
Hypothesis SP : cs_pub sk = cs.
Hypothesis SX : cs_xs sk = xs.
Variable ok oy : nat -> Z.
Variable k y : Z.
Hypothesis Hok : forall j, 0 <= ok j.
Hypothesis Hoy : forall j, 0 <= oy j.
Hypothesis Rk : 0 < k < q.
Hypothesis Ry : 0 < y < q.
Variable ms rs : list Z.
Hypothesis Lr : length rs = length ms.
Hypothesis HmG : (length ms <= G)%nat.
Hypothesis Rms : Forall (fun x => 0 <= x < q) ms.
Hypothesis Rrs : Forall (fun x => 0 <= x < q) rs.
Notation m := (length ms).
Variable T : Z.
Hypothesis HT : 0 < T.
Hypothesis FM : full M T.

Lemma in_q l j : Forall (fun x => 0 <= x < q) l -> 0 <= nth j l 0 < q.
Proof. intros H. pose proof (order_gt1 C L). destruct (Nat.ltb_spec j (length l)) as [Hj|Hj]; [|rewrite nth_overflow by lia; lia]. rewrite Forall_forall in H. apply H, nth_In, Hj. Qed.
Section Any.
Variable e : req_entropy.
Variable rq : bb_request.
Variable st : list bytes.
Notation as_ := (mask_as C e m).
Notation ga := (map2 Z.mul rs as_).
Notation R := (hr C b ok oy as_ ga (enc_rand C b n e m)).
Notation F := (hf C b k y (hidden_msgs C ms as_ (mask_bs C b e m)) as_ ga).
Hypothesis Qn : rq_num rq = m.
Hypothesis Qc : mapM (cs_parse_ct cs) (rq_cts rq) = Ok (tab (num_cts len m) (fun i => E ((T - 1) * R i) (fun l => (T - 1) * F i l))).
Hypothesis Qs : parse_bignum_vector st = as_.
Notation beta := (betav C b k y ms rs e).
Notation a := (av C e).

Lemma beta_range j : 0 <= beta j < P.
Proof. destruct (betav_range C b n s Hlen L Hsec Hchal Hbound k y Rk Ry ms rs Lr HmG Rms Rrs e rq Qn j) as (H1 & H2 & _). split; assumption. Qed.
Lemma beta_pos j : 0 < beta j.
Proof.
  pose proof (av_range C L e j) as Ra. pose proof (in_q ms j Rms : 0 <= mv ms j < q) as Rm. pose proof (in_q rs j Rrs : 0 <= rv rs j < q) as Rr. pose proof (bv_range C b n s Hlen L Hsec Hchal ms rs Lr HmG e rq Qn j) as Rb.
  unfold betav. pose proof (Z.mul_nonneg_nonneg (mv ms j) (a j)). pose proof (Z.mul_nonneg_nonneg (bv C b e j) q). pose proof (Z.mul_pos_pos (a j) k).
  assert (0 <= rv rs j * a j * y) by (apply Z.mul_nonneg_nonneg; [apply Z.mul_nonneg_nonneg|]; lia). lia.
Qed.
Definition beta' (j : nat) : Z := P - beta j.
Definition F' (i l : nat) : Z := if (i * len + l <? m)%nat then beta' (i * len + l) else 0.
Lemma F'_nonneg i l : 0 <= F' i l.
Proof. unfold F', beta'. pose proof (beta_range (i * len + l)). destruct (_ <? _)%nat; lia. Qed.

Lemma turned_message u f : 0 <= f <= P -> eqmod M (u ^ ((T - 1) * f)) (u ^ (P - f)) \/ ~ (eqmod M (u ^ P) 1 /\ Z.gcd u M = 1).
Proof.
  intros Hf. destruct (Z.eq_dec (Z.gcd u M) 1) as [Gu|Gu]; [|right; intros [_ H]; contradiction].
  pose proof (M1 n s cs W) as HM. destruct (Z.eq_dec (u ^ P mod M) (1 mod M)) as [Ep|Ep]; [|right; intros [H _]; apply Ep, eqmod_eq; [lia|exact H]].
  left. apply eq_eqmod in Ep. apply (eqmod_cancel M (u ^ f)); [apply coprime_pow_gcd; [lia|exact Gu]|].
  rewrite <- !Z.pow_add_r by (first [lia|apply Z.mul_nonneg_nonneg; lia]). replace (f + (T - 1) * f) with (f * T) by ring. replace (f + (P - f)) with P by ring.
  rewrite Ep, Z.pow_mul_r by lia. apply FM. apply coprime_pow_gcd; [lia|exact Gu].
Qed.
Lemma one_plus_P : eqmod M ((1 + n) ^ P) 1.
Proof.
  pose proof (n1 n s cs W) as Hn. assert (HP : 0 < P) by (apply Z.pow_pos_nonneg; lia).
  rewrite (one_plus_period n n s Hn (Z.divide_refl n) P) by lia. rewrite Z.mod_same by lia. reflexivity.
Qed.
Lemma cts_beta' : mapM (cs_parse_ct cs) (rq_cts rq) = Ok (cts C b n s xs m (fun i => (T - 1) * R i) F').
Proof.
  rewrite Qc. f_equal. unfold cts. apply tab_ext. intros i Hi. unfold enc. f_equal. apply tab_ext. intros l Hl. unfold enc_e. pose proof (M1 n s cs W) as HM. apply eqmod_eq; [lia|].
  unfold F'. destruct (Nat.ltb_spec (i * len + l) m) as [Hj|Hj].
  - rewrite (hf_beta C b n s Hlen Hsec Hchal k y ms rs Lr HmG e rq Qn i l Hj). pose proof (beta_range (i * len + l)) as Br.
    destruct (turned_message (1 + n) (beta (i * len + l)) ltac:(lia)) as [H|H]; [rewrite H; reflexivity|]. exfalso. apply H. split; [apply one_plus_P|].
    rewrite <- (Z.pow_1_r (1 + n)). apply (np1_unit n s). lia.
  - assert (La : length as_ = m) by apply tab_len. assert (Lb : length (mask_bs C b e m) = m) by apply tab_len.
    assert (Lh : length (hidden_msgs C ms as_ (mask_bs C b e m)) = m) by (unfold hidden_msgs; rewrite !map2_len; rewrite ?map2_len; lia).
    assert (Lg : length ga = m) by (rewrite map2_len; lia).
    assert (F0 : F i l = 0).
    { unfold hf. rewrite (nth_overflow _ _ (eq_ind_r (fun z => (z <= i * len + l)%nat) Hj Lh)), (nth_overflow _ _ (eq_ind_r (fun z => (z <= i * len + l)%nat) Hj La)), (nth_overflow _ _ (eq_ind_r (fun z => (z <= i * len + l)%nat) Hj Lg)).
      rewrite !Z.mul_0_l. reflexivity. }
    rewrite F0, Z.mul_0_r. reflexivity.
Qed.

Variable ms' : list Z.
Hypothesis Lm' : length ms' = m.
Hypothesis Target : forall j, (j < m)%nat -> eqmod q P (a j * (mv ms j - mv ms' j)).
Hypothesis Defined : forall j, (j < m)%nat -> (mv ms' j + k + y * rv rs j) mod q <> 0.

Lemma beta'_eqmod j : (j < m)%nat -> eqmod q (beta' j) (- a j * (mv ms' j + k + y * rv rs j)).
Proof. intros Hj. unfold beta'. rewrite (Target j Hj), (betav_eqmod C b k y ms rs e j). exists 0. ring. Qed.
Lemma beta'_nz j : (j < m)%nat -> beta' j mod q <> 0.
Proof.
  intros Hj E0. pose proof (order_gt1 C L) as Hq. pose proof (av_range C L e j) as Ra. pose proof (beta'_eqmod j Hj) as B. apply Z.mod_divide in E0; [|lia]. apply (proj2 (eqmod_0 _ _)) in E0. rewrite E0 in B. symmetry in B. apply (proj1 (eqmod_0 _ _)) in B.
  apply prime_mult in B; [|apply (order_prime C L)]. destruct B as [B|B].
  - apply Z.divide_opp_r in B. rewrite Z.opp_involutive in B. apply Z.divide_pos_le in B; lia.
  - apply (Defined j Hj). apply Z.mod_divide; [lia|exact B].
Qed.

Lemma opposite_answer pk cm cr e2 : 0 <= cm -> 0 <= cr -> (forall j, (j < m)%nat -> s_betas e2 j mod q <> 0) ->
  exists rsp pf Ps, bb_respond flag C sha b rq pk cm cr sk e2 = Ok (rsp, pf) /\ opposite_extract C rsp st = Ok Ps /\
    Forall2 (fun mr P => bb_value C (bb_base C b) k y (fst mr) (snd mr) P) (combine ms' rs) Ps.
Proof.
  intros Hcm Hcr Hd. assert (HR : forall i, 0 <= (T - 1) * R i) by (intros i; apply Z.mul_nonneg_nonneg; [lia|apply (R_nonneg C b n s W Hlen L ok oy Hok Hoy ms rs Lr HmG Rrs e rq Qn)]).
  assert (HB : forall i l, (l < len)%nat -> (i * len + l < m)%nat -> F' i l = beta' (i * len + l)) by (intros i l _ Hj; unfold F'; destruct (Nat.ltb_spec (i * len + l) m); [reflexivity|lia]).
  assert (BB : forall j, (j < m)%nat -> 0 <= beta' j < P) by (intros j _; unfold beta'; pose proof (beta_range j); pose proof (beta_pos j); lia).
  destruct (any_response flag C sha b n s xs W Hg Hk Hlen PO UN L Hsec Hchal Hbase sk SV SP SX m (fun i => (T - 1) * R i) F' beta' HR F'_nonneg HB BB rq Qn cts_beta' beta'_nz pk cm cr e2 HmG Hcm Hcr) as [_ H2].
  destruct H2 as (rsp & pf & E1 & E2 & _). { intros j Hj. rewrite (dbeta_mod C b n s Hlen L Hsec Hchal ms rs Lr HmG rq Qn e2 j). apply Hd, Hj. }
  exists rsp, pf, (map (pneg C) (tab m (fun j => point_mul C (sig C b beta' j) (a j)))). split; [exact E1|]. split.
  - unfold opposite_extract, bb_extract. rewrite E2. cbn [bind]. rewrite Qs, tab_len. rewrite (mapM_seq _ (fun j => point_mul C (sig C b beta' j) (a j))); [reflexivity|]. intros j Hj.
    rewrite (at_index_some _ _ (sig C b beta' j)) by (rewrite tab_at by exact Hj; reflexivity). cbn [bind].
    rewrite (at_index_some _ _ (a j)) by (unfold mask_as; rewrite tab_at by exact Hj; reflexivity). reflexivity.
  - rewrite map_tab. apply (forall2_tab _ (0, 0)); [rewrite combine_length; lia|]. intros j Hj. rewrite combine_nth by lia. cbn [fst snd]. 
    split; [apply Defined, Hj|]. destruct (sig_base C b Hlen L Hbase m beta' rq Qn j (beta'_nz j Hj)) as [Sb _].
    rewrite (point_mul_eq C L), <- (pmul_neg C L), <- (pmul_mul C L). transitivity (pmul C (beta' j) (sig C b beta' j)); [|exact Sb]. apply (pmul_eqmod C L). rewrite (beta'_eqmod j Hj). unfold mv, rv. exists 0. ring.
Qed.
End Any.

(** ** Entropy for a chosen message *)
Variable ms' : list Z.
Hypothesis Lm' : length ms' = m.
Hypothesis Rms' : Forall (fun x => 0 <= x < q) ms'.
Hypothesis Differ : forall j, (j < m)%nat -> mv ms j <> mv ms' j.
Hypothesis Hnq : n mod q <> 0.
Definition mask_for (j : nat) : Z := (P * inv_q C (mv ms j - mv ms' j)) mod q.
Definition target_e : req_entropy :=
  {| e_a := fun j => mask_for j - 1; e_b := fun _ => 0; e_enc := fun _ => 0; e_ao := fun _ => 0; e_bo := 0; e_zal := 0; e_zga := 0;
     d_m := fun _ => 0; d_r := fun _ => 0; d_a := fun _ => -1; d_ao := fun _ => 0; d_b := fun _ => 0; d_al := fun _ => -1; d_ga := fun _ => -1;
     d_mo := 0; d_ro := 0; d_bo := 0; d_al1 := 0; d_al2 := 0; d_ga1 := 0; d_ga2 := 0; d_enc := fun _ => 1 |}.
Lemma pow_nq : P mod q <> 0.
Proof.
  pose proof (order_gt1 C L) as Hq. intros E0. apply Z.mod_divide in E0; [|lia]. apply Hnq. apply Z.mod_divide; [lia|]. revert E0. clear - L. intros H.
  induction s as [|s' IH]; [change (n ^ Z.of_nat 0) with 1 in H; pose proof (order_gt1 C L); apply Z.divide_1_r_nonneg in H; lia|].
  rewrite Nat2Z.inj_succ, Z.pow_succ_r in H by lia. apply prime_mult in H; [|apply (order_prime C L)]. destruct H; [assumption|apply IH; assumption].
Qed.
Lemma mask_for_ok j : (j < m)%nat -> 0 < mask_for j < q /\ eqmod q P (mask_for j * (mv ms j - mv ms' j)).
Proof.
  intros Hj. pose proof (order_gt1 C L) as Hq. pose proof (in_q ms j Rms : 0 <= mv ms j < q) as R1. pose proof (in_q ms' j Rms' : 0 <= mv ms' j < q) as R2. pose proof (Differ j Hj) as D.
  assert (Nz : (mv ms j - mv ms' j) mod q <> 0).
  { intros E0. apply Z.mod_divide in E0; [|lia]. destruct E0 as [z Ez]. pose proof (Z.mul_le_mono_nonneg_r 1 z q). pose proof (Z.mul_le_mono_nonneg_r z (-1) q). destruct (Z.eq_dec z 0) as [->|]; lia. }
  destruct (inv_q_ok C b Hlen L m {| rq_num := m; rq_cts := [] |} eq_refl _ Nz) as (_ & Bi & Pi).
  assert (Eq : eqmod q P (mask_for j * (mv ms j - mv ms' j))).
  { unfold mask_for. rewrite (eqmod_mod q). transitivity (P * ((mv ms j - mv ms' j) * inv_q C (mv ms j - mv ms' j))); [rewrite Pi, Z.mul_1_r; reflexivity|exists 0; ring]. }
  split; [|exact Eq]. pose proof (Z.mod_pos_bound (P * inv_q C (mv ms j - mv ms' j)) q ltac:(lia)) as B. fold (mask_for j) in B.
  assert (mask_for j <> 0); [|lia]. intros E0. rewrite E0, Z.mul_0_l in Eq. apply pow_nq. apply Z.mod_divide; [lia|]. apply (proj1 (eqmod_0 _ _)). exact Eq.
Qed.
Lemma target_a j : (j < m)%nat -> av C target_e j = mask_for j.
Proof. intros Hj. destruct (mask_for_ok j Hj) as [B _]. unfold av. cbn [target_e e_a]. rewrite key_draw by lia. lia. Qed.

Lemma target_covers om or_ rc w d c : 0 <= om -> 0 <= or_ ->
  commit_secrets C b ms rs (mask_as C target_e m) (mask_bs C b target_e m) om or_ (enc_rand C b n target_e m) target_e = Ok (rc, w) -> draw_dummies C b m target_e = Ok d -> 0 <= c < 2 ^ bp_chal par ->
  shaped C b m (masked_values c d (opposite w)) /\ Forall (rnd_ok n) (v_enc (masked_values c d (opposite w))).
Proof.
  intros Hom Hor Ew Ed Hc. pose proof (order_gt1 C L) as Hq. assert (HN : 1 < N) by apply PO. pose proof (n1 n s cs W) as Hn.
  assert (PT : 0 < 2 ^ t) by (apply Z.pow_pos_nonneg; lia). assert (CT : 2 ^ bp_chal par <= 2 ^ t) by (apply Z.pow_le_mono_r; lia).
  set (U := 2 ^ t) in *.
  assert (HU2 : 2 <= U). { unfold U. change 2 with (2 ^ 1) at 1. apply Z.pow_le_mono_r; lia. }
  assert (Z0 : forall z, 0 mod z = 0) by (intros; apply Zmod_0_l).
  assert (La : length (mask_as C target_e m) = m) by apply tab_len.
  assert (tab0 : forall j f, (forall i, f i = 0) -> tab j f = repeat 0 j).
  { intros j f Hf. unfold tab. assert (GEN : forall a, map f (seq a j) = repeat 0 j); [|apply GEN]. induction j as [|j IH]; intros a; [reflexivity|]. cbn [seq map repeat]. rewrite Hf, IH. reflexivity. }
  (* the secrets *)
  unfold commit_secrets in Ew. rewrite La in Ew.
  apply bind_ok in Ew. destruct Ew as (cas & Ecas & Ew). apply bind_ok in Ew. destruct Ew as ((cb & ob) & Eob & Ew). apply bind_ok in Ew. destruct Ew as ((al0 & oal) & Eal & Ew).
  apply bind_ok in Ew. destruct Ew as ((ga0 & oga) & Ega & Ew). apply bind_ok in Ew. destruct Ew as (al & _ & Ew). apply bind_ok in Ew. destruct Ew as (gaa & _ & Ew).
  assert (Open : forall l cc oo, ped_commit (bb_ped C b) l 0 = Ok (cc, oo) -> oo = 0).
  { intros l cc oo H. unfold ped_commit in H. rewrite rand_ok in H by lia. cbn [bind] in H. apply bind_ok in H. destruct H as (x & _ & H). injection H as _ <-. apply Z0. }
  cbn [target_e e_bo e_zal e_zga] in Eob, Eal, Ega. apply Open in Eob, Eal, Ega. subst ob oal oga.
  assert (Os : map snd cas = repeat 0 m).
  { assert (GEN : forall js l, mapM (fun i => let* a := at_index (mask_as C target_e m) i in ped_commit (bb_ped C b) (slot (length (pp_gs pp)) i a) (e_ao target_e i)) js = Ok l -> map snd l = repeat 0 (length js)).
    { induction js as [|j js IH]; intros l H; cbn [mapM] in H; [injection H as <-; reflexivity|]. apply bind_ok in H. destruct H as ((c1 & o1) & H1 & H). apply bind_ok in H. destruct H as (l' & H2 & H). injection H as <-.
      cbn [map snd length repeat]. rewrite (IH l' H2). f_equal. apply bind_ok in H1. destruct H1 as (x & _ & H1). cbn [target_e e_ao] in H1. apply Open in H1. exact H1. }
    apply GEN in Ecas. rewrite seq_length in Ecas. exact Ecas. }
  assert (D0 : forall z es, dot 0 (repeat 0 z) es = 0). { induction z as [|z IH]; intros [|x es]; cbn [repeat dot]; try reflexivity. rewrite Z.mul_0_l. apply IH. }
  injection Ew as _ Ew. rewrite Os, !D0 in Ew.
  (* the dummies *)
  unfold draw_dummies in Ed. rewrite !lshift_ok in Ed by lia. cbn [bind] in Ed. rewrite !lshift_ok in Ed by lia. cbn [bind] in Ed. rewrite (w_n _ _ _ W) in Ed. fold U in Ed.
  assert (Q1 : 0 < q * U) by nia. assert (Q3 : 0 < q * q * U * U) by (clear - Hq PT; nia). assert (Q4 : 0 < q * U * q) by nia.
  assert (Q5 : 0 < N * U) by nia. assert (Q6 : 0 < N * U * q * Z.of_nat (m + 1)) by (clear - Q5 Hq; nia). assert (Q7 : 0 < n * U) by nia.
  rewrite !draws_ok in Ed by assumption. cbn [bind] in Ed. rewrite !rand_ok in Ed by assumption. cbn [bind] in Ed.
  injection Ed as Ed. cbn [target_e d_m d_r d_a d_ao d_b d_al d_ga d_mo d_ro d_bo d_al1 d_al2 d_ga1 d_ga2 d_enc] in Ed.
  assert (Mm1 : forall z, 0 < z -> (-1) mod z = z - 1). { intros z Hz. symmetry. apply (Z.mod_unique_pos _ _ (-1)); lia. }
  assert (M1' : 1 mod (n * U) = 1) by (apply Z.mod_small; nia). rewrite M1' in Ed. rewrite !Mm1 in Ed by assumption. rewrite !Z0 in Ed.
  assert (Rr0 : forall z, tab z (fun _ => 0) = repeat 0 z) by (intros; apply tab0; reflexivity).
  assert (Opp0 : forall z, map Z.opp (repeat 0 z) = repeat 0 z) by (induction z as [|z IH]; [reflexivity|]; cbn [repeat map]; rewrite IH; reflexivity).
  assert (Mk0 : forall z, map2 (mask c) (repeat 0 z) (repeat 0 z) = repeat 0 z). { induction z as [|z IH]; [reflexivity|]. cbn [repeat map2]. rewrite IH. unfold mask. f_equal. lia. }
  assert (Bs0 : mask_bs C b target_e m = repeat 0 m) by (unfold mask_bs; apply tab0; intros i; cbn [target_e e_b]; apply Z0).
  assert (En0 : enc_rand C b n target_e m = repeat 0 (num_cts len m)) by (unfold enc_rand; apply tab0; intros i; cbn [target_e e_enc]; apply Z0).
  assert (Nm : nonneg ms) by (eapply Forall_impl; [|exact Rms]; cbn beta; lia). assert (Nr : nonneg rs) by (eapply Forall_impl; [|exact Rrs]; cbn beta; lia).
  assert (Rep : forall z, nonneg (repeat 0 z)) by (intros z; apply Forall_forall; intros x Hx; apply repeat_spec in Hx; lia).
  assert (Me : map2 (mask c) (tab (num_cts len m) (fun _ => 1)) (repeat 0 (num_cts len m)) = repeat 1 (num_cts len m)).
  { unfold tab. assert (GEN : forall z a, map2 (mask c) (map (fun _ => 1) (seq a z)) (repeat 0 z) = repeat 1 z); [|apply GEN]. induction z as [|z IH]; intros a; [reflexivity|]. cbn [seq map repeat map2]. rewrite IH. unfold mask. f_equal. lia. }
  assert (Top : forall B X wl, length wl = m -> Forall (fun x => 0 <= x < X) wl -> 0 < X -> U * X <= B -> nonneg (map2 (mask c) (tab m (fun _ => B - 1)) (map Z.opp wl))).
  { intros B X wl Lw Hw HX HB. eapply (map2_bound (mask c) (fun x => x = B - 1) (fun x => - X < x <= 0)).
    - cbn beta. intros x z -> Hz. unfold mask. assert (c * - z <= (U - 1) * (X - 1)) by (apply Z.mul_le_mono_nonneg; lia). nia.
    - apply tab_Forall. reflexivity.
    - apply Forall_forall. intros x Hx. apply in_map_iff in Hx. destruct Hx as (z & <- & Hz). rewrite Forall_forall in Hw. specialize (Hw z Hz). lia. }
  pose proof (mask_as_range C L target_e m) as Ra. assert (Ra' : Forall (fun x => 0 <= x < q) (mask_as C target_e m)) by (eapply Forall_impl; [|exact Ra]; cbn beta; lia).
  assert (Rp : forall es, Forall (fun x => 0 <= x < q) es -> Forall (fun x => 0 <= x < q * q) (map2 Z.mul es (mask_as C target_e m))).
  { intros es Hes. apply (map2_bound Z.mul (fun x => 0 <= x < q) (fun x => 0 <= x < q)); [|exact Hes|exact Ra']. clear. intros x z Hx Hz. nia. }
  assert (Lp : forall es, length es = m -> length (map2 Z.mul es (mask_as C target_e m)) = m) by (intros; rewrite map2_len; lia).
  assert (C0 : mask c 0 (- 0) = 0) by (unfold mask; lia).
  assert (NN : forall l, nonneg l -> nonneg (map2 (mask c) (repeat 0 m) l)).
  { intros l Hl. apply nonneg_map2; [|apply Rep|exact Hl]. intros x z Hx Hz. unfold mask. pose proof (Z.mul_nonneg_nonneg c z). lia. }
  rewrite <- Ed, <- Ew. clear Ed Ew. split.
  - constructor; cbn [masked_values opposite v_messages v_messages_open v_rs v_rs_open v_as v_as_open v_bs v_bs_open v_alphas v_alphas_1 v_alphas_2 v_gammas v_gammas_1 v_gammas_2 v_enc];
      rewrite ?Bs0, ?En0, ?Rr0, ?Opp0, ?Mk0, ?Me.
    all: try (rewrite map2_len; rewrite ?map_length, ?repeat_length, ?tab_len, ?Lp; (lia || reflexivity)).
    all: try (rewrite repeat_length; reflexivity).
    all: try apply Rep.
    all: try (apply NN; assumption).
    all: try (unfold mask; pose proof (Z.mul_nonneg_nonneg c om); pose proof (Z.mul_nonneg_nonneg c or_); lia).
    + eapply Top; [exact La|exact Ra'|lia|lia].
    + eapply (Top _ (q * q)); [apply Lp; reflexivity|apply Rp; exact Rms|nia|nia].
    + eapply (Top _ (q * q)); [apply Lp; exact Lr|apply Rp; exact Rrs|nia|nia].
    + apply Forall_forall. intros x Hx. apply repeat_spec in Hx. lia.
  - cbn [masked_values opposite v_enc]. rewrite En0, Opp0, Me. apply Forall_forall. intros x Hx. apply repeat_spec in Hx. subst x. split; [lia|]. right. apply Z.gcd_1_l.
Qed.
End Answer.
