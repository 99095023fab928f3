(** Lemmas about an honest response and its verification. *)
From Coq Require Import Znumtheory.
From Verif Require Import Base M_BigNum L_BigNum M_Num L_Mod L_Num L_NT M_DJ L_DJ M_Paillier L_Paillier L_PaillierKey M_EC L_EC L_Cipher M_Proto M_CS S_CS L_CS
  M_Simul M_Pedersen M_Wire M_VRF M_BB L_BBct L_BBhom L_BBped L_BBreq S_Exp S_Pedersen L_Exp L_Protocol L_Pedersen L_VRF.

(** ** Flattening equal batches *)
Lemma concat_tab_len {A} K len (F : nat -> nat -> A) : length (concat (tab K (fun i => tab len (F i)))) = (K * len)%nat.
Proof.
  unfold tab at 1. assert (H : forall js, length (concat (map (fun i => tab len (F i)) js)) = (length js * len)%nat).
  { induction js as [|j js IH]; [reflexivity|]. cbn [map concat length]. rewrite app_length, IH, tab_len. lia. }
  rewrite H, seq_length. reflexivity.
Qed.
Lemma concat_tab_nth {A} K len (F : nat -> nat -> A) i l : (i < K)%nat -> (l < len)%nat -> nth_error (concat (tab K (fun i => tab len (F i)))) (i * len + l) = Some (F i l).
Proof.
  intros Hi Hl. unfold tab at 1. assert (H : forall k a i, (i < k)%nat -> nth_error (concat (map (fun i => tab len (F i)) (seq a k))) (i * len + l) = Some (F (a + i)%nat l)).
  { clear i Hi. induction k as [|k IH]; intros a i Hi; [lia|]. cbn [seq map concat]. destruct i as [|i].
    - rewrite nth_error_app1 by (rewrite tab_len; cbn; lia). cbn [Nat.mul Nat.add]. rewrite tab_at by exact Hl. f_equal. f_equal. lia.
    - rewrite nth_error_app2 by (rewrite tab_len; cbn; lia). rewrite tab_len. replace (S i * len + l - len)%nat with (i * len + l)%nat by (cbn; lia). rewrite IH by lia. f_equal. f_equal. lia. }
  rewrite H by exact Hi. reflexivity.
Qed.
Lemma batches_flat {A} len m (F : nat -> nat -> A) (f : nat -> A) : (0 < len)%nat -> (forall i l, (l < len)%nat -> (i * len + l < m)%nat -> F i l = f (i * len + l)%nat) ->
  firstn m (concat (tab (num_cts len m) (fun i => tab len (F i)))) = tab m f.
Proof.
  intros Hl Hf. pose proof (num_cts_cover len m Hl) as Hc.
  assert (E : forall j, (j < m)%nat -> nth_error (firstn m (concat (tab (num_cts len m) (fun i => tab len (F i))))) j = nth_error (tab m f) j).
  { intros j Hj. assert (Hd : (j = (j / len) * len + j mod len)%nat) by (rewrite Nat.mul_comm; apply Nat.div_mod; lia). pose proof (Nat.mod_upper_bound j len ltac:(lia)) as Hb.
    assert (Hi : (j / len < num_cts len m)%nat) by (apply Nat.div_lt_upper_bound; [lia|]; rewrite Nat.mul_comm; lia).
    rewrite tab_at by exact Hj. assert (NF : forall (l : list A) k i, (i < k)%nat -> nth_error (firstn k l) i = nth_error l i).
    { clear. induction l as [|x l IH]; intros [|k] [|i] H; try lia; cbn; try reflexivity. apply IH. lia. }
    rewrite NF by exact Hj. rewrite Hd. rewrite concat_tab_nth by assumption. f_equal. apply Hf; [exact Hb|]. rewrite <- Hd. exact Hj. }
  assert (Ln : length (firstn m (concat (tab (num_cts len m) (fun i => tab len (F i))))) = length (tab m f)) by (rewrite firstn_length, concat_tab_len, tab_len; lia).
  rewrite tab_len in Ln. revert E Ln. generalize (firstn m (concat (tab (num_cts len m) (fun i => tab len (F i))))) as l1. intros l1 E Ln.
  assert (L2 : length (tab m f) = m) by apply tab_len. revert E L2. generalize (tab m f) as l2. clear - Ln. revert m Ln.
  induction l1 as [|x l1 IH]; intros m Ln [|z l2] E L2; cbn in Ln, L2; try lia; [reflexivity|]. destruct m as [|m]; [lia|]. f_equal.
  - specialize (E 0%nat ltac:(lia)). cbn in E. congruence.
  - apply (IH m); [lia| |lia]. intros j Hj. apply (E (S j)). lia.
Qed.

Lemma key_match_nth n s g xs ys : key_match n s g xs ys -> forall l, (l < length ys)%nat -> nth l ys 0 = g ^ nth l xs 0 mod n ^ (Z.of_nat s + 1).
Proof. intros H. induction H as [|x y xs ys [_ E] H IH]; intros l Hl; cbn [length] in Hl; [lia|]. destruct l; [exact E|]. cbn [nth]. apply IH. lia. Qed.

Section Rsp.
Variable flag : bool.
Variable C : ec.
Variable sha : bytes -> bytes.
Variable b : bb C.
Variables (n : Z) (s : nat) (xs : list Z).
Notation cs := (bb_cs C b).
Notation M := (n ^ (Z.of_nat s + 1)).
Hypothesis W : cs_valid n s cs.
Hypothesis Hg : Z.gcd (cs_g cs) n = 1.
Hypothesis Hk : key_match n s (cs_g cs) xs (cs_ys cs).
Notation len := (cs_len cs).
Notation E := (enc n s cs xs).
Hypothesis Hlen : (0 < len)%nat.
Notation ped := (bb_ped C b).
Notation pp := (pd_par ped).
Notation N := (pp_n pp).
Notation G := (length (pp_gs pp)).
Notation q := (ec_order C).
Hypothesis PO : ped_ok ped.
Hypothesis UN : units pp.
Hypothesis L : ec_laws C.
Notation sec := (bp_sec (bb_par C b)).
Notation chal := (bp_chal (bb_par C b)).
Notation t := (chal + sec).
Hypothesis Hsec : 0 < sec.
Hypothesis Hchal : 0 < chal <= 120000.
Hypothesis Hbase : bb_base C b <> pinf C.
Variable sk : cs_private.
Hypothesis SV : cs_priv_valid n s sk.
Hypothesis SP : cs_pub sk = cs.
Hypothesis SX : cs_xs sk = xs.
Notation Com := (com C b).
Notation base := (bb_base C b).

(** The request: ciphertexts of the values beta. *)
Variable m : nat.
Variables (R : nat -> Z) (F : nat -> nat -> Z) (beta : nat -> Z).
Hypothesis HR : forall i, 0 <= R i.
Hypothesis HF : forall i l, 0 <= F i l.
Hypothesis Hb : forall i l, (l < len)%nat -> (i * len + l < m)%nat -> F i l = beta (i * len + l)%nat.
Hypothesis Bb : forall j, (j < m)%nat -> 0 <= beta j < n ^ Z.of_nat s.
Notation K := (num_cts len m).
Definition cts : list cs_ciphertext := tab K (fun i => E (R i) (F i)).
Definition betas : list Z := tab m beta.
Variable rq : bb_request.
Hypothesis Qn : rq_num rq = m.
Hypothesis Qc : mapM (cs_parse_ct cs) (rq_cts rq) = Ok cts.

Lemma rq1 : 1 < q. Proof. apply (order_gt1 C L). Qed.
Lemma rN1 : 1 < N. Proof. apply PO. Qed.
Lemma betas_nonneg : nonneg betas. Proof. apply tab_Forall. intros j Hj. apply Bb. exact Hj. Qed.
Lemma betas_len : length betas = m. Proof. apply tab_len. Qed.

Lemma decrypt_request_ok : decrypt_request C b sk rq = Ok (cts, betas).
Proof.
  unfold decrypt_request.
  assert (E1 : mapM (fun c => let* ct := cs_parse_ct cs c in let* bt := cs_decrypt sk ct in Ok (ct, bt)) (rq_cts rq) =
    Ok (tab K (fun i => (E (R i) (F i), tab len (fun l => F i l mod n ^ Z.of_nat s))))).
  { assert (GEN : forall js cs0, mapM (cs_parse_ct cs) cs0 = Ok (map (fun i => E (R i) (F i)) js) ->
      mapM (fun c => let* ct := cs_parse_ct cs c in let* bt := cs_decrypt sk ct in Ok (ct, bt)) cs0 = Ok (map (fun i => (E (R i) (F i), tab len (fun l => F i l mod n ^ Z.of_nat s))) js)).
    { induction js as [|j js IH]; intros [|c cs0] Ec; cbn [mapM map] in *.
      - reflexivity.
      - apply bind_ok in Ec. destruct Ec as (x & _ & Ec). apply bind_ok in Ec. destruct Ec as (x' & _ & Ec). discriminate.
      - discriminate.
      - apply bind_ok in Ec. destruct Ec as (x & Ex & Ec). apply bind_ok in Ec. destruct Ec as (x' & Ex' & Ec). rewrite Ex. cbn [bind]. injection Ec as -> ->.
        rewrite (enc_decrypt n s cs xs W Hg Hk sk (R j) (F j) SV SP SX (HR j) (HF j)). cbn [bind]. rewrite (IH cs0 Ex'). reflexivity. }
    apply GEN. exact Qc. }
  rewrite E1. cbn [bind]. rewrite !map_tab. cbn [fst snd]. rewrite concat_tab_len, Qn. pose proof (num_cts_cover len m Hlen). destruct (Nat.ltb_spec (K * len) m) as [|_]; [lia|].
  f_equal. f_equal. apply (batches_flat len m _ beta Hlen). intros i l Hl Hj. rewrite (Hb i l Hl Hj). apply Z.mod_small, Bb. exact Hj.
Qed.

(** ** The values *)
Definition inv_q (x : Z) : Z := match bn_mod_inverse x q with Ok i => i | _ => 0 end.
Definition sig (j : nat) : pt C := point_mul C base (inv_q (beta j)).
Lemma inv_q_ok x : x mod q <> 0 -> bn_mod_inverse x q = Ok (inv_q x) /\ 0 <= inv_q x < q /\ eqmod q (x * inv_q x) 1.
Proof.
  intros H. pose proof rq1 as Hq. apply (unit_iff C L) in H. unfold inv_q. destruct (bn_mod_inverse_ok x q ltac:(lia) H) as (i & Ei & Bi & Pi). rewrite Ei. split; [reflexivity|]. split; [exact Bi|].
  apply mod_eqmod_iff; [lia|]. rewrite Pi. first [reflexivity|symmetry; apply Z.mod_small; lia].
Qed.
Lemma sig_base j : beta j mod q <> 0 -> pmul C (beta j) (sig j) = base /\ sig j <> pinf C.
Proof.
  intros H. destruct (inv_q_ok _ H) as (_ & _ & P). unfold sig. rewrite (point_mul_eq C L), <- (pmul_mul C L), (pmul_eqmod C L _ 1 base P), (pmul_1 C). split; [reflexivity|].
  intros E0. apply (pmul_inf_iff C L) in E0; [|exact Hbase]. pose proof rq1 as Hq. destruct E0 as [z Ez]. assert (X : eqmod q 1 0). { rewrite <- P, Ez. exists (beta j * z). ring. }
  destruct X as [z' Ez']. assert (z' * q = 1) by lia. assert (q | 1) by (exists z'; lia). apply Z.divide_1_r_nonneg in H1; lia.
Qed.
Lemma signature_ok : (forall j, (j < m)%nat -> beta j mod q <> 0) -> signature_values C b betas = Ok (tab m sig).
Proof.
  intros H. unfold signature_values, betas, tab. assert (GEN : forall js, (forall j, In j js -> (j < m)%nat) -> mapM (fun x => let* inv := bn_mod_inverse x q in Ok (point_mul C base inv)) (map beta js) = Ok (map sig js)).
  { induction js as [|j js IH]; intros Hj; [reflexivity|]. cbn [map mapM]. rewrite (proj1 (inv_q_ok _ (H j (Hj j (or_introl eq_refl))))). cbn [bind]. rewrite IH by (intros i Hi; apply Hj; right; exact Hi). reflexivity. }
  apply GEN. intros j Hj. apply in_seq in Hj. lia.
Qed.
Lemma signature_err j : (j < m)%nat -> beta j mod q = 0 -> signature_values C b betas = Err InvalidArgument.
Proof.
  intros Hj H0. pose proof rq1 as Hq. unfold signature_values, betas, tab.
  assert (GEN : forall js, In j js -> mapM (fun x => let* inv := bn_mod_inverse x q in Ok (point_mul C base inv)) (map beta js) = Err InvalidArgument).
  { induction js as [|i js IH]; intros Hin; [contradiction|]. cbn [map mapM]. destruct (Z.eq_dec (beta i mod q) 0) as [Ez|Ez].
    - rewrite bn_mod_inverse_err; [reflexivity|lia|]. intros Hg1. apply (unit_iff C L) in Hg1. contradiction.
    - rewrite (proj1 (inv_q_ok _ Ez)). cbn [bind]. rewrite IH; [reflexivity|]. destruct Hin as [->|]; [contradiction|assumption]. }
  apply GEN, in_seq. lia.
Qed.

(** ** First messages *)
Definition cube : Z := 2 ^ (2 * chal + 2 * sec) * q * q * q.
Definition dbeta (e : rsp_entropy) (j : nat) : Z := s_betas e j mod cube.
Definition dx (e : rsp_entropy) (l : nat) : Z := s_xs e l mod (n * 2 ^ t).
Lemma cube_pos : 0 < cube.
Proof. pose proof rq1. unfold cube. repeat apply Z.mul_pos_pos; (lia || (apply Z.pow_pos_nonneg; lia)). Qed.

(** The i-th component of the first message about the ciphertexts, written with exponents. *)
Definition es_value (xv bv : nat -> Z) (i l : nat) : Z := ((cs_g cs ^ R i) ^ xv l * (1 + n) ^ bv (i * len + l)%nat) mod M.
Lemma batch_ok i : (i < K)%nat -> batch_size C b m i = Nat.min len (m - i * len).
Proof. intros Hi. pose proof (num_cts_lt len m i Hlen Hi). unfold batch_size. destruct (Nat.ltb_spec m (i * len)); [lia|reflexivity]. Qed.

Lemma zero_enc (bv : nat -> Z) i : (i < K)%nat -> (forall j, (j < m)%nat -> 0 <= bv j) ->
  let size := Nat.min len (m - i * len) in
  (let* batch := slice (tab m bv) (i * len) (i * len + size) in cs_encrypt_with_rand flag cs batch 0) =
  Ok (E 0 (fun l => if (l <? size)%nat then bv (i * len + l)%nat else 0)).
Proof.
  intros Hi Hbv size. pose proof (num_cts_lt len m i Hlen Hi) as Hs.
  rewrite slice_ok by (rewrite tab_len; unfold size; lia). cbn [bind].
  rewrite (enc_with_rand flag n s cs xs W Hg Hk).
  - f_equal. apply enc_ext; [reflexivity|]. intros l Hl. rewrite slice_nth, tab_nth. destruct (Nat.ltb_spec l size) as [Hls|]; [|reflexivity]. destruct (Nat.ltb_spec (i * len + l) m) as [|]; [reflexivity|unfold size in Hls; lia].
  - rewrite slice_len by (rewrite tab_len; unfold size; lia). unfold size. lia.
  - apply Forall_forall. intros z Hz. assert (Hin : In z (tab m bv)). { rewrite <- (firstn_skipn (i * len) (tab m bv)). apply in_or_app. right. rewrite <- (firstn_skipn size (skipn (i * len) (tab m bv))). apply in_or_app. left. exact Hz. }
    unfold tab in Hin. apply in_map_iff in Hin. destruct Hin as (j & <- & Hj). apply in_seq in Hj. apply Hbv. lia.
  - lia.
  - left. reflexivity.
Qed.

Lemma dummy_es_ok (bv xv : nat -> Z) i : (i < K)%nat -> (forall j, (j < m)%nat -> 0 <= bv j) -> (forall l, 0 <= xv l) ->
  dummy_es flag C b sk m (tab m bv) (tab len xv) cts i = Ok (tab (Nat.min len (m - i * len)) (es_value xv bv i)).
Proof.
  intros Hi Hbv Hxv. pose proof (M1 n s cs W) as HM. pose proof (num_cts_lt len m i Hlen Hi) as Hs. unfold dummy_es. rewrite SP, (batch_ok i Hi).
  set (size := Nat.min len (m - i * len)). pose proof (zero_enc bv i Hi Hbv) as ZE. cbv zeta in ZE. fold size in ZE.
  destruct (slice (tab m bv) (i * len) (i * len + size)) as [batch|?| | |]; try discriminate. cbn [bind] in *. rewrite ZE. cbn [bind].
  rewrite (at_index_some cts i (E (R i) (F i))) by (unfold cts; rewrite tab_at by exact Hi; reflexivity). cbn [bind]. apply mapM_seq. intros l Hl.
  rewrite (at_index_some (tab len xv) l (xv l)) by (rewrite tab_at by (unfold size in Hl; lia); reflexivity). cbn [bind]. rewrite (w_mod _ _ _ W), bn_mod_exp_ok by (try lia; apply Hxv). cbn [bind].
  rewrite (at_index_some _ l (enc_e n s cs xs 0 (fun l => if (l <? size)%nat then bv (i * len + l)%nat else 0) l)) by (cbn [enc ct_es]; rewrite tab_at by (unfold size in Hl; lia); reflexivity). cbn [bind].
  rewrite bn_mod_mul_ok by lia. f_equal. unfold es_value. apply eqmod_eq; [lia|]. cbn [enc ct_u]. unfold enc_e. rewrite !(eqmod_mod M). destruct (Nat.ltb_spec l size); [|lia].
  rewrite Z.pow_0_r, Z.pow_1_l by (apply (x_nonneg n s cs xs W Hk)). exists 0. ring.
Qed.

(** Recovering it from masked values. *)
Lemma recover_es_ok (bv xv : nat -> Z) c i : (i < K)%nat -> (forall j, (j < m)%nat -> 0 <= bv j) -> (forall l, 0 <= xv l) -> 0 <= c ->
  recover_es flag C b m (tab m (fun j => bv j + beta j * c)) (tab len (fun l => xv l + nth l xs 0 * c)) cts c i = Ok (tab (Nat.min len (m - i * len)) (es_value xv bv i)).
Proof.
  intros Hi Hbv Hxv Hc. pose proof (M1 n s cs W) as HM. pose proof (num_cts_lt len m i Hlen Hi) as Hs. unfold recover_es. rewrite (batch_ok i Hi).
  set (size := Nat.min len (m - i * len)).
  assert (Hbv' : forall j, (j < m)%nat -> 0 <= bv j + beta j * c). { intros j Hj. specialize (Hbv j Hj). pose proof (Bb j Hj). pose proof (Z.mul_nonneg_nonneg (beta j) c). lia. }
  pose proof (zero_enc (fun j => bv j + beta j * c) i Hi Hbv') as ZE. cbv zeta in ZE. fold size in ZE.
  destruct (slice (tab m (fun j => bv j + beta j * c)) (i * len) (i * len + size)) as [batch|?| | |]; try discriminate. cbn [bind] in *. rewrite ZE. cbn [bind].
  rewrite (at_index_some cts i (E (R i) (F i))) by (unfold cts; rewrite tab_at by exact Hi; reflexivity). cbn [bind]. apply mapM_seq. intros l Hl.
  assert (Hll : (l < len)%nat) by (unfold size in Hl; lia). assert (Hj : (i * len + l < m)%nat) by (unfold size in Hl; lia).
  pose proof (x_nonneg n s cs xs W Hk l) as Hx.
  rewrite (at_index_some _ l (enc_e n s cs xs 0 (fun l => if (l <? size)%nat then bv (i * len + l)%nat + beta (i * len + l)%nat * c else 0) l)) by (cbn [enc ct_es]; rewrite tab_at by exact Hll; reflexivity). cbn [bind].
  rewrite (at_index_some _ l (xv l + nth l xs 0 * c)) by (rewrite tab_at by exact Hll; reflexivity). cbn [bind].
  assert (Hxc : 0 <= nth l xs 0 * c) by (apply Z.mul_nonneg_nonneg; assumption). pose proof (Hxv l) as Hxl.
  rewrite (w_mod _ _ _ W), bn_mod_exp_ok by lia. cbn [bind]. rewrite bn_mod_mul_ok by lia. cbn [bind].
  rewrite (at_index_some _ l (enc_e n s cs xs (R i) (F i) l)) by (cbn [enc ct_es]; rewrite tab_at by exact Hll; reflexivity). cbn [bind].
  rewrite bn_mod_exp_ok by lia. cbn [bind]. set (Y := (cs_g cs ^ R i) ^ nth l xs 0 * (1 + n) ^ F i l).
  assert (UY : Z.gcd Y M = 1) by (apply (enc_e_raw_unit n s cs xs W Hg Hk (R i) (F i) l (HR i) (HF i l))).
  set (X := (cs_g cs ^ R i) ^ xv l * (1 + n) ^ bv (i * len + l)%nat).
  destruct (inverse_mod M (Y ^ c) X HM (coprime_pow_gcd Y M c Hc UY)) as (iv & Ei & _ & Pi).
  assert (Ey : enc_e n s cs xs (R i) (F i) l ^ c mod M = Y ^ c mod M). { apply eqmod_eq; [lia|]. apply eqmod_pow. unfold enc_e. apply eqmod_mod. }
  rewrite Ey, Ei. cbn [bind]. rewrite bn_mod_mul_ok by lia. f_equal. unfold es_value. fold X. apply eqmod_eq; [lia|]. rewrite <- Pi. cbn [enc ct_u]. unfold enc_e. rewrite !(eqmod_mod M).
  destruct (Nat.ltb_spec l size); [|lia]. rewrite Z.pow_0_r, Z.pow_1_l by exact Hx.
  assert (EXY : X * Y ^ c = (cs_g cs ^ R i) ^ (xv l + nth l xs 0 * c) * (1 + n) ^ (bv (i * len + l)%nat + beta (i * len + l)%nat * c)).
  { unfold X, Y. rewrite (Hb i l Hll Hj). pose proof (Bb _ Hj) as [B0 _]. pose proof (Hbv _ Hj) as B1. assert (Hbc : 0 <= beta (i * len + l)%nat * c) by (apply Z.mul_nonneg_nonneg; assumption).
    rewrite (Z.pow_add_r (cs_g cs ^ R i)), (Z.pow_add_r (1 + n)) by assumption. rewrite (Z.pow_mul_r (cs_g cs ^ R i)), (Z.pow_mul_r (1 + n)) by assumption. rewrite Z.pow_mul_l. ring. }
  rewrite EXY. exists 0. ring.
Qed.
Lemma recover_ys_ok (xv : nat -> Z) c : (forall l, 0 <= xv l) -> 0 <= c ->
  recover_ys C b (tab len (fun l => xv l + nth l xs 0 * c)) c = Ok (tab len (fun l => cs_g cs ^ xv l mod M)).
Proof.
  intros Hxv Hc. pose proof (M1 n s cs W) as HM. apply mapM_seq. intros l Hll. pose proof (x_nonneg n s cs xs W Hk l) as Hx. pose proof (Hxv l) as Hxl.
  assert (Hxc : 0 <= nth l xs 0 * c) by (apply Z.mul_nonneg_nonneg; assumption).
  rewrite (at_index_some _ l (xv l + nth l xs 0 * c)) by (rewrite tab_at by exact Hll; reflexivity). cbn [bind]. rewrite (w_mod _ _ _ W), bn_mod_exp_ok by lia. cbn [bind].
  rewrite (at_index_ok (cs_ys cs)) by exact Hll. cbn [bind]. rewrite bn_mod_exp_ok by lia. cbn [bind].
  assert (Ey : nth l (cs_ys cs) 0 = cs_g cs ^ nth l xs 0 mod M).
  { apply (key_match_nth n s (cs_g cs) xs (cs_ys cs) Hk). exact Hll. }
  destruct (inverse_mod M ((cs_g cs ^ nth l xs 0) ^ c) (cs_g cs ^ xv l) HM) as (iv & Ei & _ & Pi). { apply coprime_pow_gcd; [exact Hc|]. apply (g_unit n s cs Hg). exact Hx. }
  assert (Ec : nth l (cs_ys cs) 0 ^ c mod M = (cs_g cs ^ nth l xs 0) ^ c mod M) by (apply eqmod_eq; [lia|]; apply eqmod_pow; rewrite Ey; apply eqmod_mod).
  rewrite Ec, Ei. cbn [bind]. rewrite bn_mod_mul_ok by lia. f_equal. apply eqmod_eq; [lia|]. rewrite (eqmod_mod M (_ ^ _)). rewrite (Z.pow_add_r (cs_g cs)), (Z.pow_mul_r (cs_g cs)) by assumption. exact Pi.
Qed.

(** ** The honest response *)
Lemma rsp_challenge_ok pk cm cr rsp cb m1 : 0 <= cm -> 0 <= cr -> 0 <= cb -> exists c, rsp_challenge C sha b pk cm cr rq rsp cb m1 = Ok c /\ 0 <= c < 2 ^ chal.
Proof.
  intros H1 H2 H3. unfold rsp_challenge. rewrite lshift_ok by lia. cbn [bind]. destruct (to_bytes_of cm H1) as (x1 & E1 & _). destruct (to_bytes_of cr H2) as (x2 & E2 & _). destruct (to_bytes_of cb H3) as (x3 & E3 & _).
  rewrite E1, E2, E3. cbn [bind]. rewrite Z.mul_1_l. apply ro_pow2. exact Hchal.
Qed.
Lemma map2_tab (f : Z -> Z -> Z) k g h : map2 f (tab k g) (tab k h) = tab k (fun i => f (g i) (h i)).
Proof. unfold tab. generalize (seq 0 k) as js. induction js as [|j js IH]; [reflexivity|]. cbn [map map2]. rewrite IH. reflexivity. Qed.

Lemma respond_inverse_fails pk cm cr e j : (m <= G)%nat -> (j < m)%nat -> beta j mod q = 0 -> bb_respond flag C sha b rq pk cm cr sk e = Err InvalidArgument.
Proof.
  intros HmG Hj H0. unfold bb_respond. rewrite Qn. destruct (Nat.ltb_spec G m) as [|_]; [lia|]. rewrite decrypt_request_ok. cbn [bind]. rewrite (signature_err j Hj H0). reflexivity.
Qed.

Hypothesis Hnz : forall j, (j < m)%nat -> beta j mod q <> 0.

Lemma sigs_not_inf : Forall (fun P => P <> pinf C) (tab m sig).
Proof. apply tab_Forall. intros j Hj. apply sig_base, Hnz, Hj. Qed.

(** The response is made whatever the decrypted values are; its proof verifies if they are small. *)
Lemma any_response pk cm cr e : (m <= G)%nat -> 0 <= cm -> 0 <= cr ->
  ((exists j, (j < m)%nat /\ dbeta e j mod q = 0) -> bb_respond flag C sha b rq pk cm cr sk e = Err Internal) /\
  ((forall j, (j < m)%nat -> dbeta e j mod q <> 0) ->
    exists rsp pf, bb_respond flag C sha b rq pk cm cr sk e = Ok (rsp, pf) /\ parse_point_vector C rsp = Ok (tab m sig) /\
      ((forall j, (j < m)%nat -> 2 ^ chal * beta j <= cube) -> bb_verify_response flag C sha b pk rsp pf rq cm cr = Ok tt)).
Proof.
  intros HmG Hcm Hcr. pose proof rq1 as Hq. pose proof rN1 as HN. pose proof (n1 n s cs W) as Hn. pose proof (M1 n s cs W) as HM. pose proof cube_pos as HC.
  assert (T0 : 0 < 2 ^ t) by (apply Z.pow_pos_nonneg; lia). assert (Q7 : 0 < n * 2 ^ t) by nia.
  assert (B : forall z, 0 <= z mod N) by (intros; apply Z.mod_pos_bound; lia).
  assert (Bd : forall j, 0 <= dbeta e j < cube) by (intros; apply Z.mod_pos_bound; exact HC). assert (Bx : forall l, 0 <= dx e l) by (intros; apply Z.mod_pos_bound; exact Q7).
  unfold bb_respond. rewrite Qn. destruct (Nat.ltb_spec G m) as [|_]; [lia|]. rewrite decrypt_request_ok. cbn [bind]. rewrite (signature_ok Hnz). cbn [bind].
  rewrite (points_to_proto C L _ sigs_not_inf). cbn [bind]. unfold ped_commit. rewrite rand_ok by lia. cbn [bind].
  rewrite (com_ok C b PO) by (first [rewrite betas_len; exact HmG|exact betas_nonneg|apply B]). cbn [bind]. set (ob := s_open e mod N).
  destruct (to_bytes_of (Com betas ob) (B _)) as (cbb & Ecb & Pcb). rewrite Ecb. cbn [bind].
  unfold cube_bound. rewrite lshift_ok by lia. cbn [bind]. rewrite Z.mul_1_l, Z.add_0_r. fold cube. rewrite draws_ok by exact HC. cbn [bind].
  change (tab m (fun i => s_betas e i mod cube)) with (tab m (dbeta e)).
  rewrite (w_n _ _ _ W), lshift_ok by lia. cbn [bind]. rewrite draws_ok by exact Q7. cbn [bind]. change (tab len (fun i => s_xs e i mod (n * 2 ^ t))) with (tab len (dx e)).
  rewrite rand_ok by exact Q7. cbn [bind]. set (dopen := s_dopen e mod (n * 2 ^ t)). assert (Hdo : 0 <= dopen) by (apply Z.mod_pos_bound; exact Q7).
  assert (Ndb : nonneg (tab m (dbeta e))) by (apply tab_Forall; intros j _; apply Bd).
  rewrite (com_ok C b PO) by (first [rewrite tab_len; exact HmG|exact Ndb|exact Hdo]). cbn [bind].
  rewrite SP, (w_mod _ _ _ W).
  rewrite (mapM_seq _ (fun l => cs_g cs ^ dx e l mod M)).
  2: { intros l Hl. rewrite (at_index_some _ l (dx e l)) by (rewrite tab_at by exact Hl; reflexivity). cbn [bind]. apply bn_mod_exp_ok; [apply Bx|lia]. }
  cbn [bind]. fold (tab len (fun l => cs_g cs ^ dx e l mod M)).
  rewrite (mapM_seq _ (fun j => point_mul C (sig j) (dbeta e j))).
  2: { intros j Hj. rewrite (at_index_some _ j (sig j)) by (rewrite tab_at by exact Hj; reflexivity). cbn [bind]. rewrite (at_index_some _ j (dbeta e j)) by (rewrite tab_at by exact Hj; reflexivity). reflexivity. }
  cbn [bind]. fold (tab m (fun j => point_mul C (sig j) (dbeta e j))).
  destruct (vec_proto (tab len (fun l => cs_g cs ^ dx e l mod M))) as (ysb & Eys & _ & _). { apply tab_Forall. intros l _. apply Z.mod_pos_bound. lia. } rewrite Eys. cbn [bind].
  destruct (to_bytes_of (Com (tab m (dbeta e)) dopen) (B _)) as (dcb & Edcb & _). rewrite Edcb. cbn [bind].
  assert (INF : forall j, (j < m)%nat -> (point_mul C (sig j) (dbeta e j) = pinf C <-> dbeta e j mod q = 0)).
  { intros j Hj. rewrite (point_mul_eq C L). rewrite (pmul_inf_iff C L) by (apply sig_base, Hnz, Hj). split; [intros D; apply Z.mod_divide in D; [exact D|lia]|intros D; apply Z.mod_divide; [lia|exact D]]. }
  split.
  - intros (j & Hj & H0). rewrite (points_to_proto_err C L); [reflexivity|]. intros HF0. rewrite Forall_forall in HF0. apply (HF0 (point_mul C (sig j) (dbeta e j))); [|apply INF; assumption].
    unfold tab. apply in_map_iff. exists j. split; [reflexivity|apply in_seq; lia].
  - intros Hd. assert (NI : Forall (fun P => P <> pinf C) (tab m (fun j => point_mul C (sig j) (dbeta e j)))).
    { apply tab_Forall. intros j Hj E0. apply INF in E0; [|exact Hj]. exact (Hd j Hj E0). }
    rewrite (points_to_proto C L _ NI). cbn [bind].
    assert (LC : length cts = K) by apply tab_len. rewrite LC.
    assert (DE : forall i, (i < K)%nat -> exists eb, bignum_vector_to_proto (tab (Nat.min len (m - i * len)) (es_value (dx e) (dbeta e) i)) = Ok eb).
    { intros i _. destruct (vec_proto (tab (Nat.min len (m - i * len)) (es_value (dx e) (dbeta e) i))) as (eb & Eb & _). { apply tab_Forall. intros l _. apply Z.mod_pos_bound. lia. } exists eb. exact Eb. }
    set (eb := fun i => match bignum_vector_to_proto (tab (Nat.min len (m - i * len)) (es_value (dx e) (dbeta e) i)) with Ok z => z | _ => [] end).
    assert (DE' : forall i, (i < K)%nat -> bignum_vector_to_proto (tab (Nat.min len (m - i * len)) (es_value (dx e) (dbeta e) i)) = Ok (eb i)) by (intros i Hi; unfold eb; destruct (DE i Hi) as (z & ->); reflexivity).
    rewrite (mapM_seq _ eb). 2: { intros i Hi. rewrite dummy_es_ok by (first [exact Hi|intros; apply Bd|exact Bx]). cbn [bind]. apply DE'. exact Hi. }
    cbn [bind]. fold (tab K eb).
    match goal with |- context [rsp_challenge C sha b pk cm cr rq ?r ?cb ?m1] => destruct (rsp_challenge_ok pk cm cr r cb m1 Hcm Hcr (B _)) as (c & Ec & Bc) end.
    rewrite Ec. cbn [bind]. destruct (to_bytes_of c (proj1 Bc)) as (chb & Echb & Pchb). rewrite Echb. cbn [bind].
    rewrite (mapM_seq _ (fun l => dx e l + nth l xs 0 * c)).
    2: { intros l Hl. rewrite (at_index_some _ l (dx e l)) by (rewrite tab_at by exact Hl; reflexivity). cbn [bind]. rewrite SX, (at_index_ok xs) by (rewrite (xs_len n s cs xs W Hk); exact Hl). reflexivity. }
    cbn [bind]. fold (tab len (fun l => dx e l + nth l xs 0 * c)). 
    assert (MB : map2 (fun d x => d + x * c) (tab m (dbeta e)) betas = tab m (fun j => dbeta e j + beta j * c)) by exact (map2_tab (fun d x => d + x * c) m (dbeta e) beta). rewrite MB.
    destruct (vec_proto (tab m (fun j => dbeta e j + beta j * c))) as (mbb & Emb & Pmb & Lmb). { apply tab_Forall. intros j Hj. pose proof (Bd j). pose proof (Bb j Hj). pose proof (Z.mul_nonneg_nonneg (beta j) c). lia. } rewrite Emb. cbn [bind].
    destruct (vec_proto (tab len (fun l => dx e l + nth l xs 0 * c))) as (mxb & Emx & Pmx & Lmx).
    { apply tab_Forall. intros l Hl. pose proof (Bx l). pose proof (x_nonneg n s cs xs W Hk l). pose proof (Z.mul_nonneg_nonneg (nth l xs 0) c). lia. } rewrite Emx. cbn [bind].
    assert (Hob : 0 <= ob) by apply B. destruct (to_bytes_of (dopen + ob * c)) as (mob & Emo & Pmo). { pose proof (Z.mul_nonneg_nonneg ob c). lia. } rewrite Emo. cbn [bind].
    eexists. eexists. split; [reflexivity|]. split; [apply (parse_points C L _ sigs_not_inf)|].
    (* verification *)
    intros Bcube. assert (Bm : forall j, (j < m)%nat -> 0 <= dbeta e j + beta j * c < 2 * cube).
    { intros j Hj. pose proof (Bd j) as B1. pose proof (Bb j Hj) as B2. pose proof (Bcube j Hj) as B3. pose proof (Z.mul_nonneg_nonneg (beta j) c). assert (beta j * c <= 2 ^ chal * beta j) by (clear - B2 Bc; nia). lia. }
    unfold bb_verify_response. cbn [sp_xs sp_mbetas sp_betas sp_challenge sp_open]. rewrite Qn, map_length, tab_len, Nat.eqb_refl, Lmx, tab_len, Nat.eqb_refl, Lmb, tab_len, Nat.eqb_refl. cbn [negb].
    rewrite Qc. cbn [bind]. rewrite (parse_points C L _ sigs_not_inf). cbn [bind]. rewrite Pcb, Pchb, Pmx, Pmb, Pmo. unfold cube_bound. rewrite lshift_ok by lia. cbn [bind].
    assert (E2c : 1 * 2 ^ (2 * chal + 2 * sec + 1) * q * q * q = 2 * cube) by (unfold cube; rewrite Z.pow_add_r by lia; ring). rewrite E2c.
    rewrite forallb_ltb by (apply tab_Forall; intros j Hj; apply Bm, Hj). cbn [negb].
    rewrite (mapM_seq _ (fun j => point_mul C (sig j) (dbeta e j))).
    2: { intros j Hj. rewrite (at_index_some _ j (sig j)) by (rewrite tab_at by exact Hj; reflexivity). cbn [bind]. rewrite (at_index_some _ j (dbeta e j + beta j * c)) by (rewrite tab_at by exact Hj; reflexivity). cbn [bind]. f_equal.
         rewrite !(point_mul_eq C L). destruct (sig_base j (Hnz j Hj)) as [Sb _]. rewrite <- Sb. rewrite <- (pmul_mul C L), <- (pmul_neg C L), <- (pmul_add C L). f_equal. ring. }
    cbn [bind]. fold (tab m (fun j => point_mul C (sig j) (dbeta e j))). rewrite (points_to_proto C L _ NI). cbn [bind]. rewrite LC.
    rewrite (mapM_seq _ eb). 2: { intros i Hi. rewrite recover_es_ok by (first [exact Hi|intros; apply Bd|exact Bx|apply Bc]). cbn [bind]. apply DE'. exact Hi. }
    cbn [bind]. fold (tab K eb).
    assert (Nmb : nonneg (tab m (fun j => dbeta e j + beta j * c))) by (apply tab_Forall; intros j Hj; apply Bm, Hj).
    rewrite (com_ok C b PO). 2: rewrite tab_len; exact HmG. 2: exact Nmb. 2: pose proof (Z.mul_nonneg_nonneg ob c); lia.
    cbn [bind].
    assert (UM : unmask C b (Com (tab m (fun j => dbeta e j + beta j * c)) (dopen + ob * c)) (Com betas ob) c = Ok (Com (tab m (dbeta e)) dopen)).
    { replace (tab m (fun j => dbeta e j + beta j * c)) with (map2 (mask c) (tab m (dbeta e)) betas) by (unfold betas; rewrite map2_tab; apply tab_ext; intros j _; unfold mask; ring).
      replace (dopen + ob * c) with (mask c dopen ob) by (unfold mask; ring).
      apply (unmask_com C b Hlen PO UN); first [assumption|apply betas_nonneg|apply Bc|rewrite betas_len, tab_len; reflexivity]. }
    rewrite UM. cbn [bind]. rewrite Edcb. cbn [bind]. rewrite recover_ys_ok by (first [exact Bx|apply Bc]). cbn [bind]. rewrite Eys. cbn [bind]. rewrite Ec. cbn [bind]. rewrite Z.eqb_refl. reflexivity.
Qed.
Lemma honest_response pk cm cr e : (forall j, (j < m)%nat -> 2 ^ chal * beta j <= cube) -> (m <= G)%nat -> 0 <= cm -> 0 <= cr ->
  ((exists j, (j < m)%nat /\ dbeta e j mod q = 0) -> bb_respond flag C sha b rq pk cm cr sk e = Err Internal) /\
  ((forall j, (j < m)%nat -> dbeta e j mod q <> 0) ->
    exists rsp pf, bb_respond flag C sha b rq pk cm cr sk e = Ok (rsp, pf) /\ parse_point_vector C rsp = Ok (tab m sig) /\
      bb_verify_response flag C sha b pk rsp pf rq cm cr = Ok tt).
Proof.
  intros Bcube HmG Hcm Hcr. destruct (any_response pk cm cr e HmG Hcm Hcr) as [H1 H2]. split; [exact H1|]. intros Hd. destruct (H2 Hd) as (rsp & pf & E1 & E2 & E3).
  exists rsp, pf. split; [exact E1|]. split; [exact E2|]. apply E3, Bcube.
Qed.
End Rsp.
