(** The distribution of an honest response proof. *)
From Coq Require Import Znumtheory.
From Verif Require Import Base M_BigNum L_BigNum M_Num L_Mod L_Num L_NT M_DJ L_DJ M_Paillier L_Paillier L_PaillierKey M_EC L_EC L_Cipher M_Proto M_CS S_CS L_CS
  M_Simul M_Pedersen M_Wire M_VRF M_BB L_BBct L_BBhom L_BBped L_BBreq L_BBrsp S_Exp S_Pedersen L_Exp L_Protocol L_Pedersen L_VRF S_Hide L_Hide S_HideBB.

Lemma inf_dec C (L : ec_laws C) (P : pt C) : {P <> pinf C} + {~ P <> pinf C}.
Proof. destruct (is_inf C P) eqn:E; [right|left; apply (is_inf_false C L); exact E]. apply (is_inf_true C L) in E. intros H. exact (H E). Qed.

Section RspHide.
Variable flag : bool.
Variable C : ec.
Variable sha : bytes -> bytes.
Variable b : bb C.
Variables (n : Z) (s : nat) (xs : list Z).
Notation cs := (bb_cs C b).
Notation M := (n ^ (Z.of_nat s + 1)).
Hypothesis W : cs_valid n s cs.
Hypothesis Hg : Z.gcd (cs_g cs) n = 1.
Hypothesis Hk : key_match n s (cs_g cs) xs (cs_ys cs).
Notation len := (cs_len cs).
Notation E := (enc n s cs xs).
Hypothesis Hlen : (0 < len)%nat.
Notation ped := (bb_ped C b).
Notation pp := (pd_par ped).
Notation N := (pp_n pp).
Notation G := (length (pp_gs pp)).
Notation q := (ec_order C).
Hypothesis PO : ped_ok ped.
Hypothesis L : ec_laws C.
Notation sec := (bp_sec (bb_par C b)).
Notation chal := (bp_chal (bb_par C b)).
Notation t := (chal + sec).
Hypothesis Hsec : 0 < sec.
Hypothesis Hchal : 0 < chal <= 120000.
Hypothesis Hbase : bb_base C b <> pinf C.
Variable sk : cs_private.
Hypothesis SV : cs_priv_valid n s sk.
Hypothesis SP : cs_pub sk = cs.
Hypothesis SX : cs_xs sk = xs.
Notation Com := (com C b).
Notation base := (bb_base C b).
Variable m : nat.
Variables (R : nat -> Z) (F : nat -> nat -> Z) (beta : nat -> Z).
Hypothesis HR : forall i, 0 <= R i.
Hypothesis HF : forall i l, 0 <= F i l.
Hypothesis Hb : forall i l, (l < len)%nat -> (i * len + l < m)%nat -> F i l = beta (i * len + l)%nat.
Hypothesis Bb : forall j, (j < m)%nat -> 0 <= beta j < n ^ Z.of_nat s.
Notation K := (num_cts len m).
Notation cts := (cts C b n s xs m R F).
Notation betas := (betas m beta).
Notation sig := (sig C b beta).
Variable rq : bb_request.
Hypothesis Qn : rq_num rq = m.
Hypothesis Qc : mapM (cs_parse_ct cs) (rq_cts rq) = Ok cts.
Hypothesis Hnz : forall j, (j < m)%nat -> beta j mod q <> 0.
Hypothesis HmG : (m <= G)%nat.

(** What the issuer sends, written with the masks. *)
Lemma respond_masked pk cm cr o c ds : 0 <= cm -> 0 <= cr -> oracle_says sha chal c ->
  length ds = length (response_bounds C b m) -> Forall2 (fun x d => 0 <= d < x) (response_bounds C b m) ds ->
  forall cbb, to_bytes (Com betas (o mod N)) = Ok cbb ->
  bb_respond flag C sha b rq pk cm cr sk (response_entropy C b m o ds) =
  simulated_response C b (tab m sig) (map (ec_enc C) (tab m sig)) cbb m c (shift (map (fun x => c * x) (betas ++ xs ++ [o mod N])) ds).
Proof.
  intros Hcm Hcr HO Lds Rds cbb Ecb. pose proof (order_gt1 C L) as Hq. assert (HN : 1 < N) by apply PO. pose proof (n1 n s cs W) as Hn. pose proof (M1 n s cs W) as HM. pose proof (cube_pos C b Hlen L Hsec Hchal m rq Qn) as HC.
  assert (Hc : 0 <= c < 2 ^ chal) by (apply (ro_pow2_range sha [] chal c); [lia|apply HO]).
  assert (T0 : 0 < 2 ^ t) by (apply Z.pow_pos_nonneg; lia). assert (Q7 : 0 < n * 2 ^ t) by nia.
  assert (B : forall z, 0 <= z mod N) by (intros; apply Z.mod_pos_bound; lia).
  unfold response_bounds in Lds, Rds. rewrite (w_n _ _ _ W) in Lds, Rds. fold (cube C b) in Rds, Lds. assert (Ld : length ds = (m + len + 1)%nat) by (rewrite Lds, !app_length, !repeat_length; cbn [length]; lia).
  set (e := response_entropy C b m o ds). set (ob := o mod N).
  assert (R1 : forall j, (j < m)%nat -> 0 <= nth j ds 0 < cube C b) by (intros j Hj; exact (part_range [] _ _ _ _ Rds j Hj)).
  assert (R2 : forall l, (l < len)%nat -> 0 <= nth (m + l) ds 0 < n * 2 ^ t).
  { intros l Hl. pose proof (part_range (repeat (cube C b) m) _ _ _ _ Rds l Hl) as Q. rewrite repeat_length in Q. exact Q. }
  assert (R3 : 0 <= nth (m + len) ds 0 < n * 2 ^ t).
  { pose proof (part_range (repeat (cube C b) m ++ repeat (n * 2 ^ t) len) (n * 2 ^ t) 1 [] ds) as Q. rewrite app_length, !repeat_length in Q. specialize (Q ltac:(cbn [repeat]; rewrite app_nil_r, <- app_assoc; exact Rds) 0%nat ltac:(lia)). rewrite Nat.add_0_r in Q. exact Q. }
  assert (Ed : forall j, (j < m)%nat -> dbeta C b e j = nth j ds 0) by (intros j Hj; unfold dbeta, e, response_entropy; cbn [s_betas]; apply Z.mod_small, R1, Hj).
  assert (Ex : forall l, (l < len)%nat -> dx C b n e l = nth (m + l) ds 0) by (intros j Hj; unfold dx, e, response_entropy; cbn [s_xs]; apply Z.mod_small, R2, Hj).
  assert (Bd : forall j, 0 <= dbeta C b e j < cube C b) by (intros; apply Z.mod_pos_bound; exact HC). assert (Bx : forall l, 0 <= dx C b n e l) by (intros; apply Z.mod_pos_bound; exact Q7).
  assert (Lx : length xs = len) by (apply (xs_len n s cs xs W Hk)). assert (Lb : length betas = m) by apply tab_len.
  set (ws := map (fun x => c * x) (betas ++ xs ++ [ob])). set (ds' := shift ws ds).
  assert (P1 : part 0 m ds' = tab m (fun j => dbeta C b e j + beta j * c)).
  { unfold ds'. rewrite part_shift by lia. apply map_ext_in. intros j Hj. apply in_seq in Hj. cbn [Nat.add]. rewrite Ed by lia. f_equal. unfold ws. rewrite (nth_map (fun x => c * x) _ _ 0) by (rewrite app_length; lia). rewrite app_nth1 by lia.
    unfold L_BBrsp.betas. rewrite tab_nth. destruct (Nat.ltb_spec j m); [ring|lia]. }
  assert (P2 : part m len ds' = tab len (fun l => dx C b n e l + nth l xs 0 * c)).
  { unfold ds'. rewrite part_shift by lia. apply map_ext_in. intros l Hl. apply in_seq in Hl. rewrite Ex by lia. f_equal. unfold ws. rewrite (nth_map (fun x => c * x) _ _ 0) by (rewrite !app_length; lia). rewrite <- Lb at 1. rewrite nth_mid by lia. ring. }
  assert (P3 : nth (m + len) ds' 0 = nth (m + len) ds 0 + ob * c).
  { unfold ds'. rewrite shift_nth by lia. f_equal. unfold ws. rewrite (nth_map (fun x => c * x) _ _ 0) by (rewrite !app_length; cbn [length]; lia).
    rewrite app_assoc, app_nth2 by (rewrite app_length; lia). rewrite app_length, Lb, Lx, Nat.sub_diag. cbn [nth]. ring. }
  unfold simulated_response. rewrite P1, P2, P3.
  unfold bb_respond. rewrite Qn. destruct (Nat.ltb_spec G m) as [|_]; [lia|].
  rewrite (decrypt_request_ok C b n s xs W Hg Hk Hlen sk SV SP SX m R F beta HR HF Hb Bb rq Qn Qc). cbn [bind]. rewrite (signature_ok C b Hlen L m beta rq Qn Hnz). cbn [bind].
  assert (NI0 : Forall (fun P => P <> pinf C) (tab m sig)) by (apply (sigs_not_inf C b Hlen L Hbase m beta rq Qn Hnz)).
  rewrite (points_to_proto C L _ NI0). cbn [bind]. unfold ped_commit. rewrite rand_ok by lia. cbn [bind].
  assert (Nbt : nonneg betas) by (apply tab_Forall; intros j Hj; apply Bb; exact Hj).
  rewrite (com_ok C b PO) by (first [rewrite Lb; exact HmG|exact Nbt|apply B]). cbn [bind]. 
  change (s_open e) with o. rewrite Ecb. cbn [bind].
  unfold cube_bound. rewrite lshift_ok by lia. cbn [bind]. rewrite Z.mul_1_l, Z.add_0_r. fold (cube C b). rewrite draws_ok by exact HC. cbn [bind].
  change (tab m (fun i => s_betas e i mod cube C b)) with (tab m (dbeta C b e)).
  rewrite (w_n _ _ _ W), lshift_ok by lia. cbn [bind]. rewrite draws_ok by exact Q7. cbn [bind]. change (tab len (fun i => s_xs e i mod (n * 2 ^ t))) with (tab len (dx C b n e)).
  rewrite rand_ok by exact Q7. cbn [bind]. change (s_dopen e) with (nth (m + len) ds 0). rewrite (Z.mod_small (nth (m + len) ds 0)) by exact R3. set (dopen := nth (m + len) ds 0) in *.
  assert (Ndb : nonneg (tab m (dbeta C b e))) by (apply tab_Forall; intros j _; apply Bd).
  rewrite (com_ok C b PO) by (first [rewrite tab_len; exact HmG|exact Ndb|lia]). cbn [bind].
  rewrite SP, (w_mod _ _ _ W).
  rewrite (mapM_seq _ (fun l => cs_g cs ^ dx C b n e l mod M)).
  2: { intros l Hl. rewrite (at_index_some _ l (dx C b n e l)) by (rewrite tab_at by exact Hl; reflexivity). cbn [bind]. apply bn_mod_exp_ok; [apply Bx|lia]. }
  cbn [bind]. fold (tab len (fun l => cs_g cs ^ dx C b n e l mod M)).
  rewrite (mapM_seq _ (fun j => point_mul C (sig j) (dbeta C b e j))).
  2: { intros j Hj. rewrite (at_index_some _ j (sig j)) by (rewrite tab_at by exact Hj; reflexivity). cbn [bind]. rewrite (at_index_some _ j (dbeta C b e j)) by (rewrite tab_at by exact Hj; reflexivity). reflexivity. }
  cbn [bind]. fold (tab m (fun j => point_mul C (sig j) (dbeta C b e j))).
  destruct (vec_proto (tab len (fun l => cs_g cs ^ dx C b n e l mod M))) as (ysb & Eys & _ & _). { apply tab_Forall. intros l _. apply Z.mod_pos_bound. lia. } rewrite Eys. cbn [bind].
  destruct (to_bytes_of (Com (tab m (dbeta C b e)) dopen) (B _)) as (dcb & Edcb & _). rewrite Edcb. cbn [bind].
  assert (PT : map (fun j => padd C (pmul C (nth j (tab m (fun j => dbeta C b e j + beta j * c)) 0) (nth j (tab m sig) (pinf C))) (pneg C (pmul C c base))) (seq 0 m) = tab m (fun j => point_mul C (sig j) (dbeta C b e j))).
  { apply map_ext_in. intros j Hj. apply in_seq in Hj. rewrite tab_nth. destruct (Nat.ltb_spec j m); [|lia]. rewrite (nth_indep _ (pinf C) (sig 0%nat)) by (rewrite tab_len; lia).
    unfold tab at 1. rewrite map_nth, seq_nth by lia. cbn [Nat.add].
    rewrite !(point_mul_eq C L). destruct (sig_base C b Hlen L Hbase m beta rq Qn j (Hnz j ltac:(lia))) as [Sb _]. rewrite <- Sb. rewrite <- (pmul_mul C L), <- (pmul_neg C L), <- (pmul_add C L). f_equal. ring. }
  rewrite PT. set (pts := tab m (fun j => point_mul C (sig j) (dbeta C b e j))).
  destruct (Forall_dec (fun P => P <> pinf C) (fun P => inf_dec C L P) pts) as [NI|NI]; [|rewrite (points_to_proto_err C L) by exact NI; reflexivity].
  rewrite (points_to_proto C L _ NI). cbn [bind].
  assert (LC : length cts = K) by apply tab_len. rewrite LC.
  assert (DE : forall i, (i < K)%nat -> exists eb, bignum_vector_to_proto (tab (Nat.min len (m - i * len)) (es_value C b n s R (dx C b n e) (dbeta C b e) i)) = Ok eb).
  { intros i _. destruct (vec_proto (tab (Nat.min len (m - i * len)) (es_value C b n s R (dx C b n e) (dbeta C b e) i))) as (eb & Eb & _). { apply tab_Forall. intros l _. apply Z.mod_pos_bound. lia. } exists eb. exact Eb. }
  set (eb := fun i => match bignum_vector_to_proto (tab (Nat.min len (m - i * len)) (es_value C b n s R (dx C b n e) (dbeta C b e) i)) with Ok z => z | _ => [] end).
  assert (DE' : forall i, (i < K)%nat -> bignum_vector_to_proto (tab (Nat.min len (m - i * len)) (es_value C b n s R (dx C b n e) (dbeta C b e) i)) = Ok (eb i)) by (intros i Hi; unfold eb; destruct (DE i Hi) as (z & ->); reflexivity).
  rewrite (mapM_seq _ eb). 2: { intros i Hi. rewrite (dummy_es_ok flag C b n s xs W Hg Hk Hlen sk SP m R F rq Qn) by (first [exact Hi|intros; apply Bd|exact Bx]). cbn [bind]. apply DE'. exact Hi. }
  cbn [bind].
  assert (CH : forall rsp cb m1, 0 <= cb -> rsp_challenge C sha b pk cm cr rq rsp cb m1 = Ok c).
  { intros rsp cb m1 H3. unfold rsp_challenge. rewrite lshift_ok by lia. cbn [bind]. destruct (to_bytes_of cm Hcm) as (x1 & E1 & _). destruct (to_bytes_of cr Hcr) as (x2 & E2 & _). destruct (to_bytes_of cb H3) as (x3 & E3 & _).
    rewrite E1, E2, E3. cbn [bind]. rewrite Z.mul_1_l. apply HO. }
  rewrite CH by apply B. cbn [bind]. destruct (to_bytes_of c (proj1 Hc)) as (chb & Echb & _). rewrite Echb. cbn [bind].
  rewrite (mapM_seq _ (fun l => dx C b n e l + nth l xs 0 * c)).
  2: { intros l Hl. rewrite (at_index_some _ l (dx C b n e l)) by (rewrite tab_at by exact Hl; reflexivity). cbn [bind]. rewrite SX, (at_index_ok xs) by (rewrite Lx; exact Hl). reflexivity. }
  cbn [bind]. fold (tab len (fun l => dx C b n e l + nth l xs 0 * c)).
  assert (MB : map2 (fun d x => d + x * c) (tab m (dbeta C b e)) betas = tab m (fun j => dbeta C b e j + beta j * c)) by exact (map2_tab (fun d x => d + x * c) m (dbeta C b e) beta). rewrite MB.
  reflexivity.
Qed.

(** For values up to 2^(t+1) q^3, secret exponents up to n and a Pedersen modulus up to u n. *)
Lemma response_hides pk cm cr o c u : 0 <= cm -> 0 <= cr -> oracle_says sha chal c ->
  (forall j, (j < m)%nat -> beta j <= 2 ^ (t + 1) * q * q * q) -> Forall (fun x => x <= n) xs -> 0 <= u -> N <= u * n ->
  forall cbb, to_bytes (Com betas (o mod N)) = Ok cbb ->
  within_distance (2 * Z.of_nat m + Z.of_nat len + u) sec (response_bounds C b m)
    (fun ds => bb_respond flag C sha b rq pk cm cr sk (response_entropy C b m o ds))
    (fun ds => simulated_response C b (tab m sig) (map (ec_enc C) (tab m sig)) cbb m c ds).
Proof.
  intros Hcm Hcr HO HB HX Hu HNu cbb Ecb. pose proof (order_gt1 C L) as Hq. assert (HN : 1 < N) by apply PO. pose proof (n1 n s cs W) as Hn. pose proof (cube_pos C b Hlen L Hsec Hchal m rq Qn) as HC.
  assert (Hc : 0 <= c < 2 ^ chal) by (apply (ro_pow2_range sha [] chal c); [lia|apply HO]).
  assert (Lx : length xs = len) by (apply (xs_len n s cs xs W Hk)). assert (Lb : length betas = m) by apply tab_len.
  set (wus := map (fun x => (c * x, 2)) betas ++ map (fun x => (c * x, 1)) xs ++ map (fun x => (c * x, u)) [o mod N]).
  assert (Ew : map fst wus = map (fun x => c * x) (betas ++ xs ++ [o mod N])) by (unfold wus; rewrite !map_app, !map_map; reflexivity).
  assert (Eu : zsum_list (map snd wus) = 2 * Z.of_nat m + Z.of_nat len + u).
  { assert (A : forall (l1 l2 : list Z) z, zsum_list (map snd (map (fun x => (c * x, 2)) l1 ++ map (fun x => (c * x, 1)) l2 ++ map (fun x => (c * x, u)) [z])) = 2 * Z.of_nat (length l1) + Z.of_nat (length l2) + u).
    { clear. intros l1 l2 z. induction l1 as [|x l1 IH]; [induction l2 as [|x l2 IH]|]; unfold zsum_list in *; cbn [map app fold_right length snd] in *; lia. }
    unfold wus. rewrite A, Lb, Lx. reflexivity. }
  assert (T0 : 0 < 2 ^ t) by (apply Z.pow_pos_nonneg; lia). assert (ET : 2 ^ chal * 2 ^ sec = 2 ^ t) by (rewrite Z.pow_add_r by lia; reflexivity).
  rewrite <- Eu. eapply distance_ext; [|intros ds _ _; reflexivity|apply (shift_close sec (response_bounds C b m) wus); [lia|]].
  - intros ds Ld Rd. cbv beta. rewrite Ew. symmetry. apply respond_masked; assumption.
  - unfold response_bounds. rewrite (w_n _ _ _ W). fold (cube C b). unfold wus. apply Forall2_app; [|apply Forall2_app].
    + apply (small_shifts sec chal c (2 ^ (t + 1) * q * q * q)); try assumption; try lia.
      * rewrite ET. unfold cube. replace (2 * chal + 2 * sec) with (t + t) by lia. rewrite !(Z.pow_add_r 2) by lia. change (2 ^ 1) with 2. apply Z.eq_le_incl. ring.
      * apply tab_Forall. intros j Hj. split; [apply Bb; exact Hj|apply HB; exact Hj].
    + apply (small_shifts sec chal c n); try assumption; try lia; try nia.
      apply Forall_forall. intros x Hx. split; [|rewrite Forall_forall in HX; apply HX; exact Hx]. apply (In_nth _ _ 0) in Hx. destruct Hx as (l & _ & <-). apply (x_nonneg n s cs xs W Hk).
    + apply (small_shifts sec chal c N u (n * 2 ^ t) 1); try assumption; try lia; try nia; [reflexivity|]. constructor; [|constructor]. pose proof (Z.mod_pos_bound o N ltac:(lia)). lia.
Qed.
End RspHide.

(** The values the issuer decrypts from an honest request. *)
Lemma beta_size q t m r a k y bb_ : 1 < q -> 0 <= t -> 0 <= m < q -> 0 <= r < q -> 0 <= a < q -> 0 <= k < q -> 0 <= y < q -> 0 <= bb_ < q * q * 2 ^ t ->
  m * a + bb_ * q + a * k + r * a * y <= 2 ^ (t + 1) * q * q * q.
Proof.
  intros Hq Ht Hm Hr Ha Hk Hy Hb. assert (T : 0 < 2 ^ t) by (apply Z.pow_pos_nonneg; lia).
  assert (M1 : 0 <= m * a <= (q - 1) * (q - 1)) by (split; [apply Z.mul_nonneg_nonneg; lia|apply Z.mul_le_mono_nonneg; lia]).
  assert (M2 : 0 <= a * k <= (q - 1) * (q - 1)) by (split; [apply Z.mul_nonneg_nonneg; lia|apply Z.mul_le_mono_nonneg; lia]).
  assert (M3 : 0 <= r * a <= (q - 1) * (q - 1)) by (split; [apply Z.mul_nonneg_nonneg; lia|apply Z.mul_le_mono_nonneg; lia]).
  assert (M4 : 0 <= r * a * y <= (q - 1) * (q - 1) * (q - 1)) by (split; [apply Z.mul_nonneg_nonneg; lia|apply Z.mul_le_mono_nonneg; lia]).
  assert (M5 : 0 <= bb_ * q <= (q * q * 2 ^ t - 1) * q) by (split; [apply Z.mul_nonneg_nonneg; lia|apply Z.mul_le_mono_nonneg; lia]).
  set (Q := q * q * q). assert (HQ : 0 < Q) by (unfold Q; clear - Hq; repeat (apply Z.mul_pos_pos; [|lia]); lia).
  assert (B1 : m * a + bb_ * q + a * k + r * a * y <= Q * (2 ^ t + 1)).
  { assert (S1 : (q - 1) * (q - 1) + (q - 1) * (q - 1) + (q - 1) * (q - 1) * (q - 1) <= Q). { unfold Q. clear - Hq. replace (q * q * q) with ((q - 1) * (q - 1) + (q - 1) * (q - 1) + (q - 1) * (q - 1) * (q - 1) + (q * q - 1 + q)) by ring. pose proof (Z.mul_nonneg_nonneg q q ltac:(lia) ltac:(lia)). lia. }
    assert (S2 : (q * q * 2 ^ t - 1) * q = Q * 2 ^ t - q) by (unfold Q; ring). clear - S1 S2 M1 M2 M4 M5 Hq. lia. }
  assert (P1 : 2 ^ (t + 1) = 2 * 2 ^ t) by (rewrite (Z.pow_add_r 2 t 1) by lia; ring).
  transitivity (Q * (2 ^ t + 1)); [exact B1|]. replace (2 ^ (t + 1) * q * q * q) with (Q * (2 * 2 ^ t)) by (rewrite P1; unfold Q; ring). apply Z.mul_le_mono_nonneg_l; lia.
Qed.
