(** Lemmas about responses that verify, whoever made them. *)
From Coq Require Import Znumtheory.
From Verif Require Import Base M_BigNum L_BigNum M_Num L_Mod L_Num L_NT M_DJ L_DJ M_Paillier L_Paillier L_PaillierKey M_EC L_EC L_Cipher M_Proto M_CS S_CS L_CS
  M_Simul M_Pedersen M_Wire M_VRF M_BB L_BBct L_BBhom L_BBped L_BBreq L_BBrsp S_Exp S_Pedersen S_BB S_BBquery L_Exp L_Protocol L_Pedersen L_VRF L_BB L_Wire P_VRF P_BBhash.

Lemma verify_query flag C sha b pk rsp pf rq cm cr : 0 <= bp_chal (bb_par C b) ->
  bb_verify_response flag C sha b pk rsp pf rq cm cr =
  let* x := response_query flag C b pk rsp pf rq cm cr in
  let* c := random_oracle 512 sha x (2 ^ bp_chal (bb_par C b)) in
  if negb (c =? of_bytes (sp_challenge pf)) then Err InvalidArgument else Ok tt.
Proof.
  intros Hc. unfold bb_verify_response, response_query, rsp_challenge. rewrite lshift_ok by exact Hc. rewrite Z.mul_1_l.
  repeat match goal with
    | |- (if ?c then _ else _) = _ => destruct c; [reflexivity|]
    | |- bind (Ok _) _ = _ => cbn [bind]
    | |- bind (bind ?o _) _ = _ => destruct o; cbn [bind]; try reflexivity
    | |- bind ?o _ = _ => destruct o; cbn [bind]; try reflexivity
    end.
Qed.

Lemma rsp_hash_message s1 m1 s2 m2 : rsp_hash_input s1 m1 = rsp_hash_input s2 m2 -> m1 = m2.
Proof.
  intros E. unfold rsp_hash_input in E. apply framed_inj in E; [|apply wf_rsp_statement|apply wf_rsp_statement|apply wf_rsp_message1|apply wf_rsp_message1]. destruct E as [_ Em].
  destruct m1 as [a1 b1 c1 d1], m2 as [a2 b2 c2 d2]. unfold wire_rsp_message1 in Em. cbn [n1_ys n1_betas n1_gs n1_es] in *.
  peel 1 Em A1. peel 2 Em A2. peel 4 Em A3. vec_inj A1. apply f_bytes_inj in A2. vec_inj A3. apply (f_rep_msg_inj wire_vector) in Em; [|exact wire_vector_inj|exact wf_vector]. congruence.
Qed.

Lemma bignum_vector_inj a c x : bignum_vector_to_proto a = Ok x -> bignum_vector_to_proto c = Ok x -> a = c.
Proof.
  unfold bignum_vector_to_proto. revert c x. induction a as [|u a IH]; intros [|v c] x E1 E2; cbn [mapM] in *; try reflexivity.
  - apply bind_ok in E2. destruct E2 as (? & _ & E2). apply bind_ok in E2. destruct E2 as (? & _ & E2). congruence.
  - apply bind_ok in E1. destruct E1 as (? & _ & E1). apply bind_ok in E1. destruct E1 as (? & _ & E1). congruence.
  - apply bind_ok in E1. destruct E1 as (p & P1 & E1). apply bind_ok in E1. destruct E1 as (r & R1 & E1). apply bind_ok in E2. destruct E2 as (p' & P2 & E2). apply bind_ok in E2. destruct E2 as (r' & R2 & E2).
    assert (p = p') by congruence. assert (r = r') by congruence. subst p' r'. f_equal; [exact (to_bytes_inj _ _ _ P1 P2)|exact (IH _ _ R1 R2)].
Qed.
Lemma mapM_seq_inv {B} (f : nat -> outcome B) k l : mapM f (seq 0 k) = Ok l -> length l = k /\ forall i, (i < k)%nat -> exists x, nth_error l i = Some x /\ f i = Ok x.
Proof.
  intros E. pose proof (mapM_Forall2 _ _ _ E) as F. assert (Ll : length l = k) by (rewrite <- (Forall2_len _ _ _ F), seq_length; reflexivity). split; [exact Ll|]. intros i Hi.
  destruct (nth_error l i) as [x|] eqn:Ex; [|apply nth_error_None in Ex; lia]. exists x. split; [reflexivity|].
  assert (Hs : nth_error (seq 0 k) i = Some i) by (rewrite (nth_error_nth' _ 0%nat) by (rewrite seq_length; exact Hi); rewrite seq_nth by exact Hi; reflexivity).
  exact (forall2_nth _ _ _ i i x F Hs Ex).
Qed.
Lemma at_index_inv {A} (l : list A) i x : at_index l i = Ok x -> nth_error l i = Some x.
Proof. unfold at_index. destruct (nth_error l i); congruence. Qed.

Lemma ok_inj {A} (x y : A) : Ok x = Ok y -> x = y. Proof. congruence. Qed.

Section Sound.
Variable flag : bool.
Variable C : ec.
Variable b : bb C.
Variables (n : Z) (s : nat) (xs : list Z).
Notation cs := (bb_cs C b).
Notation M := (n ^ (Z.of_nat s + 1)).
Hypothesis W : cs_valid n s cs.
Hypothesis Hg : Z.gcd (cs_g cs) n = 1.
Hypothesis Hk : key_match n s (cs_g cs) xs (cs_ys cs).
Notation len := (cs_len cs).
Notation E := (enc n s cs xs).
Hypothesis Hlen : (0 < len)%nat.
Notation q := (ec_order C).
Hypothesis L : ec_laws C.
Notation sec := (bp_sec (bb_par C b)).
Notation chal := (bp_chal (bb_par C b)).
Hypothesis Hsec : 0 < sec.
Hypothesis Hchal : 0 < chal.
Notation base := (bb_base C b).
Variable m : nat.
Variables (R : nat -> Z) (F : nat -> nat -> Z) (beta : nat -> Z).
Hypothesis HR : forall i, 0 <= R i.
Hypothesis HF : forall i l, 0 <= F i l.
Hypothesis Hb : forall i l, (l < len)%nat -> (i * len + l < m)%nat -> F i l = beta (i * len + l)%nat.
Hypothesis Bb : forall j, (j < m)%nat -> 0 <= beta j < n ^ Z.of_nat s.
Notation K := (num_cts len m).
Notation cts := (cts C b n s xs m R F).
Variable rq : bb_request.
Hypothesis Qn : rq_num rq = m.
Hypothesis Qc : mapM (cs_parse_ct cs) (rq_cts rq) = Ok cts.
Notation cube := (cube C b).

(** Dividing by an inverse, as the verifier does. *)
Lemma inverse_elim a e c iv v : bn_mod_inverse (e ^ c mod M) M = Ok iv -> eqmod M v (a * iv) -> eqmod M (v * e ^ c) a.
Proof.
  intros Ei Ev. pose proof (M1 n s cs W) as HM.
  assert (Pi : eqmod M (e ^ c * iv) 1).
  { destruct (bn_mod_inverse_inv _ _ _ Ei) as (_ & _ & _ & Pi). apply mod_eqmod_iff; [lia|]. rewrite <- Pi. apply mod_eqmod_iff; [lia|]. rewrite (eqmod_mod M (e ^ c)). reflexivity. }
  rewrite Ev. transitivity (a * (e ^ c * iv)); [exists 0; ring|]. rewrite Pi, Z.mul_1_r. reflexivity.
Qed.

(** The values recovered from a proof satisfy the verification equations. *)
Lemma recover_es_inv mb mx c i vs : length mb = m -> nonneg mb -> nonneg mx -> 0 <= c -> (i < K)%nat -> recover_es flag C b m mb mx cts c i = Ok vs ->
  forall l, (l < len)%nat -> (i * len + l < m)%nat -> exists v, nth_error vs l = Some v /\ 0 <= v < M /\
    eqmod M (v * ((cs_g cs ^ R i) ^ nth l xs 0 * (1 + n) ^ beta (i * len + l)%nat) ^ c) ((cs_g cs ^ R i) ^ nth l mx 0 * (1 + n) ^ nth (i * len + l) mb 0).
Proof.
  intros Lmb Nmb Nmx Hc Hi Er l Hll Hj. pose proof (M1 n s cs W) as HM. unfold recover_es in Er. rewrite (batch_ok C b Hlen m rq Qn i Hi) in Er.
  assert (Hmb : forall j, 0 <= nth j mb 0). { intros j. destruct (nth_in_or_default j mb 0) as [X| ->]; [|lia]. exact (proj1 (Forall_forall _ _) Nmb _ X). }
  assert (Hmx : forall j, 0 <= nth j mx 0). { intros j. destruct (nth_in_or_default j mx 0) as [X| ->]; [|lia]. exact (proj1 (Forall_forall _ _) Nmx _ X). }
  pose proof (zero_enc flag C b n s xs W Hg Hk Hlen m rq Qn (fun j => nth j mb 0) i Hi (fun j _ => Hmb j)) as ZE. cbv zeta in ZE.
  set (size := Nat.min len (m - i * len)) in *. assert (Hl : (l < size)%nat) by (unfold size; lia).
  rewrite <- Lmb, <- tab_of in ZE. destruct (slice mb (i * len) (i * len + size)) as [batch|?| | |]; try discriminate. cbn [bind] in *. rewrite ZE in Er. cbn [bind] in Er.
  rewrite (at_index_some cts i (E (R i) (F i))) in Er by (unfold L_BBrsp.cts; rewrite tab_at by exact Hi; reflexivity). cbn [bind] in Er.
  destruct (mapM_seq_inv _ _ _ Er) as [_ Hv]. destruct (Hv l Hl) as (v & Ev & Fv). exists v. split; [exact Ev|]. clear Er Hv Ev.
  rewrite (at_index_some _ l (enc_e n s cs xs 0 (fun l => if (l <? size)%nat then nth (i * len + l) mb 0 else 0) l)) in Fv by (cbn [enc ct_es]; rewrite tab_at by exact Hll; reflexivity). cbn [bind] in Fv.
  apply bind_ok in Fv. destruct Fv as (x & Ex & Fv). apply at_index_inv in Ex. assert (x = nth l mx 0) by (symmetry; apply nth_error_nth; exact Ex). subst x.
  rewrite (w_mod _ _ _ W), bn_mod_exp_ok in Fv by (try lia; apply Hmx). cbn [bind] in Fv. rewrite bn_mod_mul_ok in Fv by lia. cbn [bind] in Fv.
  rewrite (at_index_some _ l (enc_e n s cs xs (R i) (F i) l)) in Fv by (cbn [enc ct_es]; rewrite tab_at by exact Hll; reflexivity). cbn [bind] in Fv.
  rewrite bn_mod_exp_ok in Fv by lia. cbn [bind] in Fv. apply bind_ok in Fv. destruct Fv as (iv & Ei & Fv). rewrite bn_mod_mul_ok in Fv by lia.
  set (a := (enc_e n s cs xs 0 (fun l => if (l <? size)%nat then nth (i * len + l) mb 0 else 0) l * (ct_u (E (R i) (F i)) ^ nth l mx 0 mod M)) mod M) in *.
  assert (Bv : v = (a * iv) mod M) by congruence. clear Fv. split; [subst v; apply Z.mod_pos_bound; lia|].
  assert (Ev : eqmod M v (a * iv)) by (rewrite Bv; apply eqmod_mod). pose proof (inverse_elim a _ c iv v Ei Ev) as X.
  assert (EY : eqmod M (enc_e n s cs xs (R i) (F i) l) ((cs_g cs ^ R i) ^ nth l xs 0 * (1 + n) ^ beta (i * len + l)%nat)) by (unfold enc_e; rewrite (Hb i l Hll Hj); apply eqmod_mod).
  rewrite <- (eqmod_pow M _ _ c EY). rewrite X. unfold a. cbn [enc ct_u]. unfold enc_e. rewrite !(eqmod_mod M). destruct (Nat.ltb_spec l size); [|lia].
  rewrite Z.pow_0_r, Z.pow_1_l by (apply (x_nonneg n s cs xs W Hk)). exists 0. ring.
Qed.
Lemma recover_ys_inv mx c vs : nonneg mx -> 0 <= c -> recover_ys C b mx c = Ok vs ->
  forall l, (l < len)%nat -> exists v, nth_error vs l = Some v /\ 0 <= v < M /\ eqmod M (v * (cs_g cs ^ nth l xs 0) ^ c) (cs_g cs ^ nth l mx 0).
Proof.
  intros Nmx Hc Er l Hll. pose proof (M1 n s cs W) as HM. unfold recover_ys in Er.
  assert (Hmx : forall j, 0 <= nth j mx 0). { intros j. destruct (nth_in_or_default j mx 0) as [X| ->]; [|lia]. exact (proj1 (Forall_forall _ _) Nmx _ X). }
  destruct (mapM_seq_inv _ _ _ Er) as [_ Hv]. destruct (Hv l Hll) as (v & Ev & Fv). exists v. split; [exact Ev|]. clear Er Hv Ev.
  apply bind_ok in Fv. destruct Fv as (x & Ex & Fv). apply at_index_inv in Ex. assert (x = nth l mx 0) by (symmetry; apply nth_error_nth; exact Ex). subst x.
  rewrite (w_mod _ _ _ W), bn_mod_exp_ok in Fv by (try lia; apply Hmx). cbn [bind] in Fv.
  apply bind_ok in Fv. destruct Fv as (yl & Ey & Fv). apply at_index_inv in Ey. assert (yl = nth l (cs_ys cs) 0) by (symmetry; apply nth_error_nth; exact Ey). subst yl.
  rewrite bn_mod_exp_ok in Fv by lia. cbn [bind] in Fv. apply bind_ok in Fv. destruct Fv as (iv & Ei & Fv). rewrite bn_mod_mul_ok in Fv by lia.
  assert (Bv : v = (cs_g cs ^ nth l mx 0 mod M * iv) mod M) by congruence. clear Fv. split; [subst v; apply Z.mod_pos_bound; lia|].
  assert (Ev : eqmod M v ((cs_g cs ^ nth l mx 0 mod M) * iv)) by (rewrite Bv; apply eqmod_mod). pose proof (inverse_elim _ _ c iv v Ei Ev) as X.
  rewrite (key_match_nth n s _ xs _ Hk l Hll) in X. rewrite (eqmod_pow M _ _ c (eqmod_mod M _)) in X. rewrite X. apply eqmod_mod.
Qed.

(** Two answers to one first message determine the exponent of [1 + n]. *)
Lemma two_answers U X v w mx1 mx2 mb1 mb2 c1 c2 x bt : Z.gcd U M = 1 -> Z.gcd X M = 1 -> 0 <= x -> 0 <= bt -> 0 <= mx1 -> 0 <= mx2 -> 0 <= mb1 -> 0 <= mb2 -> 0 <= c1 -> 0 <= c2 ->
  forall r, 0 <= r -> U = X ^ r ->
  eqmod M (v * (U ^ x * (1 + n) ^ bt) ^ c1) (U ^ mx1 * (1 + n) ^ mb1) -> eqmod M (v * (U ^ x * (1 + n) ^ bt) ^ c2) (U ^ mx2 * (1 + n) ^ mb2) ->
  eqmod M (w * (X ^ x) ^ c1) (X ^ mx1) -> eqmod M (w * (X ^ x) ^ c2) (X ^ mx2) ->
  eqmod M ((1 + n) ^ (mb1 + bt * c2)) ((1 + n) ^ (mb2 + bt * c1)).
Proof.
  intros GU GX Hx Hbt Hx1 Hx2 Hb1 Hb2 Hc1 Hc2 r Hr EU Q1 Q2 Y1 Y2.
  assert (HW : eqmod M (X ^ (mx1 + x * c2)) (X ^ (mx2 + x * c1))).
  { assert (0 <= x * c1) by (apply Z.mul_nonneg_nonneg; assumption). assert (0 <= x * c2) by (apply Z.mul_nonneg_nonneg; assumption).
    rewrite !(Z.pow_add_r X) by assumption. rewrite !(Z.pow_mul_r X) by assumption. rewrite <- Y1, <- Y2. exists 0. ring. }
  assert (HU : eqmod M (U ^ (mx1 + x * c2)) (U ^ (mx2 + x * c1))).
  { assert (H1 : 0 <= x * c1) by (apply Z.mul_nonneg_nonneg; assumption). assert (H2 : 0 <= x * c2) by (apply Z.mul_nonneg_nonneg; assumption).
    assert (SW : forall a, 0 <= a -> (X ^ r) ^ a = (X ^ a) ^ r) by (intros a Ha; rewrite <- !(Z.pow_mul_r X) by assumption; rewrite (Z.mul_comm r a); reflexivity).
    rewrite EU, (SW (mx1 + x * c2)), (SW (mx2 + x * c1)) by (clear - H1 H2 Hx1 Hx2; lia). apply eqmod_pow. exact HW. }
  assert (P1 : 0 <= x * c1) by (apply Z.mul_nonneg_nonneg; assumption). assert (P2 : 0 <= x * c2) by (apply Z.mul_nonneg_nonneg; assumption).
  assert (P3 : 0 <= bt * c1) by (apply Z.mul_nonneg_nonneg; assumption). assert (P4 : 0 <= bt * c2) by (apply Z.mul_nonneg_nonneg; assumption).
  apply (eqmod_cancel M (U ^ (mx1 + x * c2))); [apply coprime_pow_gcd; [apply Z.add_nonneg_nonneg; assumption|exact GU]|].
  transitivity (U ^ (mx2 + x * c1) * (1 + n) ^ (mb2 + bt * c1)); [|rewrite HU; reflexivity].
  rewrite !(Z.pow_add_r U), !(Z.pow_add_r (1 + n)) by assumption. rewrite !(Z.pow_mul_r U), !(Z.pow_mul_r (1 + n)) by assumption.
  rewrite !Z.pow_mul_l in Q1, Q2.
  transitivity (U ^ mx1 * (1 + n) ^ mb1 * ((U ^ x) ^ c2 * ((1 + n) ^ bt) ^ c2)); [exists 0; ring|]. rewrite <- Q1.
  transitivity (U ^ mx2 * (1 + n) ^ mb2 * ((U ^ x) ^ c1 * ((1 + n) ^ bt) ^ c1)); [|exists 0; ring]. rewrite <- Q2. exists 0. ring.
Qed.

(** Everything a query determines. *)
Lemma query_inv pk rsp pf cm cr x : response_query flag C b pk rsp pf rq cm cr = Ok x ->
  let c := of_bytes (sp_challenge pf) in let mx := parse_bignum_vector (sp_xs pf) in let mb := parse_bignum_vector (sp_mbetas pf) in
  exists vals dgs dgsb des dys dysb dcbb stt, parse_point_vector C rsp = Ok vals /\ length rsp = m /\ length mx = len /\ length mb = m /\ Forall (fun z => z < 2 * cube) mb /\
    mapM (fun i => let* v := at_index vals i in let* z := at_index mb i in Ok (padd C (point_mul C v z) (pneg C (point_mul C base c)))) (seq 0 m) = Ok dgs /\
    point_vector_to_proto C dgs = Ok dgsb /\
    mapM (fun i => let* l := recover_es flag C b m mb mx cts c i in bignum_vector_to_proto l) (seq 0 K) = Ok des /\
    recover_ys C b mx c = Ok dys /\ bignum_vector_to_proto dys = Ok dysb /\
    x = rsp_hash_input stt {| n1_ys := dysb; n1_betas := dcbb; n1_gs := dgsb; n1_es := des |}.
Proof.
  intros Ex c mx mb. unfold response_query in Ex. rewrite Qn, Qc in Ex. fold c mx mb in Ex.
  destruct (Nat.eqb_spec (length rsp) m) as [L1|]; [|discriminate]. destruct (Nat.eqb_spec (length (sp_xs pf)) len) as [L2|]; [|discriminate]. destruct (Nat.eqb_spec (length (sp_mbetas pf)) m) as [L3|]; [|discriminate]. cbn [negb bind] in Ex.
  apply bind_ok in Ex. destruct Ex as (vals & Ev & Ex). apply bind_ok in Ex. destruct Ex as (bound & Eb & Ex).
  destruct (forallb _ mb) eqn:Ef; cbn [negb] in Ex; [|discriminate].
  apply bind_ok in Ex. destruct Ex as (dgs & E1 & Ex). apply bind_ok in Ex. destruct Ex as (dgsb & E2 & Ex). apply bind_ok in Ex. destruct Ex as (des & E3 & Ex).
  apply bind_ok in Ex. destruct Ex as (mcom & _ & Ex). apply bind_ok in Ex. destruct Ex as (dcb & _ & Ex). apply bind_ok in Ex. destruct Ex as (dcbb & _ & Ex).
  apply bind_ok in Ex. destruct Ex as (dys & E4 & Ex). apply bind_ok in Ex. destruct Ex as (dysb & E5 & Ex).
  apply bind_ok in Ex. destruct Ex as (cmb & _ & Ex). apply bind_ok in Ex. destruct Ex as (crb & _ & Ex). apply bind_ok in Ex. destruct Ex as (cbb & _ & Ex).
  exists vals, dgs, dgsb, des, dys, dysb, dcbb. eexists. split; [exact Ev|]. split; [exact L1|]. split; [unfold mx, parse_bignum_vector; rewrite map_length; exact L2|]. split; [unfold mb, parse_bignum_vector; rewrite map_length; exact L3|].
  split. { unfold cube_bound in Eb. rewrite lshift_ok in Eb by lia. cbn [bind] in Eb.
    assert (Hbd : bound = 2 * cube). { unfold L_BBrsp.cube. apply (f_equal (fun o => match o with Ok z => z | _ => 0 end)) in Eb. rewrite <- Eb. rewrite (Z.pow_add_r 2 _ 1) by lia. ring. }
    rewrite <- Hbd. apply Forall_forall. intros z Hz. apply Z.ltb_lt. rewrite forallb_forall in Ef. exact (Ef z Hz). }
  split; [exact E1|]. split; [exact E2|]. unfold L_BBrsp.cts in E3 at 2. rewrite tab_len in E3. split; [exact E3|]. split; [exact E4|]. split; [exact E5|]. symmetry. exact (ok_inj _ _ Ex).
Qed.

Lemma point_vector_inj l1 l2 x : point_vector_to_proto C l1 = Ok x -> point_vector_to_proto C l2 = Ok x -> l1 = l2.
Proof.
  unfold point_vector_to_proto. revert l2 x. induction l1 as [|u a IH]; intros [|v c] x E1 E2; cbn [mapM] in *; try reflexivity.
  - apply bind_ok in E2. destruct E2 as (? & _ & E2). apply bind_ok in E2. destruct E2 as (? & _ & E2). congruence.
  - apply bind_ok in E1. destruct E1 as (? & _ & E1). apply bind_ok in E1. destruct E1 as (? & _ & E1). congruence.
  - apply bind_ok in E1. destruct E1 as (p & P1 & E1). apply bind_ok in E1. destruct E1 as (r & R1 & E1). apply bind_ok in E2. destruct E2 as (p' & P2 & E2). apply bind_ok in E2. destruct E2 as (r' & R2 & E2).
    assert (p = p') by congruence. assert (r = r') by congruence. subst p' r'. apply (point_to_bytes_inv C L) in P1, P2. destruct P1 as [I1 P1], P2 as [I2 P2].
    f_equal; [apply (enc_inj C L); congruence|exact (IH _ _ R1 R2)].
Qed.
Lemma parse_nonneg l : nonneg (parse_bignum_vector l).
Proof. unfold parse_bignum_vector. apply Forall_forall. intros z Hz. apply in_map_iff in Hz. destruct Hz as (u & <- & _). apply of_bytes_nonneg. Qed.

Lemma diff_swap A B D G : padd C A (pneg C D) = padd C B (pneg C G) -> padd C A (pneg C B) = padd C D (pneg C G).
Proof.
  intros H. apply (add_cancel_r C L (padd C B (pneg C D))). rewrite !(add_swap C L _ _ B). rewrite (padd_comm C L A B), <- (add_swap C L B (pneg C B)), (padd_neg C L), (padd_inf C L), H.
  rewrite (padd_comm C L D B), <- (add_swap C L B (pneg C G)), (padd_neg C L), (add_inf_r C L). reflexivity.
Qed.
(** Two accepting answers to one first message: every response value is the base point divided by the encrypted value. *)
Lemma extract_beta pk rsp pf1 pf2 cm cr x :
  response_query flag C b pk rsp pf1 rq cm cr = Ok x -> response_query flag C b pk rsp pf2 rq cm cr = Ok x ->
  let c1 := of_bytes (sp_challenge pf1) in let c2 := of_bytes (sp_challenge pf2) in
  (c1 - c2) mod q <> 0 -> c1 < 2 ^ chal -> c2 < 2 ^ chal -> 3 * cube <= n ^ Z.of_nat s -> (forall j, (j < m)%nat -> 2 ^ chal * beta j <= cube) ->
  exists vals, parse_point_vector C rsp = Ok vals /\ length vals = m /\ forall j, (j < m)%nat -> exists V, nth_error vals j = Some V /\ pmul C (beta j) V = base.
Proof.
  intros X1 X2 c1 c2 Hd B1 B2 H3 Hbb. pose proof (M1 n s cs W) as HM. pose proof (n1 n s cs W) as Hn.
  destruct (query_inv _ _ _ _ _ _ X1) as (vals & dgs & dgsb & des & dys & dysb & dcbb & stt & Ev & Lr & Lx1 & Lb1 & F1 & D1 & G1 & Es1 & Y1 & Yb1 & Ex1).
  destruct (query_inv _ _ _ _ _ _ X2) as (vals' & dgs' & dgsb' & des' & dys' & dysb' & dcbb' & stt' & Ev' & _ & Lx2 & Lb2 & F2 & D2 & G2 & Es2 & Y2 & Yb2 & Ex2).
  fold c1 in D1, Es1, Y1. fold c2 in D2, Es2, Y2. assert (vals' = vals) by congruence. subst vals'. rewrite Ex1 in Ex2. apply rsp_hash_message in Ex2. clear Ex1.
  assert (dgsb' = dgsb) by congruence. assert (des' = des) by congruence. assert (dysb' = dysb) by congruence. subst dgsb' des' dysb'. clear Ex2.
  assert (dgs' = dgs) by exact (point_vector_inj _ _ _ G2 G1). subst dgs'. assert (dys' = dys) by exact (bignum_vector_inj _ _ _ Yb2 Yb1). subst dys'.
  set (mx1 := parse_bignum_vector (sp_xs pf1)) in *. set (mb1 := parse_bignum_vector (sp_mbetas pf1)) in *. set (mx2 := parse_bignum_vector (sp_xs pf2)) in *. set (mb2 := parse_bignum_vector (sp_mbetas pf2)) in *.
  assert (Nx1 : nonneg mx1) by apply parse_nonneg. assert (Nb1 : nonneg mb1) by apply parse_nonneg. assert (Nx2 : nonneg mx2) by apply parse_nonneg. assert (Nb2 : nonneg mb2) by apply parse_nonneg.
  assert (Hc1 : 0 <= c1) by apply of_bytes_nonneg. assert (Hc2 : 0 <= c2) by apply of_bytes_nonneg.
  assert (Lv : length vals = m). { rewrite <- Lr. symmetry. exact (Forall2_len _ _ _ (mapM_Forall2 _ _ _ Ev)). }
  exists vals. split; [exact Ev|]. split; [exact Lv|]. intros j Hj.
  set (i := (j / len)%nat). set (l := (j mod len)%nat). assert (Ej : j = (i * len + l)%nat) by (unfold i, l; rewrite Nat.mul_comm; apply Nat.div_mod; lia).
  assert (Hl : (l < len)%nat) by (apply Nat.mod_upper_bound; lia). pose proof (num_cts_cover len m Hlen) as Cv.
  assert (Hi : (i < K)%nat) by (apply Nat.div_lt_upper_bound; [lia|]; rewrite Nat.mul_comm; lia).
  assert (Hjl : (i * len + l < m)%nat) by (rewrite <- Ej; exact Hj).
  destruct (mapM_seq_inv _ _ _ Es1) as [_ He1]. destruct (He1 i Hi) as (eb & Eb & R1). destruct (mapM_seq_inv _ _ _ Es2) as [_ He2]. destruct (He2 i Hi) as (eb' & Eb' & R2).
  assert (eb' = eb) by congruence. subst eb'. apply bind_ok in R1. destruct R1 as (vs & V1 & R1). apply bind_ok in R2. destruct R2 as (vs' & V2 & R2).
  assert (vs' = vs) by exact (bignum_vector_inj _ _ _ R2 R1). subst vs'. clear He1 He2 Es1 Es2.
  destruct (recover_es_inv mb1 mx1 c1 i vs Lb1 Nb1 Nx1 Hc1 Hi V1 l Hl Hjl) as (v & Nv & _ & Q1). destruct (recover_es_inv mb2 mx2 c2 i vs Lb2 Nb2 Nx2 Hc2 Hi V2 l Hl Hjl) as (v' & Nv' & _ & Q2).
  assert (v' = v) by congruence. subst v'. destruct (recover_ys_inv mx1 c1 dys Nx1 Hc1 Y1 l Hl) as (w & Nw & _ & W1). destruct (recover_ys_inv mx2 c2 dys Nx2 Hc2 Y2 l Hl) as (w' & Nw' & _ & W2). assert (w' = w) by congruence. subst w'.
  rewrite <- Ej in Q1, Q2.
  assert (NN : forall lst k, nonneg lst -> 0 <= nth k lst 0). { intros lst k HN. destruct (nth_in_or_default k lst 0) as [X| ->]; [|apply Z.le_refl]. exact (proj1 (Forall_forall _ _) HN _ X). }
  assert (ND : forall lst k, length lst = m -> Forall (fun z => z < 2 * cube) lst -> (k < m)%nat -> nth k lst 0 < 2 * cube). { intros lst k HL HN Hk0. rewrite Forall_forall in HN. apply HN, nth_In. rewrite HL. exact Hk0. }
  pose proof (NN mb1 j Nb1) as P1. pose proof (NN mb2 j Nb2) as P2. pose proof (ND mb1 j Lb1 F1 Hj) as P3. pose proof (ND mb2 j Lb2 F2 Hj) as P4. destruct (Bb j Hj) as [P5 _]. pose proof (Hbb j Hj) as P6.
  assert (G1u : Z.gcd (cs_g cs) M = 1) by (rewrite <- (Z.pow_1_r (cs_g cs)); apply (g_unit n s cs Hg); discriminate).
  pose proof (two_answers (cs_g cs ^ R i) (cs_g cs) v w (nth l mx1 0) (nth l mx2 0) (nth j mb1 0) (nth j mb2 0) c1 c2 (nth l xs 0) (beta j)
    (g_unit n s cs Hg (R i) (HR i)) G1u (x_nonneg n s cs xs W Hk l) P5 (NN mx1 l Nx1) (NN mx2 l Nx2) P1 P2 Hc1 Hc2 (R i) (HR i) eq_refl Q1 Q2 W1 W2) as T.
  assert (T' : eqmod M ((1 + n * 1) ^ (nth j mb1 0 + beta j * c2)) ((1 + n * 1) ^ (nth j mb2 0 + beta j * c1))) by (rewrite Z.mul_1_r; exact T).
  assert (P7 : 0 <= beta j * c1) by (apply Z.mul_nonneg_nonneg; assumption). assert (P8 : 0 <= beta j * c2) by (apply Z.mul_nonneg_nonneg; assumption).
  apply (one_plus_inj n 1 s) in T'; [|exact Hn|apply Z.gcd_1_l|exact (w_fact _ _ _ W)|apply Z.add_nonneg_nonneg; assumption|apply Z.add_nonneg_nonneg; assumption].
  assert (U1 : beta j * c1 <= cube) by (clear - P5 P6 B1 Hc1; nia). assert (U2 : beta j * c2 <= cube) by (clear - P5 P6 B2 Hc2; nia).
  assert (Eq : nth j mb1 0 + beta j * c2 = nth j mb2 0 + beta j * c1).
  { destruct T' as [z Ez]. assert (z = 0) by (clear - Ez P1 P2 P3 P4 P7 P8 U1 U2 H3; nia). clear - Ez H; subst z; lia. }
  destruct (mapM_seq_inv _ _ _ D1) as [_ Dj1]. destruct (Dj1 j Hj) as (d & Nd & Dd1). destruct (mapM_seq_inv _ _ _ D2) as [_ Dj2]. destruct (Dj2 j Hj) as (d' & Nd' & Dd2). assert (d' = d) by congruence. subst d'.
  apply bind_ok in Dd1. destruct Dd1 as (V & AV & Dd1). apply bind_ok in Dd1. destruct Dd1 as (z1 & Az1 & Dd1). apply bind_ok in Dd2. destruct Dd2 as (V' & AV' & Dd2). apply bind_ok in Dd2. destruct Dd2 as (z2 & Az2 & Dd2).
  assert (V' = V) by congruence. subst V'. apply at_index_inv in AV, Az1, Az2. apply (nth_error_nth _ _ 0) in Az1, Az2. subst z1 z2.
  exists V. split; [exact AV|]. rewrite !(point_mul_eq C L) in Dd1, Dd2.
  assert (EP : padd C (pmul C (nth j mb1 0) V) (pneg C (pmul C c1 base)) = padd C (pmul C (nth j mb2 0) V) (pneg C (pmul C c2 base))) by congruence.
  apply (pmul_pt_inj C L (c1 - c2)); [exact Hd|]. rewrite <- (pmul_mul C L). replace ((c1 - c2) * beta j) with (nth j mb1 0 - nth j mb2 0) by (clear - Eq; lia).
  rewrite !(pmul_sub C L). set (A := pmul C (nth j mb1 0) V) in *. set (B := pmul C (nth j mb2 0) V) in *. set (D := pmul C c1 base) in *. set (G := pmul C c2 base) in *.
  apply diff_swap. exact EP.
Qed.
End Sound.

Section SoundLink.
Variable flag : bool.
Variable C : ec.
Variable sha : bytes -> bytes.
Variable b : bb C.
Variable n : Z.
Variable s : nat.
Variable xs : list Z.
Notation cs := (bb_cs C b).
Notation len := (cs_len cs).
Notation q := (ec_order C).
Notation par := (bb_par C b).
Notation G := (length (pp_gs (pd_par (bb_ped C b)))).
Notation t := (bp_chal par + bp_sec par).
Hypothesis W : cs_valid n s cs.
Hypothesis Hg : Z.gcd (cs_g cs) n = 1.
Hypothesis Hk : key_match n s (cs_g cs) xs (cs_ys cs).
Hypothesis Hlen : (0 < len)%nat.
Hypothesis PO : ped_ok (bb_ped C b).
Hypothesis UN : units (pd_par (bb_ped C b)).
Hypothesis L : ec_laws C.
Hypothesis Hsec : 0 < bp_sec par.
Hypothesis Hchal : 0 < bp_chal par <= 120000.
Hypothesis Hbase : bb_base C b <> pinf C.
Hypothesis Hbound : 2 ^ (2 * bp_chal par + 2 * bp_sec par + 1) * q * q * q <= n ^ Z.of_nat s.
Variable sk : cs_private.
Hypothesis SV : cs_priv_valid n s sk.
Hypothesis SP : cs_pub sk = cs.
Hypothesis SX : cs_xs sk = xs.
Variable ok oy : nat -> Z.
Variable k y : Z.
Hypothesis Hok : forall j, 0 <= ok j.
Hypothesis Hoy : forall j, 0 <= oy j.
Hypothesis Rk : 0 < k < q.
Hypothesis Ry : 0 < y < q.
Variable ms rs : list Z.
Hypothesis Lr : length rs = length ms.
Hypothesis HmG : (length ms <= G)%nat.
Hypothesis Rms : Forall (fun x => 0 <= x < q) ms.
Hypothesis Rrs : Forall (fun x => 0 <= x < q) rs.
Variable e : req_entropy.
Notation m := (length ms).
Variable rq : bb_request.
Variable st : list bytes.
Hypothesis Qn : rq_num rq = m.
Hypothesis Qc : mapM (cs_parse_ct cs) (rq_cts rq) = Ok (request_cts C b n s xs ok oy k y ms rs e).
Hypothesis Qs : parse_bignum_vector st = mask_as C e m.
Notation R := (hr C b ok oy (mask_as C e m) (map2 Z.mul rs (mask_as C e m)) (enc_rand C b n e m)).
Notation F := (hf C b k y (hidden_msgs C ms (mask_as C e m) (mask_bs C b e m)) (mask_as C e m) (map2 Z.mul rs (mask_as C e m))).

Lemma response_sound pk rsp pf1 pf2 cm cr x :
  response_query flag C b pk rsp pf1 rq cm cr = Ok x -> response_query flag C b pk rsp pf2 rq cm cr = Ok x ->
  let c1 := of_bytes (sp_challenge pf1) in let c2 := of_bytes (sp_challenge pf2) in
  (c1 - c2) mod q <> 0 -> c1 < 2 ^ bp_chal par -> c2 < 2 ^ bp_chal par -> 3 * cube C b <= n ^ Z.of_nat s ->
  exists Ps, bb_extract C rsp st = Ok Ps /\ Forall2 (fun mr P => bb_value C (bb_base C b) k y (fst mr) (snd mr) P) (combine ms rs) Ps.
Proof.
  intros X1 X2 c1 c2 Hd B1 B2 H3. pose (bt := betav C b k y ms rs e).
  pose proof (fun j => betav_range C b n s Hlen L Hsec Hchal Hbound k y Rk Ry ms rs Lr HmG Rms Rrs e rq Qn j) as BR.
  destruct (extract_beta flag C b n s xs W Hg Hk Hlen L Hsec (proj1 Hchal) m R F bt (R_nonneg C b n s W Hlen L ok oy Hok Hoy ms rs Lr HmG Rrs e rq Qn)
    (fun i l _ H => hf_beta C b n s Hlen Hsec Hchal k y ms rs Lr HmG e rq Qn i l H) (fun i _ => conj (proj1 (BR i)) (proj1 (proj2 (BR i)))) rq Qn Qc pk rsp pf1 pf2 cm cr x X1 X2 Hd B1 B2 H3 (fun j _ => proj2 (proj2 (BR j))))
    as (vals & Ev & Lv & HV).
  exists (tab m (fun j => point_mul C (nth j vals (pinf C)) (av C e j))). split.
  - unfold bb_extract. rewrite Ev. cbn [bind]. rewrite Qs, Lv. apply mapM_seq. intros j Hj. destruct (HV j Hj) as (V & NV & _). rewrite (at_index_some _ _ V NV). cbn [bind].
    rewrite (at_index_some _ _ (av C e j)) by (unfold mask_as; rewrite tab_at by exact Hj; reflexivity). cbn [bind]. rewrite (nth_error_nth _ _ _ NV). reflexivity.
  - apply (forall2_tab _ (0, 0)); [rewrite combine_length; clear - Lr; lia|]. intros j Hj. destruct (HV j Hj) as (V & NV & BV). rewrite (nth_error_nth _ _ _ NV).
    rewrite combine_nth by (symmetry; exact Lr). cbn [fst snd]. fold (mv ms j) (rv rs j).
    assert (Eb : pmul C (mv ms j + k + y * rv rs j) (point_mul C V (av C e j)) = bb_base C b).
    { rewrite (point_mul_eq C L), <- (pmul_mul C L). transitivity (pmul C (bt j) V); [|exact BV]. apply (pmul_eqmod C L). unfold bt. rewrite betav_eqmod, (Z.mul_comm (av C e j)). reflexivity. }
    split; [|exact Eb]. intros E0. apply Hbase. rewrite <- Eb. rewrite (pmul_eqmod C L _ 0); [reflexivity|]. apply mod_eqmod_iff; [pose proof (order_gt1 C L) as Hq; clear - Hq; lia|]. rewrite E0. symmetry. apply Zmod_0_l.
Qed.
End SoundLink.
