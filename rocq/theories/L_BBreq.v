(** Lemmas about an honest request and its verification. *)
From Coq Require Import Znumtheory.
From Verif Require Import Base M_BigNum L_BigNum M_Num L_Mod L_Num L_NT M_DJ L_DJ M_Paillier L_Paillier L_PaillierKey M_EC L_EC L_Cipher M_Proto M_CS S_CS L_CS
  M_Simul M_Pedersen M_Wire M_VRF M_BB L_BBct L_BBhom L_BBped S_Exp S_Pedersen L_Exp L_Protocol L_Pedersen L_VRF.

Lemma vec_proto xs : nonneg xs -> exists bs, bignum_vector_to_proto xs = Ok bs /\ parse_bignum_vector bs = xs /\ length bs = length xs.
Proof. intros H. destruct (mapM_to_bytes xs H) as (bs & E & P). exists bs. split; [exact E|]. split; [exact P|]. rewrite <- P, map_length. reflexivity. Qed.
Lemma draws_ok bound f k : 0 < bound -> draws bound f k = Ok (tab k (fun i => f i mod bound)).
Proof. intros H. apply mapM_seq. intros i _. apply rand_ok. exact H. Qed.
Lemma tab_range bound f k : 0 < bound -> Forall (fun x => 0 <= x < bound) (tab k (fun i => f i mod bound)).
Proof. intros H. apply tab_Forall. intros i _. apply Z.mod_pos_bound. exact H. Qed.
Lemma tab_mod_nonneg bound f k : 0 < bound -> nonneg (tab k (fun i => f i mod bound)).
Proof. intros H. eapply Forall_impl; [|apply tab_range; exact H]. cbn beta. lia. Qed.
Lemma map2_bound (f : Z -> Z -> Z) (Pa Pb P : Z -> Prop) a b : (forall x y, Pa x -> Pb y -> P (f x y)) -> Forall Pa a -> Forall Pb b -> Forall P (map2 f a b).
Proof. intros H Ha. revert b. induction Ha as [|x a Hx Ha IH]; intros b Hb; [constructor|]. destruct Hb as [|y b Hy Hb]; constructor; [apply H; assumption|apply IH; exact Hb]. Qed.
Lemma forallb_ltb bound l : Forall (fun x => x < bound) l -> forallb (fun x => x <? bound) l = true.
Proof. intros H. apply forallb_forall. intros x Hx. rewrite Forall_forall in H. apply Z.ltb_lt, H, Hx. Qed.

Section Req.
Variable flag : bool.
Variable C : ec.
Variable sha : bytes -> bytes.
Variable b : bb C.
Variables (n : Z) (s : nat) (xs : list Z).
Notation cs := (bb_cs C b).
Hypothesis W : cs_valid n s cs.
Hypothesis Hg : Z.gcd (cs_g cs) n = 1.
Hypothesis Hk : key_match n s (cs_g cs) xs (cs_ys cs).
Notation len := (cs_len cs).
Notation E := (enc n s cs xs).
Hypothesis Hlen : (0 < len)%nat.
Variables (rk ry : nat -> Z) (k y : Z).
Hypothesis Hrk : forall j, 0 <= rk j.
Hypothesis Hry : forall j, 0 <= ry j.
Hypothesis Hk0 : 0 <= k.
Hypothesis Hy0 : 0 <= y.
Notation ped := (bb_ped C b).
Notation pp := (pd_par ped).
Notation N := (pp_n pp).
Notation G := (length (pp_gs pp)).
Notation q := (ec_order C).
Hypothesis PO : ped_ok ped.
Hypothesis UN : units pp.
Hypothesis L : ec_laws C.
Notation sec := (bp_sec (bb_par C b)).
Notation chal := (bp_chal (bb_par C b)).
Notation t := (chal + sec).
Hypothesis Hsec : 0 < sec.
Hypothesis Hchal : 0 < chal <= 120000.
Variable pk : bb_public.
Variable keys : list (cs_ciphertext * cs_ciphertext).
Hypothesis EP : parse_public C b pk = Ok keys.
Hypothesis K1 : map fst keys = key_cts C b n s xs rk k.
Hypothesis K2 : map snd keys = key_cts C b n s xs ry y.
Notation first := (first_of C b n s xs rk ry k y).
Notation Com := (com C b).

Lemma q1 : 1 < q. Proof. apply (order_gt1 C L). Qed.
Lemma q0 : 0 < q. Proof. pose proof q1. lia. Qed.
Lemma N1' : 1 < N. Proof. apply PO. Qed.

(** ** Commitments to the secrets *)
Definition mask_as (e : req_entropy) (m : nat) : list Z := tab m (fun i => generate_private_key C (e_a e i)).
Definition mask_bs (e : req_entropy) (m : nat) : list Z := tab m (fun i => e_b e i mod (q * q * 2 ^ t)).
Definition enc_rand (e : req_entropy) (m : nat) : list Z := tab (num_cts len m) (fun i => e_enc e i mod n).

Lemma secrets_ok m ms rs as_ bs om or_ en e : length ms = m -> length rs = m -> length as_ = m -> length bs = m -> length en = num_cts len m -> (m <= G)%nat ->
  nonneg ms -> nonneg rs -> nonneg as_ -> nonneg bs -> nonneg en -> 0 <= om -> 0 <= or_ ->
  exists rc w, commit_secrets C b ms rs as_ bs om or_ en e = Ok (rc, w) /\ shaped C b m w /\
    v_messages w = ms /\ v_messages_open w = om /\ v_rs w = rs /\ v_rs_open w = or_ /\ v_as w = as_ /\ v_bs w = bs /\
    v_alphas w = map2 Z.mul ms as_ /\ v_gammas w = map2 Z.mul rs as_ /\ v_enc w = en /\
    f_as (first (rc_as rc) w) = rc_as rc /\ f_bs (first (rc_as rc) w) = rc_bs rc /\
    f_alphas_1 (first (rc_as rc) w) = rc_alphas rc /\ f_alphas_2 (first (rc_as rc) w) = rc_alphas rc /\
    f_gammas_1 (first (rc_as rc) w) = rc_gammas rc /\ f_gammas_2 (first (rc_as rc) w) = rc_gammas rc.
Proof.
  intros Lm Lr La Lb Le Hm Hms Hrs Has Hbs Hen Hom Hor. pose proof N1' as HN.
  assert (B : forall z, 0 <= z mod N < N) by (intros; apply Z.mod_pos_bound; lia).
  set (o := fun i => e_ao e i mod N). set (cm := fun i => com C b (slot G i (nth i as_ 0)) (o i)).
  unfold commit_secrets. rewrite La.
  assert (E1 : mapM (fun i => let* a := at_index as_ i in ped_commit ped (slot G i a) (e_ao e i)) (seq 0 m) = Ok (tab m (fun i => (cm i, o i)))).
  { apply mapM_seq. intros i Hi. rewrite (at_index_ok as_) by lia. cbn [bind]. unfold ped_commit. rewrite rand_ok by lia. cbn [bind].
    rewrite (com_ok C b PO) by (first [rewrite slot_len; lia|apply slot_nonneg, nonneg_nth; exact Has|apply B]). reflexivity. }
  rewrite E1. cbn [bind]. unfold ped_commit. rewrite !rand_ok by lia. cbn [bind]. rewrite !(zero_com C b Hlen PO) by apply B. cbn [bind].
  rewrite (com_ok C b PO) by (first [lia|exact Hbs|apply B]). cbn [bind].
  set (cas := tab m cm). set (os := tab m o).
  assert (Ef : map fst (tab m (fun i => (cm i, o i))) = cas) by (unfold tab, cas; rewrite map_map; reflexivity).
  assert (Es : map snd (tab m (fun i => (cm i, o i))) = os) by (unfold tab, os; rewrite map_map; reflexivity).
  rewrite !Ef, !Es. rewrite (proj1 (accumulate_ok C b Hlen PO cas ms _ (B _) Hms)). cbn [bind]. rewrite (proj1 (accumulate_ok C b Hlen PO cas rs _ (B _) Hrs)). cbn [bind].
  assert (Lo : length os = m) by (unfold os; rewrite tab_len; reflexivity).
  assert (Ho : nonneg os) by (apply tab_mod_nonneg; lia).
  assert (Hd : forall es, nonneg es -> forall r, 0 <= r -> 0 <= dot r os es). { intros es Hes r Hr. rewrite dot_acc. pose proof (dot_nonneg os es Ho Hes). lia. }
  assert (PR : forall es r, length es = m -> nonneg es -> 0 <= r ->
    com C b (map2 Z.mul es as_) (dot r os es) = (pp_h pp ^ r * multi_exp cas es) mod N).
  { intros es r Les Hes Hr. unfold com. apply eqmod_eq; [lia|]. pose proof (slots_product pp as_ os es m La Lo Les Hm Has Ho Hes) as SP.
    rewrite (multi_exp_eqmod N cas (tab m (fun i => raw_commit pp (slot G i (nth i as_ 0)) (nth i os 0))) es).
    - rewrite SP. unfold raw_commit. rewrite (dot_acc os es r), (Z.pow_add_r (pp_h pp)) by (first [exact Hr|apply dot_nonneg; assumption]). exists 0. ring.
    - unfold cas, tab. assert (F : forall js, (forall i, In i js -> (i < m)%nat) -> Forall2 (eqmod N) (map cm js) (map (fun i => raw_commit pp (slot G i (nth i as_ 0)) (nth i os 0)) js)).
      { induction js as [|j js IH]; intros Hj; constructor; [|apply IH; intros i Hi; apply Hj; right; exact Hi].
        unfold cm, com. rewrite (eqmod_mod N). unfold os. rewrite tab_nth. specialize (Hj j (or_introl eq_refl)). destruct (Nat.ltb_spec j m); [reflexivity|lia]. }
      apply F. intros i Hi. apply in_seq in Hi. lia.
    - exact Hes. }
  assert (Nal : forall es, nonneg es -> nonneg (map2 Z.mul es as_)) by (intros es Hes; apply nonneg_map2; [intros; apply Z.mul_nonneg_nonneg; assumption|exact Hes|exact Has]).
  assert (Lal : forall es, length es = m -> length (map2 Z.mul es as_) = m) by (intros es Hes; rewrite map2_len; lia).
  eexists. eexists. split; [reflexivity|]. split.
  { constructor; cbn; try assumption; try (apply Lal; assumption); try (apply Nal; assumption); try apply B; apply Hd; try assumption; apply B. }
  cbn [v_messages v_messages_open v_rs v_rs_open v_as v_bs v_alphas v_gammas v_enc rc_as rc_bs rc_alphas rc_gammas first_of f_as f_bs f_alphas_1 f_alphas_2 f_gammas_1 f_gammas_2
       v_as_open v_bs_open v_alphas_1 v_alphas_2 v_gammas_1 v_gammas_2].
  do 9 (split; [reflexivity|]). split.
  { rewrite Lm. unfold cas. apply tab_ext. intros i Hi. unfold cm, os. rewrite tab_nth. destruct (Nat.ltb_spec i m); [reflexivity|lia]. }
  split; [reflexivity|]. assert (AC : forall r es, (pp_h pp ^ r * multi_exp cas es) mod N = (pp_h pp ^ r mod N * multi_exp cas es) mod N).
  { intros r es. apply eqmod_eq; [lia|]. rewrite (eqmod_mod N). reflexivity. }
  split; [rewrite PR by (first [assumption|apply B]); apply AC|]. split; [apply AC|]. split; [rewrite PR by (first [assumption|apply B]); apply AC|apply AC].
Qed.

(** ** Dummies *)
Definition dummy_enc (e : req_entropy) (m : nat) : list Z := tab (num_cts len m) (fun i => d_enc e i mod (n * 2 ^ t)).
Lemma dummies_ok m e : exists d, draw_dummies C b m e = Ok d /\ shaped C b m d /\ v_enc d = dummy_enc e m /\
  Forall (fun x => 0 <= x < q * 2 ^ t) (v_messages d) /\ Forall (fun x => 0 <= x < q * 2 ^ t) (v_as d) /\ Forall (fun x => 0 <= x < q * q * 2 ^ t * 2 ^ t) (v_bs d) /\
  Forall (fun x => 0 <= x < q * 2 ^ t * q) (v_alphas d) /\ Forall (fun x => 0 <= x < q * 2 ^ t * q) (v_gammas d).
Proof.
  pose proof q1 as Hq. pose proof N1' as HN. pose proof (n1 n s cs W) as Hn. assert (P : 0 < 2 ^ t) by (apply Z.pow_pos_nonneg; lia).
  assert (Q1 : 0 < q * 2 ^ t) by nia. assert (Q2 : 0 < q * q * 2 ^ t) by nia. assert (Q3 : 0 < q * q * 2 ^ t * 2 ^ t) by nia. assert (Q4 : 0 < q * 2 ^ t * q) by nia.
  assert (Q5 : 0 < N * 2 ^ t) by nia. assert (Q6 : 0 < N * 2 ^ t * q * Z.of_nat (m + 1)) by (clear - Q5 Hq; nia). assert (Q7 : 0 < n * 2 ^ t) by nia.
  unfold draw_dummies. rewrite !lshift_ok by lia. cbn [bind]. rewrite !lshift_ok by lia. cbn [bind]. rewrite (w_n _ _ _ W).
  rewrite !draws_ok by assumption. cbn [bind]. rewrite !rand_ok by assumption. cbn [bind].
  eexists. split; [reflexivity|]. cbn [v_enc v_messages v_as v_bs v_alphas v_gammas].
  assert (B : forall z m, 0 < m -> 0 <= z mod m) by (intros z m0 Hm; apply Z.mod_pos_bound; exact Hm).
  split; [constructor; cbn; rewrite ?tab_len; try reflexivity; try (apply tab_mod_nonneg; assumption); apply B; assumption|].
  split; [reflexivity|]. repeat (split; [apply tab_range; assumption|]). apply tab_range; assumption.
Qed.

(** ** Messages to and from protos *)
Lemma cts_proto cts : Forall (fun c => exists r f, c = E r f) cts -> exists ps, mapM cs_ct_to_proto cts = Ok ps /\ mapM (cs_parse_ct cs) ps = Ok cts /\ length ps = length cts.
Proof.
  induction 1 as [|c cts (r & f & ->) H IH]; cbn [mapM]; [exists []; repeat split; reflexivity|]. destruct (enc_proto n s cs xs W r f) as (p & E1 & E2). rewrite E1. cbn [bind].
  destruct IH as (ps & I1 & I2 & I3). rewrite I1. cbn [bind]. exists (p :: ps). split; [reflexivity|]. cbn [mapM length]. rewrite E2, I2, I3. cbn [bind]. split; reflexivity.
Qed.
Lemma first_cts cas v : Forall (fun c => exists r f, c = E r f) (f_cts (first cas v)).
Proof. apply tab_Forall. intros i _. eexists. eexists. reflexivity. Qed.
Lemma first_proto cas v : exists m1, first_to_proto (first cas v) = Ok m1.
Proof.
  pose proof N1' as HN. assert (B : forall z, 0 <= z mod N) by (intros; apply Z.mod_pos_bound; lia). unfold first_to_proto. cbn [first_of f_messages f_rs f_bs f_alphas_1 f_alphas_2 f_gammas_1 f_gammas_2]. unfold com.
  repeat match goal with |- context [to_bytes ?z] => let x := fresh in let Ex := fresh in destruct (to_bytes_of z (B _)) as (x & Ex & _); rewrite Ex; cbn [bind]; clear Ex end.
  destruct (vec_proto (f_as (first cas v))) as (ba & Ea & _). { apply tab_Forall. intros i _. apply B. }
  cbn [first_of f_as f_cts] in *. rewrite Ea. cbn [bind].
  repeat match goal with |- context [to_bytes ?z] => let x := fresh in let Ex := fresh in destruct (to_bytes_of z (B _)) as (x & Ex & _); rewrite Ex; cbn [bind]; clear Ex end.
  destruct (cts_proto (f_cts (first cas v)) (first_cts cas v)) as (ps & E1 & _). cbn [first_of f_cts] in E1. rewrite E1. cbn [bind]. eexists. reflexivity.
Qed.
Lemma values_proto m v : shaped C b m v -> exists m2, values_to_proto v = Ok m2 /\ values_of_proto m2 = v /\ length (m2_messages m2) = m /\ length (m2_rs m2) = m /\
  length (m2_as m2) = m /\ length (m2_bs m2) = m /\ length (m2_alphas m2) = m /\ length (m2_gammas m2) = m /\ length (m2_enc m2) = num_cts len m.
Proof.
  intros Z1. destruct Z1. unfold values_to_proto.
  repeat match goal with
  | |- context [let* _ := bignum_vector_to_proto ?l in _] => let x := fresh "x" in let Ex := fresh in let Px := fresh "P" in let Lx := fresh "Q" in
      destruct (vec_proto l) as (x & Ex & Px & Lx); [assumption|]; rewrite Ex; cbn [bind]; clear Ex
  | |- context [let* _ := to_bytes ?z in _] => let x := fresh "x" in let Ex := fresh in let Px := fresh "P" in destruct (to_bytes_of z) as (x & Ex & Px); [assumption|]; rewrite Ex; cbn [bind]; clear Ex
  end.
  eexists. split; [reflexivity|]. cbn [m2_messages m2_rs m2_as m2_bs m2_alphas m2_gammas m2_enc]. split; [|repeat split; congruence].
  unfold values_of_proto. cbn [m2_messages m2_messages_open m2_rs m2_rs_open m2_as m2_as_open m2_bs m2_bs_open m2_alphas m2_alphas_1 m2_alphas_2 m2_gammas m2_gammas_1 m2_gammas_2 m2_enc].
  repeat match goal with H : parse_bignum_vector _ = _ |- _ => rewrite H; clear H | H : of_bytes _ = _ |- _ => rewrite H; clear H end. destruct v. reflexivity.
Qed.
Lemma challenge_ok st m1 : exists c, req_challenge C sha b st m1 = Ok c /\ 0 <= c < 2 ^ chal.
Proof. unfold req_challenge. rewrite lshift_ok by lia. cbn [bind]. rewrite Z.mul_1_l. apply ro_pow2. exact Hchal. Qed.

(** ** The honest request *)
Definition hidden_msgs (ms as_ bs : list Z) : list Z := map2 (fun al x => al + x * q) (map2 Z.mul ms as_) bs.
Definition request_cts (ms rs : list Z) (e : req_entropy) : list cs_ciphertext :=
  let m := length ms in let as_ := mask_as e m in let ga := map2 Z.mul rs as_ in
  tab (num_cts len m) (fun i => E (hr C b rk ry as_ ga (enc_rand e m) i) (hf C b k y (hidden_msgs ms as_ (mask_bs e m)) as_ ga i)).

Lemma pow_mono_t a c : 0 <= a <= c -> 2 ^ a <= 2 ^ c. Proof. intros. apply Z.pow_le_mono_r; lia. Qed.
Lemma mask_as_range e m : Forall (fun x => 0 < x < q) (mask_as e m).
Proof. apply tab_Forall. intros i _. apply (private_key_range C L). Qed.
Lemma mask_bs_range e m : Forall (fun x => 0 <= x < q * q * 2 ^ t) (mask_bs e m).
Proof. apply tab_range. pose proof q1. assert (0 < 2 ^ t) by (apply Z.pow_pos_nonneg; lia). nia. Qed.

Lemma in_bounds m c d w ms rs : 0 <= c < 2 ^ chal -> shaped C b m d -> shaped C b m w ->
  Forall (fun x => 0 <= x < q * 2 ^ t) (v_messages d) -> Forall (fun x => 0 <= x < q * 2 ^ t) (v_as d) -> Forall (fun x => 0 <= x < q * q * 2 ^ t * 2 ^ t) (v_bs d) ->
  Forall (fun x => 0 <= x < q * 2 ^ t * q) (v_alphas d) -> Forall (fun x => 0 <= x < q * 2 ^ t * q) (v_gammas d) ->
  Forall (fun x => 0 <= x < q) ms -> Forall (fun x => 0 <= x < q) rs -> v_messages w = ms -> Forall (fun x => 0 < x < q) (v_as w) ->
  Forall (fun x => 0 <= x < q * q * 2 ^ t) (v_bs w) -> v_alphas w = map2 Z.mul ms (v_as w) -> v_gammas w = map2 Z.mul rs (v_as w) ->
  values_in_bounds C b (masked_values c d w) = Ok true.
Proof.
  intros Hc D V B1 B2 B3 B4 B5 Hms Hrs Em Ha Hb Eal Ega. pose proof q1 as Hq. unfold values_in_bounds. rewrite !lshift_ok by lia. cbn [bind]. f_equal.
  set (T := 2 ^ t) in *. assert (P : 2 ^ chal <= T) by (apply pow_mono_t; lia). assert (T0 : 0 < T) by (apply Z.pow_pos_nonneg; lia).
  assert (E1 : 2 ^ (t + 1) = 2 * T). { unfold T. rewrite Z.pow_add_r by lia. ring. }
  assert (E2 : 2 ^ (2 * chal + 2 * sec + 1) = 2 * T * T). { unfold T. replace (2 * chal + 2 * sec + 1) with (t + t + 1) by lia. rewrite !(Z.pow_add_r 2) by lia. ring. }
  rewrite E1, E2.
  assert (cx : forall x X, 0 <= x < X -> 0 <= c * x <= T * X). { clear - Hc P T0. intros x X Hx. split; [apply Z.mul_nonneg_nonneg; lia|apply Z.mul_le_mono_nonneg; lia]. }
  assert (Sal : forall es, Forall (fun x => 0 <= x < q) es -> Forall (fun x => 0 <= x < q * q) (map2 Z.mul es (v_as w))).
  { intros es Hes. apply (map2_bound Z.mul (fun x => 0 <= x < q) (fun x => 0 < x < q)); [|exact Hes|exact Ha]. clear. intros x a Hx Hx'. nia. }
  cbn [masked_values v_messages v_as v_bs v_alphas v_gammas]. rewrite !andb_true_iff. repeat split; apply forallb_ltb.
  - rewrite Em. eapply (map2_bound (mask c) _ (fun x => 0 <= x < q)); [|exact B1|exact Hms]. cbn beta. intros x z Hx Hz. unfold mask. specialize (cx z q Hz). nia.
  - eapply (map2_bound (mask c) _ (fun x => 0 < x < q)); [|exact B2|exact Ha]. cbn beta. intros x z Hx Hz. unfold mask. specialize (cx z q ltac:(lia)). nia.
  - eapply (map2_bound (mask c)); [|exact B3|exact Hb]. cbn beta. intros x z Hx Hz. unfold mask. specialize (cx z _ Hz). nia.
  - rewrite Eal. eapply (map2_bound (mask c)); [|exact B4|apply Sal, Hms]. cbn beta. intros x z Hx Hz. unfold mask. specialize (cx z _ Hz). nia.
  - rewrite Ega. eapply (map2_bound (mask c)); [|exact B5|apply Sal, Hrs]. cbn beta. intros x z Hx Hz. unfold mask. specialize (cx z _ Hz). nia.
Qed.

Lemma honest_request ms rs om or_ e : (length ms <= G)%nat -> length rs = length ms -> nonneg ms -> nonneg rs -> 0 <= om -> 0 <= or_ ->
  let m := length ms in
  Forall (rnd_ok n) (enc_rand e m) -> Forall (rnd_ok n) (dummy_enc e m) ->
  exists rq pf st, bb_request_and_proof flag C sha b ms rs pk (Com ms om) om (Com rs or_) or_ e = Ok (rq, pf, st) /\
    rq_num rq = m /\ mapM (cs_parse_ct cs) (rq_cts rq) = Ok (request_cts ms rs e) /\ parse_bignum_vector st = mask_as e m /\
    (Forall (fun x => x < q) ms -> Forall (fun x => x < q) rs ->
      (Forall (rnd_ok n) (parse_bignum_vector (m2_enc (rp_m2 pf))) -> bb_verify_request flag C sha b pk rq pf (Com ms om) (Com rs or_) = Ok tt) /\
      (~ Forall (rnd_ok n) (parse_bignum_vector (m2_enc (rp_m2 pf))) -> bb_verify_request flag C sha b pk rq pf (Com ms om) (Com rs or_) = Err InvalidArgument)).
Proof.
  intros HmG Lr Hms Hrs Hom Hor m He Hde. pose proof q1 as Hq. pose proof N1' as HN. pose proof (n1 n s cs W) as Hn.
  assert (P : 0 < 2 ^ t) by (apply Z.pow_pos_nonneg; lia). assert (Q2 : 0 < q * q * 2 ^ t) by nia.
  pose proof (mask_as_range e m) as Ra. pose proof (mask_bs_range e m) as Rb.
  assert (Na : nonneg (mask_as e m)) by (eapply Forall_impl; [|exact Ra]; cbn beta; lia). assert (Nb : nonneg (mask_bs e m)) by (eapply Forall_impl; [|exact Rb]; cbn beta; lia).
  assert (La : length (mask_as e m) = m) by apply tab_len. assert (Lb : length (mask_bs e m) = m) by apply tab_len.
  assert (Ne : nonneg (enc_rand e m)) by (apply tab_mod_nonneg; lia). assert (Le : length (enc_rand e m) = num_cts len m) by apply tab_len.
  assert (Ng : nonneg (map2 Z.mul rs (mask_as e m))) by (apply nonneg_map2; [intros; apply Z.mul_nonneg_nonneg; assumption|assumption..]).
  assert (Lg : length (map2 Z.mul rs (mask_as e m)) = m) by (rewrite map2_len; lia).
  assert (Nh : nonneg (hidden_msgs ms (mask_as e m) (mask_bs e m))).
  { apply nonneg_map2; [|apply nonneg_map2; [intros; apply Z.mul_nonneg_nonneg; assumption|assumption..]|exact Nb]. intros a c Ha Hc. pose proof (Z.mul_nonneg_nonneg c q). lia. }
  assert (Lh : length (hidden_msgs ms (mask_as e m) (mask_bs e m)) = m) by (unfold hidden_msgs; rewrite !map2_len; rewrite ?map2_len; fold m; lia).
  unfold bb_request_and_proof. fold m. destruct (Nat.ltb_spec G m) as [|_]; [unfold m in *; lia|]. rewrite Lr. fold m. rewrite Nat.eqb_refl. cbn [negb].
  unfold draw_masks. fold m. rewrite lshift_ok by lia. cbn [bind]. rewrite draws_ok by exact Q2. cbn [bind]. change (map (fun i => generate_private_key C (e_a e i)) (seq 0 m)) with (mask_as e m).
  change (tab m (fun i => e_b e i mod (q * q * 2 ^ t))) with (mask_bs e m). rewrite EP. cbn [bind]. destruct (Nat.eqb_spec len 0) as [|_]; [lia|].
  rewrite (w_n _ _ _ W), draws_ok by lia. cbn [bind]. change (tab (num_cts len m) (fun i => e_enc e i mod n)) with (enc_rand e m).
  change (map2 (fun al x => al + x * q) (map2 Z.mul ms (mask_as e m)) (mask_bs e m)) with (hidden_msgs ms (mask_as e m) (mask_bs e m)).
  rewrite K1, K2.
  rewrite (homomorphic_ok flag C b n s xs W Hg Hk Hlen rk ry k y Hrk Hry Hk0 Hy0) by (first [congruence|assumption]). cbn [bind]. rewrite Lh.
  change (tab (num_cts len m) _) with (request_cts ms rs e).
  destruct (vec_proto _ Na) as (sb & Esb & Psb & _). rewrite Esb. cbn [bind].
  destruct (cts_proto (request_cts ms rs e)) as (ctb & Ectb & Pctb & Lctb). { apply tab_Forall. intros i _. eexists. eexists. reflexivity. }
  rewrite Ectb. cbn [bind].
  destruct (secrets_ok m ms rs (mask_as e m) (mask_bs e m) om or_ (enc_rand e m) e eq_refl Lr La Lb Le HmG Hms Hrs Na Nb Ne Hom Hor)
    as (rc & w & Ew & Sw & Wm & Wmo & Wr & Wro & Wa & Wb & Wal & Wga & We & Fa & Fb & Fal1 & Fal2 & Fga1 & Fga2). rewrite Ew. cbn [bind].
  destruct (dummies_ok m e) as (d & Ed & Sd & Ed2 & B1 & B2 & B3 & B4 & B5). rewrite Ed. cbn [bind].
  rewrite (composites_ok flag C b n s xs W Hg Hk Hlen rk ry k y Hrk Hry Hk0 Hy0 PO q0 keys K1 K2 m) by (first [assumption|lia|rewrite Ed2; exact Hde]). cbn [bind].
  assert (Rng : forall l r, 0 <= com C b l r) by (intros; apply Z.mod_pos_bound; lia).
  destruct (to_bytes_of (Com ms om) (Rng _ _)) as (cmb & Ecm & Pcm). rewrite Ecm. cbn [bind]. destruct (to_bytes_of (Com rs or_) (Rng _ _)) as (crb & Ecr & Pcr). rewrite Ecr. cbn [bind].
  assert (Nca : nonneg (rc_as rc)). { rewrite <- Fa. apply tab_Forall. intros i _. apply Rng. }
  destruct (vec_proto _ Nca) as (cab & Ecab & Pcab & Lcab). rewrite Ecab. cbn [bind].
  destruct (to_bytes_of (rc_bs rc)) as (cbb & Ecb & Pcb). { rewrite <- Fb. apply Rng. } rewrite Ecb. cbn [bind].
  destruct (to_bytes_of (rc_alphas rc)) as (alb & Eal & Pal). { rewrite <- Fal1. apply Rng. } rewrite Eal. cbn [bind].
  destruct (to_bytes_of (rc_gammas rc)) as (gab & Ega & Pga). { rewrite <- Fga1. apply Rng. } rewrite Ega. cbn [bind].
  destruct (first_proto (rc_as rc) d) as (m1 & Em1). rewrite Em1. cbn [bind].
  match goal with |- context [req_challenge C sha b ?st m1] => destruct (challenge_ok st m1) as (c & Ec & Bc) end. rewrite Ec. cbn [bind].
  destruct (to_bytes_of c (proj1 Bc)) as (chb & Echb & Pchb). rewrite Echb. cbn [bind].
  pose proof (shaped_mask C b Hlen m c d w (proj1 Bc) Sd Sw) as Smk.
  destruct (values_proto m _ Smk) as (m2 & Em2 & Pm2 & Q1' & Q2' & Q3' & Q4' & Q5' & Q6' & Q7'). rewrite Em2. cbn [bind].
  eexists. eexists. eexists. split; [reflexivity|]. cbn [rq_num rq_cts rp_m2]. split; [reflexivity|]. split; [exact Pctb|]. split; [exact Psb|].
  intros Bms Brs.
  assert (Venc : parse_bignum_vector (m2_enc m2) = v_enc (masked_values c d w)) by (rewrite <- Pm2; reflexivity).
  assert (Lctb' : length ctb = num_cts len m) by (rewrite Lctb; apply tab_len).
  assert (Lca : length (rc_as rc) = m). { rewrite <- Fa. cbn [first_of f_as]. rewrite tab_len, Wm. reflexivity. }
  assert (Lcab' : length cab = m) by congruence.
  unfold bb_verify_request. cbn [rq_num rq_cts rp_m2 rp_as rp_bs rp_alphas rp_gammas rp_challenge].
  destruct (Nat.ltb_spec G m) as [|_]; [unfold m in *; lia|]. rewrite Lcab', Q1', Q2', Q3', Q4', Q5', Q6', Q7', Lctb', !Nat.eqb_refl. cbn [negb].
  destruct (Nat.eqb_spec len 0) as [|_]; [lia|]. rewrite Ecm, Ecr. cbn [bind]. rewrite Pctb. cbn [bind]. rewrite Pm2.
  assert (Rms : Forall (fun x => 0 <= x < q) ms). { clear - Hms Bms. unfold nonneg in Hms. rewrite Forall_forall in *. intros x Hx. split; [apply Hms, Hx|apply Bms, Hx]. }
  assert (Rrs : Forall (fun x => 0 <= x < q) rs). { clear - Hrs Brs. unfold nonneg in Hrs. rewrite Forall_forall in *. intros x Hx. split; [apply Hrs, Hx|apply Brs, Hx]. }
  rewrite (in_bounds m c d w ms rs) by (first [assumption|rewrite Wa; assumption|rewrite Wb; assumption|rewrite Wal, Wa; reflexivity|rewrite Wga, Wa; reflexivity]). cbn [bind negb].
  rewrite Pcab, Pcb, Pal, Pga, Pchb. rewrite Venc. split; intros Hv.
  - rewrite (masked_composites_ok flag C b n s xs W Hg Hk Hlen rk ry k y Hrk Hry Hk0 Hy0 PO q0 keys K1 K2 pk m) by (first [assumption|lia]).
    cbn [bind].
    assert (Fcm : f_messages (first (rc_as rc) w) = Com ms om) by (cbn [first_of f_messages]; rewrite Wm, Wmo; reflexivity).
    assert (Fcr : f_rs (first (rc_as rc) w) = Com rs or_) by (cbn [first_of f_rs]; rewrite Wr, Wro; reflexivity).
    assert (Fct : f_cts (first (rc_as rc) w) = request_cts ms rs e).
    { cbn [first_of f_cts]. unfold hidden, request_cts, hidden_msgs. rewrite Wm, Wa, Wga, We, Wal, Wb. reflexivity. }
    pose proof (unmask_all_ok C b n s xs W Hg Hk Hlen rk ry k y Hrk Hry Hk0 Hy0 PO UN q0) as UA.
    specialize (UA m c (rc_as rc) d w (proj1 Bc) Sd Sw HmG Fa ltac:(congruence) ltac:(congruence)). rewrite Fcm, Fcr, Fb, Fal1, Fga1, Fct in UA. rewrite UA. cbn [bind].
    rewrite Em1. cbn [bind]. rewrite Ec. cbn [bind]. rewrite Z.eqb_refl. reflexivity.
  - rewrite (masked_composites_rejects flag C b n s xs W Hg Hk Hlen rk ry k y Hrk Hry Hk0 Hy0 PO q0 keys K1 K2 pk m) by (first [assumption|lia]).
    reflexivity.
Qed.

(** Encryption randomness that shares a factor with n makes the request fail. *)
Lemma request_rejects ms rs cm om cr or_ e : (length ms <= G)%nat -> length rs = length ms -> nonneg ms -> nonneg rs -> 0 <= om -> 0 <= or_ ->
  let m := length ms in ~ (Forall (rnd_ok n) (enc_rand e m) /\ Forall (rnd_ok n) (dummy_enc e m)) ->
  bb_request_and_proof flag C sha b ms rs pk cm om cr or_ e = Err InvalidArgument.
Proof.
  intros HmG Lr Hms Hrs Hom Hor m Hbad. pose proof q1 as Hq. pose proof N1' as HN. pose proof (n1 n s cs W) as Hn.
  assert (P : 0 < 2 ^ t) by (apply Z.pow_pos_nonneg; lia). assert (Q2 : 0 < q * q * 2 ^ t) by nia.
  pose proof (mask_as_range e m) as Ra. pose proof (mask_bs_range e m) as Rb.
  assert (Na : nonneg (mask_as e m)) by (eapply Forall_impl; [|exact Ra]; cbn beta; lia). assert (Nb : nonneg (mask_bs e m)) by (eapply Forall_impl; [|exact Rb]; cbn beta; lia).
  assert (La : length (mask_as e m) = m) by apply tab_len. assert (Lb : length (mask_bs e m) = m) by apply tab_len.
  assert (Ne : nonneg (enc_rand e m)) by (apply tab_mod_nonneg; lia). assert (Le : length (enc_rand e m) = num_cts len m) by apply tab_len.
  assert (Ng : nonneg (map2 Z.mul rs (mask_as e m))) by (apply nonneg_map2; [intros; apply Z.mul_nonneg_nonneg; assumption|assumption..]).
  assert (Lg : length (map2 Z.mul rs (mask_as e m)) = m) by (rewrite map2_len; lia).
  assert (Nh : nonneg (hidden_msgs ms (mask_as e m) (mask_bs e m))).
  { apply nonneg_map2; [|apply nonneg_map2; [intros; apply Z.mul_nonneg_nonneg; assumption|assumption..]|exact Nb]. intros a c Ha Hc. pose proof (Z.mul_nonneg_nonneg c q). lia. }
  assert (Lh : length (hidden_msgs ms (mask_as e m) (mask_bs e m)) = m) by (unfold hidden_msgs; rewrite !map2_len; rewrite ?map2_len; fold m; lia).
  assert (Dec : forall r, 0 <= r -> {rnd_ok n r} + {~ rnd_ok n r}).
  { intros r Hr. unfold rnd_ok. destruct (Z.eq_dec r 0); [left; lia|]. destruct (Z.eq_dec (Z.gcd r n) 1); [left; lia|right; lia]. }
  assert (DecL : forall l, nonneg l -> {Forall (rnd_ok n) l} + {~ Forall (rnd_ok n) l}).
  { induction l as [|r l IH]; intros Hl; [left; constructor|]. assert (H1 : 0 <= r) by (inversion Hl; assumption). assert (H2 : nonneg l) by (inversion Hl; assumption).
    destruct (Dec r H1) as [D1|D1]; [|right; intros X; inversion X; contradiction]. destruct (IH H2) as [D2|D2]; [left; constructor; assumption|right; intros X; inversion X; contradiction]. }
  unfold bb_request_and_proof. fold m. destruct (Nat.ltb_spec G m) as [|_]; [unfold m in *; lia|]. rewrite Lr. fold m. rewrite Nat.eqb_refl. cbn [negb].
  unfold draw_masks. fold m. rewrite lshift_ok by lia. cbn [bind]. rewrite draws_ok by exact Q2. cbn [bind]. change (map (fun i => generate_private_key C (e_a e i)) (seq 0 m)) with (mask_as e m).
  change (tab m (fun i => e_b e i mod (q * q * 2 ^ t))) with (mask_bs e m). rewrite EP. cbn [bind]. destruct (Nat.eqb_spec len 0) as [|_]; [lia|].
  rewrite (w_n _ _ _ W), draws_ok by lia. cbn [bind]. change (tab (num_cts len m) (fun i => e_enc e i mod n)) with (enc_rand e m).
  change (map2 (fun al x => al + x * q) (map2 Z.mul ms (mask_as e m)) (mask_bs e m)) with (hidden_msgs ms (mask_as e m) (mask_bs e m)).
  rewrite K1, K2. destruct (DecL _ Ne) as [He|He].
  - rewrite (homomorphic_ok flag C b n s xs W Hg Hk Hlen rk ry k y Hrk Hry Hk0 Hy0) by (first [congruence|assumption]). cbn [bind]. rewrite Lh.
    change (tab (num_cts len m) _) with (request_cts ms rs e).
    destruct (vec_proto _ Na) as (sb & Esb & Psb & _). rewrite Esb. cbn [bind].
    destruct (cts_proto (request_cts ms rs e)) as (ctb & Ectb & Pctb & Lctb). { apply tab_Forall. intros i _. eexists. eexists. reflexivity. }
    rewrite Ectb. cbn [bind].
    destruct (secrets_ok m ms rs (mask_as e m) (mask_bs e m) om or_ (enc_rand e m) e eq_refl Lr La Lb Le HmG Hms Hrs Na Nb Ne Hom Hor) as (rc & w & Ew & _). rewrite Ew. cbn [bind].
    destruct (dummies_ok m e) as (d & Ed & Sd & Ed2 & _). rewrite Ed. cbn [bind].
    rewrite (composites_rejects flag C b n s xs W Hg Hk Hlen rk ry k y Hrk Hry Hk0 Hy0 PO q0 keys K1 K2 m); [reflexivity|exact Sd|exact HmG|]. rewrite Ed2. intros X. apply Hbad. split; assumption.
  - rewrite (homomorphic_rejects flag C b n s xs W Hg Hk Hlen rk ry k y Hrk Hry Hk0 Hy0) by (first [congruence|assumption]). reflexivity.
Qed.

End Req.
