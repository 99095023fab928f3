(** The distribution of an honest request proof. *)
From Coq Require Import Znumtheory.
From Verif Require Import Base M_BigNum L_BigNum M_Num L_Mod L_Num L_NT M_DJ L_DJ M_Paillier L_Paillier L_PaillierKey M_EC L_EC L_Cipher M_Proto M_CS S_CS L_CS
  M_Simul M_Pedersen M_Wire M_VRF M_BB L_BBct L_BBhom L_BBped L_BBreq S_Exp S_Pedersen L_Exp L_Protocol L_Pedersen L_VRF S_Hide L_Hide S_HideBB.

(** The values in the order of the draws. *)
Definition flat (v : req_values) : list Z :=
  v_messages v ++ v_rs v ++ v_as v ++ v_as_open v ++ v_bs v ++ v_alphas v ++ v_gammas v ++
  [v_messages_open v; v_rs_open v; v_bs_open v; v_alphas_1 v; v_alphas_2 v; v_gammas_1 v; v_gammas_2 v] ++ v_enc v.
Record sized (m k : nat) (v : req_values) : Prop := {
  sz_m : length (v_messages v) = m; sz_r : length (v_rs v) = m; sz_a : length (v_as v) = m; sz_ao : length (v_as_open v) = m; sz_b : length (v_bs v) = m;
  sz_al : length (v_alphas v) = m; sz_ga : length (v_gammas v) = m; sz_e : length (v_enc v) = k }.
Lemma flat_len m k v : sized m k v -> length (flat v) = (7 * m + 7 + k)%nat.
Proof. intros []. unfold flat. rewrite !app_length. cbn [length]. lia. Qed.

Lemma flat_nth_part (a x z l : list Z) s i : l = a ++ x ++ z -> s = length a -> (i < length x)%nat -> nth (s + i) l 0 = nth i x 0.
Proof. intros -> -> H. apply nth_mid. exact H. Qed.
Ltac flat_part a x := let H := fresh in
  match goal with |- nth (?s + ?i) (flat ?v) 0 = _ => eapply (flat_nth_part a x _ (flat v) s i); [unfold flat; rewrite <- ?app_assoc; reflexivity|rewrite ?app_length; cbn [length]; lia|lia] end.
Lemma flat_nth m k v : sized m k v -> forall i,
  ((i < m)%nat -> nth (0 + i) (flat v) 0 = nth i (v_messages v) 0 /\ nth (m + i) (flat v) 0 = nth i (v_rs v) 0 /\ nth (2 * m + i) (flat v) 0 = nth i (v_as v) 0 /\
    nth (3 * m + i) (flat v) 0 = nth i (v_as_open v) 0 /\ nth (4 * m + i) (flat v) 0 = nth i (v_bs v) 0 /\ nth (5 * m + i) (flat v) 0 = nth i (v_alphas v) 0 /\ nth (6 * m + i) (flat v) 0 = nth i (v_gammas v) 0) /\
  ((i < 7)%nat -> nth (7 * m + i) (flat v) 0 = nth i [v_messages_open v; v_rs_open v; v_bs_open v; v_alphas_1 v; v_alphas_2 v; v_gammas_1 v; v_gammas_2 v] 0) /\
  ((i < k)%nat -> nth (7 * m + 7 + i) (flat v) 0 = nth i (v_enc v) 0).
Proof.
  intros [] i. split; [intros Hi; split; [|split; [|split; [|split; [|split; [|split]]]]]|split; intros Hi].
  - flat_part (@nil Z) (v_messages v).
  - flat_part (v_messages v) (v_rs v).
  - flat_part (v_messages v ++ v_rs v) (v_as v).
  - flat_part (v_messages v ++ v_rs v ++ v_as v) (v_as_open v).
  - flat_part (v_messages v ++ v_rs v ++ v_as v ++ v_as_open v) (v_bs v).
  - flat_part (v_messages v ++ v_rs v ++ v_as v ++ v_as_open v ++ v_bs v) (v_alphas v).
  - flat_part (v_messages v ++ v_rs v ++ v_as v ++ v_as_open v ++ v_bs v ++ v_alphas v) (v_gammas v).
  - eapply (flat_nth_part (v_messages v ++ v_rs v ++ v_as v ++ v_as_open v ++ v_bs v ++ v_alphas v ++ v_gammas v) [v_messages_open v; v_rs_open v; v_bs_open v; v_alphas_1 v; v_alphas_2 v; v_gammas_1 v; v_gammas_2 v]);
      [unfold flat; rewrite <- ?app_assoc; reflexivity|rewrite ?app_length; lia|cbn [length]; lia].
  - eapply (flat_nth_part (v_messages v ++ v_rs v ++ v_as v ++ v_as_open v ++ v_bs v ++ v_alphas v ++ v_gammas v ++ [v_messages_open v; v_rs_open v; v_bs_open v; v_alphas_1 v; v_alphas_2 v; v_gammas_1 v; v_gammas_2 v]) (v_enc v) []);
      [unfold flat; rewrite <- ?app_assoc, app_nil_r; reflexivity|rewrite ?app_length; cbn [length]; lia|lia].
Qed.

(** Adding c times the secrets to the draws is adding them to the arranged values. *)
Lemma part_masked c s l ds ws v : length v = l -> (s + l <= length ds)%nat -> (forall i, (i < l)%nat -> nth (s + i) ws 0 = c * nth i v 0) ->
  part s l (shift ws ds) = map2 (mask c) (part s l ds) v.
Proof.
  intros Lv Hs H. rewrite part_shift by exact Hs. apply (nth_ext _ _ 0 0); [rewrite map_length, seq_length, map2_len by (rewrite part_len; lia); rewrite part_len; reflexivity|]. intros i Hi. rewrite map_length, seq_length in Hi.
  rewrite map2_nth by (rewrite ?part_len; unfold mask; lia). unfold part. rewrite !seq_map_nth. destruct (Nat.ltb_spec i l); [|lia]. unfold mask. rewrite H by exact Hi. reflexivity.
Qed.
Lemma nth_scale c (l : list Z) i : nth i (map (fun x => c * x) l) 0 = c * nth i l 0.
Proof. revert i. induction l as [|x l IH]; intros [|i]; cbn [map nth]; try lia. apply IH. Qed.
Lemma arrange_masked c m k v ds : sized m k v -> length ds = (7 * m + 7 + k)%nat ->
  arrange m k (shift (map (fun x => c * x) (flat v)) ds) = masked_values c (arrange m k ds) v.
Proof.
  intros Z L. pose proof (fun i => flat_nth m k v Z i) as F. destruct Z. unfold arrange, masked_values. cbn [v_messages v_messages_open v_rs v_rs_open v_as v_as_open v_bs v_bs_open v_alphas v_alphas_1 v_alphas_2 v_gammas v_gammas_1 v_gammas_2 v_enc].
  assert (A : forall i, (i < 7)%nat -> nth (7 * m + i) (shift (map (fun x => c * x) (flat v)) ds) 0 =
    mask c (nth (7 * m + i) ds 0) (nth i [v_messages_open v; v_rs_open v; v_bs_open v; v_alphas_1 v; v_alphas_2 v; v_gammas_1 v; v_gammas_2 v] 0)).
  { intros i Hi. rewrite shift_nth by lia. rewrite nth_scale. destruct (F i) as (_ & Q & _). rewrite Q by exact Hi. reflexivity. }
  rewrite !A by lia. cbn [nth]. f_equal; try (apply part_masked; [assumption|lia|intros i Hi; rewrite nth_scale; f_equal; destruct (F i) as (Q & _ & Q3); first [apply (Q Hi)|apply (Q3 Hi)]]).
Qed.

Ltac one p := let X := fresh in pose proof p as X; cbn [length] in X; rewrite X; cbn [bind]; clear X.
Section ReqHide.
Variable flag : bool.
Variable C : ec.
Variable b : bb C.
Variables (n : Z) (s : nat) (xs : list Z).
Notation cs := (bb_cs C b).
Hypothesis W : cs_valid n s cs.
Hypothesis Hg : Z.gcd (cs_g cs) n = 1.
Hypothesis Hk : key_match n s (cs_g cs) xs (cs_ys cs).
Notation len := (cs_len cs).
Notation E := (enc n s cs xs).
Hypothesis Hlen : (0 < len)%nat.
Variables (rk ry : nat -> Z) (k y : Z).
Hypothesis Hrk : forall j, 0 <= rk j.
Hypothesis Hry : forall j, 0 <= ry j.
Hypothesis Hk0 : 0 <= k.
Hypothesis Hy0 : 0 <= y.
Notation ped := (bb_ped C b).
Notation pp := (pd_par ped).
Notation N := (pp_n pp).
Notation G := (length (pp_gs pp)).
Notation q := (ec_order C).
Hypothesis PO : ped_ok ped.
Hypothesis L : ec_laws C.
Notation sec := (bp_sec (bb_par C b)).
Notation chal := (bp_chal (bb_par C b)).
Notation t := (chal + sec).
Hypothesis Hsec : 0 < sec.
Hypothesis Hchal : 0 < chal <= 120000.
Variable pk : bb_public.
Variable keys : list (cs_ciphertext * cs_ciphertext).
Hypothesis EP : parse_public C b pk = Ok keys.
Hypothesis K1 : map fst keys = key_cts C b n s xs rk k.
Hypothesis K2 : map snd keys = key_cts C b n s xs ry y.
Notation first := (first_of C b n s xs rk ry k y).
Notation Com := (com C b).

Lemma draw_seg a B l z ds f : 0 < B -> Forall2 (fun b d => 0 <= d < b) (a ++ repeat B l ++ z) ds -> (forall i, f i = nth (length a + i) ds 0) ->
  draws B f l = Ok (part (length a) l ds).
Proof.
  intros HB H Hf. rewrite draws_ok by exact HB. f_equal. unfold part, tab. apply map_ext_in. intros i Hi. apply in_seq in Hi. rewrite Hf. apply Z.mod_small. apply (part_range a B l z ds H). lia.
Qed.
Lemma draw_one a B z ds f : 0 < B -> Forall2 (fun b d => 0 <= d < b) (a ++ B :: z) ds -> f = nth (length a) ds 0 -> generate_rand_less_than B f = Ok f.
Proof.
  intros HB H ->. rewrite rand_ok by exact HB. f_equal. apply Z.mod_small. pose proof (part_range a B 1 z ds H 0%nat ltac:(lia)) as Q. rewrite Nat.add_0_r in Q. exact Q.
Qed.

Lemma dummies_arranged e m ds : Forall2 (fun x d => 0 <= d < x) (request_bounds C b m (num_cts len m)) ds -> draw_dummies C b m (with_dummies e m ds) = Ok (arrange m (num_cts len m) ds).
Proof.
  intros H. pose proof (order_gt1 C L) as Hq. assert (HN : 1 < N) by apply PO. pose proof (n1 n s cs W) as Hn. assert (P : 0 < 2 ^ t) by (apply Z.pow_pos_nonneg; lia).
  assert (Q1 : 0 < q * 2 ^ t) by nia. assert (Q2 : 0 < q * q * 2 ^ t) by nia. assert (Q3 : 0 < q * q * 2 ^ t * 2 ^ t) by nia. assert (Q4 : 0 < q * 2 ^ t * q) by nia.
  assert (Q5 : 0 < N * 2 ^ t) by nia. assert (Q6 : 0 < N * 2 ^ t * q * Z.of_nat (m + 1)) by (clear - Q5 Hq; nia). assert (Q7 : 0 < n * 2 ^ t) by nia.
  unfold draw_dummies. rewrite !lshift_ok by lia. cbn [bind]. rewrite !lshift_ok by lia. cbn [bind]. rewrite (w_n _ _ _ W).
  unfold request_bounds in H. rewrite (w_n _ _ _ W) in H. cbv zeta in H. set (K := num_cts len m) in *.
  set (s1 := repeat (q * 2 ^ t) m) in *. set (so := repeat (N * 2 ^ t) m) in *. set (sb := repeat (q * q * 2 ^ t * 2 ^ t) m) in *. set (sa := repeat (q * 2 ^ t * q) m) in *. set (se := repeat (n * 2 ^ t) K) in *.
  assert (l1 : length s1 = m) by apply repeat_length. assert (lo : length so = m) by apply repeat_length. assert (lb : length sb = m) by apply repeat_length. assert (la : length sa = m) by apply repeat_length.
  unfold with_dummies. cbn [d_m d_r d_a d_ao d_b d_al d_ga d_mo d_ro d_bo d_al1 d_al2 d_ga1 d_ga2 d_enc].
  rewrite (draw_seg [] (q * 2 ^ t) m _ ds _ Q1 H) by (intros; reflexivity). cbn [bind].
  rewrite (draw_seg s1 (q * 2 ^ t) m _ ds _ Q1 H) by (intros; rewrite l1; reflexivity). cbn [bind]. rewrite l1.
  rewrite (draw_seg (s1 ++ s1) (q * 2 ^ t) m (so ++ sb ++ sa ++ sa ++ [N * 2 ^ t; N * 2 ^ t; N * 2 ^ t; N * 2 ^ t * q * Z.of_nat (m + 1); N * 2 ^ t; N * 2 ^ t * q * Z.of_nat (m + 1); N * 2 ^ t] ++ se) ds); [|exact Q1|rewrite <- ?app_assoc; exact H|intros; f_equal; rewrite ?app_length; lia].
  cbn [bind].
  rewrite (draw_seg (s1 ++ s1 ++ s1) (N * 2 ^ t) m (sb ++ sa ++ sa ++ [N * 2 ^ t; N * 2 ^ t; N * 2 ^ t; N * 2 ^ t * q * Z.of_nat (m + 1); N * 2 ^ t; N * 2 ^ t * q * Z.of_nat (m + 1); N * 2 ^ t] ++ se) ds); [|exact Q5|rewrite <- ?app_assoc; exact H|intros; f_equal; rewrite ?app_length; lia].
  cbn [bind].
  rewrite (draw_seg (s1 ++ s1 ++ s1 ++ so) (q * q * 2 ^ t * 2 ^ t) m (sa ++ sa ++ [N * 2 ^ t; N * 2 ^ t; N * 2 ^ t; N * 2 ^ t * q * Z.of_nat (m + 1); N * 2 ^ t; N * 2 ^ t * q * Z.of_nat (m + 1); N * 2 ^ t] ++ se) ds); [|exact Q3|rewrite <- ?app_assoc; exact H|intros; f_equal; rewrite ?app_length; lia].
  cbn [bind].
  rewrite (draw_seg (s1 ++ s1 ++ s1 ++ so ++ sb) (q * 2 ^ t * q) m (sa ++ [N * 2 ^ t; N * 2 ^ t; N * 2 ^ t; N * 2 ^ t * q * Z.of_nat (m + 1); N * 2 ^ t; N * 2 ^ t * q * Z.of_nat (m + 1); N * 2 ^ t] ++ se) ds); [|exact Q4|rewrite <- ?app_assoc; exact H|intros; f_equal; rewrite ?app_length; lia].
  cbn [bind].
  rewrite (draw_seg (s1 ++ s1 ++ s1 ++ so ++ sb ++ sa) (q * 2 ^ t * q) m ([N * 2 ^ t; N * 2 ^ t; N * 2 ^ t; N * 2 ^ t * q * Z.of_nat (m + 1); N * 2 ^ t; N * 2 ^ t * q * Z.of_nat (m + 1); N * 2 ^ t] ++ se) ds); [|exact Q4|rewrite <- ?app_assoc; exact H|intros; f_equal; rewrite ?app_length; lia].
  cbn [bind].
  set (pre := s1 ++ s1 ++ s1 ++ so ++ sb ++ sa ++ sa). assert (lp : length pre = (7 * m)%nat) by (unfold pre; rewrite !app_length; lia).
  assert (H' : Forall2 (fun x d => 0 <= d < x) (pre ++ [N * 2 ^ t; N * 2 ^ t; N * 2 ^ t; N * 2 ^ t * q * Z.of_nat (m + 1); N * 2 ^ t; N * 2 ^ t * q * Z.of_nat (m + 1); N * 2 ^ t] ++ se) ds) by (unfold pre; rewrite <- ?app_assoc; exact H).
  clear H. set (Ob := N * 2 ^ t) in *. set (Oc := Ob * q * Z.of_nat (m + 1)) in *.
  assert (D : forall a B z, 0 < B -> pre ++ [Ob; Ob; Ob; Oc; Ob; Oc; Ob] ++ se = pre ++ a ++ B :: z -> generate_rand_less_than B (nth (7 * m + length a) ds 0) = Ok (nth (7 * m + length a) ds 0)).
  { intros a B z HB Eq. apply (draw_one (pre ++ a) B z ds); [exact HB|rewrite <- app_assoc, <- Eq; exact H'|rewrite app_length, lp; reflexivity]. }
  one (D [] Ob (Ob :: Ob :: Oc :: Ob :: Oc :: Ob :: se) Q5 eq_refl).
  one (D [Ob] Ob (Ob :: Oc :: Ob :: Oc :: Ob :: se) Q5 eq_refl).
  one (D [Ob; Ob] Ob (Oc :: Ob :: Oc :: Ob :: se) Q5 eq_refl).
  one (D [Ob; Ob; Ob] Oc (Ob :: Oc :: Ob :: se) Q6 eq_refl).
  one (D [Ob; Ob; Ob; Oc] Ob (Oc :: Ob :: se) Q5 eq_refl).
  one (D [Ob; Ob; Ob; Oc; Ob] Oc (Ob :: se) Q6 eq_refl).
  one (D [Ob; Ob; Ob; Oc; Ob; Oc] Ob se Q5 eq_refl).
  rewrite (draw_seg (pre ++ [Ob; Ob; Ob; Oc; Ob; Oc; Ob]) (n * 2 ^ t) K [] ds); [|exact Q7|rewrite app_nil_r, <- app_assoc; exact H'|intros; f_equal; rewrite app_length, lp; cbn [length]; lia]. cbn [bind].
  unfold arrange. rewrite !app_length, lp, l1, lo, lb, la. cbn [length]. do 2 f_equal; f_equal; lia.
Qed.

(** ** The sizes of the secrets *)
Lemma ped_commit_inv ms r cm o : ped_commit ped ms r = Ok (cm, o) -> 0 <= o < N.
Proof. assert (HN : 1 < N) by apply PO. unfold ped_commit. rewrite rand_ok by lia. cbn [bind]. intros H. apply bind_ok in H. destruct H as (x & _ & H). assert (o = r mod N) by congruence. subst o. apply Z.mod_pos_bound. lia. Qed.
Lemma secrets_range ms rs as_ bs om or_ en e rc w : commit_secrets C b ms rs as_ bs om or_ en e = Ok (rc, w) ->
  v_messages w = ms /\ v_messages_open w = om /\ v_rs w = rs /\ v_rs_open w = or_ /\ v_as w = as_ /\ v_bs w = bs /\ v_alphas w = map2 Z.mul ms as_ /\ v_gammas w = map2 Z.mul rs as_ /\ v_enc w = en /\
  Forall (fun x => 0 <= x < N) (v_as_open w) /\ length (v_as_open w) = length as_ /\ 0 <= v_bs_open w < N /\ 0 <= v_alphas_2 w < N /\ 0 <= v_gammas_2 w < N /\
  v_alphas_1 w = dot (v_alphas_2 w) (v_as_open w) ms /\ v_gammas_1 w = dot (v_gammas_2 w) (v_as_open w) rs.
Proof.
  intros H. unfold commit_secrets in H. apply bind_ok in H. destruct H as (cas & E1 & H). apply bind_ok in H. destruct H as ([cb ob] & E2 & H). apply bind_ok in H. destruct H as ([al0 oal] & E3 & H).
  apply bind_ok in H. destruct H as ([ga0 oga] & E4 & H). apply bind_ok in H. destruct H as (al & _ & H). apply bind_ok in H. destruct H as (ga & _ & H).
  apply ped_commit_inv in E2, E3, E4.
  assert (Ew : w = {| v_messages := ms; v_messages_open := om; v_rs := rs; v_rs_open := or_; v_as := as_; v_as_open := map snd cas;
         v_bs := bs; v_bs_open := ob; v_alphas := map2 Z.mul ms as_; v_alphas_1 := dot oal (map snd cas) ms; v_alphas_2 := oal;
         v_gammas := map2 Z.mul rs as_; v_gammas_1 := dot oga (map snd cas) rs; v_gammas_2 := oga; v_enc := en |}) by congruence. subst w.
  cbn [v_messages v_messages_open v_rs v_rs_open v_as v_as_open v_bs v_bs_open v_alphas v_alphas_1 v_alphas_2 v_gammas v_gammas_1 v_gammas_2 v_enc].
  do 9 (split; [reflexivity|]). pose proof (mapM_Forall2 _ _ _ E1) as F. split; [|split; [|auto 10]].
  - apply Forall_map. clear E2 E3 E4 E1 H. revert F. generalize (seq 0 (length as_)) as l0. intros l0 F. induction F as [|i [cm o] l l' Hi F IH]; [constructor|]. constructor; [|exact IH]. apply bind_ok in Hi. destruct Hi as (a & _ & Hi). apply ped_commit_inv in Hi. exact Hi.
  - rewrite map_length. apply Forall2_len in F. rewrite seq_length in F. symmetry. exact F.
Qed.
Lemma dot_range os es r X Y : 0 <= X -> 0 <= Y -> Forall (fun x => 0 <= x < X) os -> Forall (fun x => 0 <= x < Y) es -> 0 <= r < X ->
  0 <= dot r os es <= X + Z.of_nat (length os) * (X * Y).
Proof.
  intros HX HY Ho. revert es r. assert (G : forall es r B, Forall (fun x => 0 <= x < Y) es -> 0 <= r <= B -> 0 <= dot r os es <= B + Z.of_nat (length os) * (X * Y)).
  { induction Ho as [|o os Hox Ho IH]; intros [|e0 es] r B He Hr; cbn [dot length].
    - lia.
    - lia.
    - assert (0 <= Z.of_nat (S (length os)) * (X * Y)) by (repeat apply Z.mul_nonneg_nonneg; lia). lia.
    - inversion He as [|? ? He0 He']; subst. assert (0 <= o * e0 <= X * Y) by (split; [apply Z.mul_nonneg_nonneg; lia|apply Z.mul_le_mono_nonneg; lia]).
      specialize (IH es (r + o * e0) (B + X * Y) He' ltac:(lia)). rewrite Nat2Z.inj_succ. lia. }
  intros es r He Hr. apply G; [exact He|lia].
Qed.

Lemma request_hides ms rs om or_ e : (length ms <= G)%nat -> length rs = length ms -> Forall (fun x => 0 <= x < q) ms -> Forall (fun x => 0 <= x < q) rs -> 0 <= om < N -> 0 <= or_ < N ->
  let m := length ms in
  Forall (rnd_ok n) (enc_rand C b n e m) ->
  exists rq cas cbs cal cga st, (mapM cs_ct_to_proto (request_cts C b n s xs rk ry k y ms rs e) = Ok (rq_cts rq) /\ rq_num rq = m /\
    exists rc w, commit_secrets C b ms rs (mask_as C e m) (mask_bs C b e m) om or_ (enc_rand C b n e m) e = Ok (rc, w) /\
      bignum_vector_to_proto (rc_as rc) = Ok cas /\ to_bytes (rc_bs rc) = Ok cbs /\ to_bytes (rc_alphas rc) = Ok cal /\ to_bytes (rc_gammas rc) = Ok cga) /\
    forall sha c, oracle_says sha chal c -> within_distance_but (Z.of_nat (7 * m + 7 + num_cts len m)) sec (request_bounds C b m (num_cts len m)) (unusable_draw n m (num_cts len m))
    (fun ds => bb_request_and_proof flag C sha b ms rs pk (Com ms om) om (Com rs or_) or_ (with_dummies e m ds))
    (fun ds => simulated_request rq cas cbs cal cga st m (num_cts len m) c ds).
Proof.
  intros HmG Lr Rms Rrs Hom Hor m He. pose proof (order_gt1 C L) as Hq. assert (HN : 1 < N) by apply PO. pose proof (n1 n s cs W) as Hn. assert (Hq0 : 0 < q) by lia.
  assert (Hms : nonneg ms) by (eapply Forall_impl; [|exact Rms]; cbn beta; lia). assert (Hrs : nonneg rs) by (eapply Forall_impl; [|exact Rrs]; cbn beta; lia).
  assert (P : 0 < 2 ^ t) by (apply Z.pow_pos_nonneg; lia). assert (Q2 : 0 < q * q * 2 ^ t) by nia.
  pose proof (mask_as_range C L e m) as Ra. pose proof (mask_bs_range C b Hlen L Hsec Hchal e m) as Rb.
  assert (Na : nonneg (mask_as C e m)) by (eapply Forall_impl; [|exact Ra]; cbn beta; lia). assert (Nb : nonneg (mask_bs C b e m)) by (eapply Forall_impl; [|exact Rb]; cbn beta; lia).
  assert (La : length (mask_as C e m) = m) by apply tab_len. assert (Lb : length (mask_bs C b e m) = m) by apply tab_len.
  assert (Ne : nonneg (enc_rand C b n e m)) by (apply tab_mod_nonneg; lia). assert (Le : length (enc_rand C b n e m) = num_cts len m) by apply tab_len.
  assert (Ng : nonneg (map2 Z.mul rs (mask_as C e m))) by (apply nonneg_map2; [intros; apply Z.mul_nonneg_nonneg; assumption|assumption..]).
  assert (Lg : length (map2 Z.mul rs (mask_as C e m)) = m) by (rewrite map2_len; lia).
  assert (Nh : nonneg (hidden_msgs C ms (mask_as C e m) (mask_bs C b e m))).
  { apply nonneg_map2; [|apply nonneg_map2; [intros; apply Z.mul_nonneg_nonneg; assumption|assumption..]|exact Nb]. intros a c0 Ha Hc0. pose proof (Z.mul_nonneg_nonneg c0 q). lia. }
  assert (Lh : length (hidden_msgs C ms (mask_as C e m) (mask_bs C b e m)) = m) by (unfold hidden_msgs; rewrite !map2_len; rewrite ?map2_len; fold m; lia).
  destruct (vec_proto _ Na) as (sb & Esb & Psb & _).
  destruct (cts_proto C b n s xs W (request_cts C b n s xs rk ry k y ms rs e)) as (ctb & Ectb & Pctb & Lctb). { apply tab_Forall. intros i _. eexists. eexists. reflexivity. }
  destruct (secrets_ok C b n s xs Hlen rk ry k y PO m ms rs (mask_as C e m) (mask_bs C b e m) om or_ (enc_rand C b n e m) e eq_refl Lr La Lb Le HmG Hms Hrs Na Nb Ne (proj1 Hom) (proj1 Hor))
    as (rc & w & Ew & Sw & _ & _ & _ & _ & _ & _ & _ & _ & _ & Fa & Fb & Fal1 & Fal2 & Fga1 & Fga2).
  destruct (secrets_range _ _ _ _ _ _ _ _ _ _ Ew) as (Wm & Wmo & Wr & Wro & Wa & Wb & Wal & Wga & We & Wao & Lao & Wbo & Wal2 & Wga2 & Wal1 & Wga1).
  assert (Rng : forall l r, 0 <= com C b l r) by (intros; apply Z.mod_pos_bound; lia).
  assert (Nca : nonneg (rc_as rc)). { rewrite <- Fa. apply tab_Forall. intros i _. apply Rng. }
  destruct (vec_proto _ Nca) as (cab & Ecab & Pcab & Lcab).
  destruct (to_bytes_of (rc_bs rc)) as (cbb & Ecb & Pcb). { rewrite <- Fb. apply Rng. }
  destruct (to_bytes_of (rc_alphas rc)) as (alb & Eal & Pal). { rewrite <- Fal1. apply Rng. }
  destruct (to_bytes_of (rc_gammas rc)) as (gab & Ega & Pga). { rewrite <- Fga1. apply Rng. }
  destruct (to_bytes_of (Com ms om) (Rng _ _)) as (cmb & Ecm & Pcm). destruct (to_bytes_of (Com rs or_) (Rng _ _)) as (crb & Ecr & Pcr).
  set (rq := {| rq_num := m; rq_cts := ctb |}). exists rq, cab, cbb, alb, gab, sb.
  split; [split; [exact Ectb|split; [reflexivity|exists rc, w; auto]]|]. set (K := num_cts len m) in *.
  assert (Zw : sized m K w) by (constructor; rewrite ?Wm, ?Wr, ?Wa, ?Wb, ?Wal, ?Wga, ?We; first [reflexivity|assumption|rewrite map2_len; fold m; lia|lia]).
  assert (Lbd : length (request_bounds C b m K) = (7 * m + 7 + K)%nat) by (unfold request_bounds; cbv zeta; rewrite !app_length, !repeat_length; cbn [length]; lia).
  intros sha c HO.
  assert (Hc : 0 <= c < 2 ^ chal) by (apply (ro_pow2_range sha [] chal c); [lia|apply HO]).
  set (sim := simulated_request rq cab cbb alb gab sb m K c).
  apply (distance_but _ _ _ _ _ (fun ds => sim (shift (map (fun x => c * x) (flat w)) ds))); [lia| |].
  - intros ds Ld Rd Bad. rewrite Lbd in Ld. unfold sim, simulated_request. rewrite (arrange_masked c m K w ds Zw Ld).
    unfold bb_request_and_proof. fold m. destruct (Nat.ltb_spec G m) as [|_]; [unfold m in *; lia|]. rewrite Lr. fold m. rewrite Nat.eqb_refl. cbn [negb].
    unfold draw_masks. fold m. rewrite lshift_ok by lia. cbn [bind]. rewrite draws_ok by exact Q2. cbn [bind].
    change (map (fun i => generate_private_key C (e_a (with_dummies e m ds) i)) (seq 0 m)) with (mask_as C e m).
    change (tab m (fun i => e_b (with_dummies e m ds) i mod (q * q * 2 ^ t))) with (mask_bs C b e m). rewrite EP. cbn [bind]. destruct (Nat.eqb_spec len 0) as [|_]; [lia|].
    rewrite (w_n _ _ _ W), draws_ok by lia. cbn [bind]. change (tab (num_cts len m) (fun i => e_enc (with_dummies e m ds) i mod n)) with (enc_rand C b n e m).
    change (map2 (fun al x => al + x * q) (map2 Z.mul ms (mask_as C e m)) (mask_bs C b e m)) with (hidden_msgs C ms (mask_as C e m) (mask_bs C b e m)).
    rewrite K1, K2. rewrite (homomorphic_ok flag C b n s xs W Hg Hk Hlen rk ry k y Hrk Hry Hk0 Hy0) by (first [congruence|assumption|rewrite Lh; exact Le]). cbn [bind]. rewrite Lh.
    change (tab (num_cts len m) _) with (request_cts C b n s xs rk ry k y ms rs e). rewrite Esb. cbn [bind]. rewrite Ectb. cbn [bind].
    change (commit_secrets C b ms rs (mask_as C e m) (mask_bs C b e m) om or_ (enc_rand C b n e m) (with_dummies e m ds)) with (commit_secrets C b ms rs (mask_as C e m) (mask_bs C b e m) om or_ (enc_rand C b n e m) e).
    rewrite Ew. cbn [bind]. 
    destruct (dummies_ok C b n s W Hlen PO L Hsec Hchal m (with_dummies e m ds)) as (d & Ed & Sd & Ed2 & _). rewrite Ed. cbn [bind].
    assert (Ed' : d = arrange m K ds). { pose proof (dummies_arranged e m ds Rd) as Q. rewrite Ed in Q. injection Q as ->. reflexivity. }
    assert (Hde : Forall (rnd_ok n) (v_enc d)).
    { rewrite Ed'. cbn [arrange v_enc]. unfold unusable_draw in Bad. apply negb_false_iff in Bad. rewrite forallb_forall in Bad. apply Forall_forall. intros x Hx. specialize (Bad x Hx).
      split; [|apply orb_true_iff in Bad; destruct Bad as [Bad|Bad]; apply Z.eqb_eq in Bad; [left|right]; exact Bad].
      unfold part in Hx. apply in_map_iff in Hx. destruct Hx as (i & <- & Hi). apply in_seq in Hi. apply (draw_range _ _ (7 * m + 7 + i)%nat) in Rd; [lia|rewrite Lbd; lia]. }
    rewrite (composites_ok flag C b n s xs W Hg Hk Hlen rk ry k y Hrk Hry Hk0 Hy0 PO Hq0 keys K1 K2 m) by (first [assumption|lia]). cbn [bind].
    rewrite Ecm, Ecr, Ecab. cbn [bind]. rewrite Ecb, Eal, Ega. cbn [bind].
    destruct (first_proto C b n s xs W Hlen rk ry k y PO (rc_as rc) d) as (m1 & Em1). rewrite Em1. cbn [bind].
    match goal with |- context [req_challenge C sha b ?st m1] => assert (Ec : req_challenge C sha b st m1 = Ok c) by (unfold req_challenge; rewrite lshift_ok by lia; cbn [bind]; rewrite Z.mul_1_l; apply HO) end.
    rewrite Ec. cbn [bind]. rewrite Ed'. reflexivity.
  - set (wus := map (fun x => (c * x, 1)) (flat w)).
    assert (Efst : map fst wus = map (fun x => c * x) (flat w)) by (unfold wus; rewrite map_map; reflexivity).
    assert (Eu : zsum_list (map snd wus) = Z.of_nat (7 * m + 7 + K)).
    { rewrite <- (flat_len m K w Zw). unfold wus. rewrite map_map. cbn [snd]. generalize (flat w) as l. clear. unfold zsum_list. induction l as [|x l IH]; [reflexivity|]. cbn [map fold_right length]. lia. }
    rewrite <- Eu, <- Efst. apply shift_close; [lia|]. assert (ET : 2 ^ chal * 2 ^ sec = 2 ^ t) by (rewrite Z.pow_add_r by lia; reflexivity).
    unfold request_bounds. cbv zeta. rewrite (w_n _ _ _ W). unfold wus, flat. rewrite !map_app. destruct Zw. set (T := 2 ^ t) in *.
    assert (Rp : forall l, Forall (fun x => 0 <= x < q) l -> Forall (fun x => 0 <= x <= q * q) (map2 Z.mul l (mask_as C e m))).
    { intros l Hl. eapply (map2_bound Z.mul (fun x => 0 <= x < q) (fun x => 0 < x < q)); [|exact Hl|exact Ra]. cbn beta. intros x z Hx Hz. split; [apply Z.mul_nonneg_nonneg; lia|apply Z.mul_le_mono_nonneg; lia]. }
    assert (Wk : forall l X, Forall (fun x => 0 <= x < X) l -> Forall (fun x => 0 <= x <= X) l) by (intros l X Hl; eapply Forall_impl; [|exact Hl]; cbn beta; lia).
    assert (D1 : 0 <= v_alphas_1 w <= N * q * Z.of_nat (m + 1)).
    { rewrite Wal1. pose proof (dot_range (v_as_open w) ms (v_alphas_2 w) N q ltac:(lia) ltac:(lia) Wao Rms Wal2) as D. rewrite sz_ao0 in D. clear - D Hq HN. nia. }
    assert (D2 : 0 <= v_gammas_1 w <= N * q * Z.of_nat (m + 1)).
    { rewrite Wga1. pose proof (dot_range (v_as_open w) rs (v_gammas_2 w) N q ltac:(lia) ltac:(lia) Wao Rrs Wga2) as D. rewrite sz_ao0 in D. clear - D Hq HN. nia. }
    assert (HA : forall x X B, 0 <= x <= X -> B = X * T -> small_shift sec B (c * x, 1)).
    { intros x X B Hx ->. pose proof (small_shifts sec chal c X 1 (X * T) 1 [x] Hc ltac:(lia) ltac:(lia) ltac:(lia)) as Q. rewrite ET, Z.mul_1_l in Q. specialize (Q ltac:(lia) ltac:(apply Z.mul_nonneg_nonneg; lia) eq_refl ltac:(constructor; [exact Hx|constructor])).
      cbn [repeat map] in Q. inversion Q. assumption. }
    assert (HL : forall l X B k0, length l = k0 -> Forall (fun x => 0 <= x <= X) l -> B = X * T -> Forall2 (small_shift sec) (repeat B k0) (map (fun x => (c * x, 1)) l)).
    { intros l X B k0 <- Hl HB. induction Hl as [|x l Hx Hl IH]; [constructor|]. cbn [length repeat map]. constructor; [|exact IH]. apply (HA x X B Hx HB). }
    apply Forall2_app; [apply (HL _ q); [assumption|rewrite Wm; apply Wk; exact Rms|reflexivity]|].
    apply Forall2_app; [apply (HL _ q); [assumption|rewrite Wr; apply Wk; exact Rrs|reflexivity]|].
    apply Forall2_app; [apply (HL _ q); [assumption|rewrite Wa; eapply Forall_impl; [|exact Ra]; cbn beta; lia|reflexivity]|].
    apply Forall2_app; [apply (HL _ N); [assumption|apply Wk; exact Wao|reflexivity]|].
    apply Forall2_app; [apply (HL _ (q * q * T)); [assumption|rewrite Wb; apply Wk; exact Rb|reflexivity]|].
    apply Forall2_app; [apply (HL _ (q * q)); [assumption|rewrite Wal; apply Rp; exact Rms|ring]|].
    apply Forall2_app; [apply (HL _ (q * q)); [assumption|rewrite Wga; apply Rp; exact Rrs|ring]|].
    apply Forall2_app; [|apply (HL _ n); [assumption|rewrite We; apply Wk; apply tab_range; lia|reflexivity]].
    cbn [map]. constructor; [apply (HA _ N); [rewrite Wmo; lia|reflexivity]|]. constructor; [apply (HA _ N); [rewrite Wro; lia|reflexivity]|]. constructor; [apply (HA _ N); [lia|reflexivity]|].
    constructor; [apply (HA _ _ _ D1); ring|]. constructor; [apply (HA _ N); [lia|reflexivity]|]. constructor; [apply (HA _ _ _ D2); ring|]. constructor; [apply (HA _ N); [lia|reflexivity]|]. constructor.
Qed.
End ReqHide.
