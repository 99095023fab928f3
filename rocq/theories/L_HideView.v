(** The distribution of everything the issuer sees of an honest request. *)
From Coq Require Import Znumtheory.
From Verif Require Import Base M_BigNum L_BigNum M_Num L_Mod L_Num L_NT M_DJ L_DJ M_Paillier L_Paillier L_PaillierKey M_EC L_EC L_Cipher M_Proto M_CS S_CS L_CS
  M_Simul M_Pedersen M_Wire M_VRF M_BB L_BBct L_BBhom L_BBped L_BBreq S_Exp S_Pedersen L_Exp L_Protocol L_Pedersen L_VRF S_Hide L_Hide S_HideBB S_HideMask S_HideView L_HideCom L_HideKey L_HideReq L_HideMix L_HideMask.

(** ** Blocks of draws in any order *)
Lemma count_zsums B t : count B t = zsums B (fun ds => if t ds then 1 else 0).
Proof. revert t. induction B as [|b B IH]; intros t; [reflexivity|]. cbn [count zsums]. apply zsum_ext. intros d _. apply IH. Qed.
Lemma zsum_zsums n B f : zsum n (fun d => zsums B (f d)) = zsums B (fun ds => zsum n (fun d => f d ds)).
Proof.
  induction n as [|n IH]; cbn [zsum].
  - symmetry. transitivity (0 * zsums B (fun _ => 0)); [rewrite zsums_scale; apply zsums_ext; intros; reflexivity|lia].
  - rewrite IH. rewrite <- zsums_add. reflexivity.
Qed.
Lemma zsums_swap A B f : zsums A (fun a => zsums B (f a)) = zsums B (fun d => zsums A (fun a => f a d)).
Proof.
  revert f. induction A as [|b A IH]; intros f; [reflexivity|]. cbn [zsums]. rewrite <- (zsum_zsums (Z.to_nat b) B (fun x d => zsums A (fun ds => f (x :: ds) d))). apply zsum_ext. intros d _. apply (IH (fun ds => f (d :: ds))).
Qed.
Lemma count_swap A B t : count (A ++ B) t = count (B ++ A) (fun ds => t (skipn (length B) ds ++ firstn (length B) ds)).
Proof.
  rewrite !count_app. rewrite (zsums_ext A _ (fun a => zsums B (fun d => if t (a ++ d) then 1 else 0))) by (intros a _; apply count_zsums).
  rewrite zsums_swap. apply zsums_ext. intros d Hd. rewrite count_zsums. apply zsums_ext. intros a _. rewrite <- (drawn_len _ _ Hd). rewrite skipn_app, firstn_app, Nat.sub_diag, skipn_all, firstn_all. cbn [skipn firstn app]. rewrite app_nil_r. reflexivity.
Qed.
(** A block of draws made last can be fixed. *)
Lemma distance_outer {R} num k A B (f g : list Z -> R) : Forall (fun b => 0 <= b) B ->
  (forall d, drawn B d -> within_distance num k A (fun a => f (a ++ d)) (fun a => g (a ++ d))) -> within_distance num k (A ++ B) f g.
Proof.
  intros NB H test. rewrite !(count_swap A B). replace (tuples (A ++ B)) with (tuples (B ++ A)) by (rewrite !tuples_app; ring).
  assert (D : within_distance num k (B ++ A) (fun ds => f (skipn (length B) ds ++ firstn (length B) ds)) (fun ds => g (skipn (length B) ds ++ firstn (length B) ds))); [|exact (D test)].
  apply distance_inner; [exact NB|]. intros d Hd. assert (E : forall a, skipn (length B) (d ++ a) ++ firstn (length B) (d ++ a) = a ++ d).
  { intros a. rewrite <- (drawn_len _ _ Hd). rewrite skipn_app, firstn_app, Nat.sub_diag, skipn_all, firstn_all. cbn [skipn firstn app]. rewrite app_nil_r. reflexivity. }
  eapply distance_ext; [| |exact (H d Hd)]; intros a _ _; cbn beta; rewrite E; reflexivity.
Qed.
Lemma but_scale {R} num k j bs bad (f g : list Z -> R) : 0 <= k -> 0 <= j -> within_distance_but num k bs bad f g -> within_distance_but (num * 2 ^ j) (j + k) bs bad f g.
Proof.
  intros Hk Hj H test. specialize (H test). cbv zeta in H. rewrite Z.pow_add_r by lia. assert (0 < 2 ^ j) by (apply Z.pow_pos_nonneg; lia).
  set (x := Z.abs _) in *. set (y := num * tuples bs + 2 ^ k * count bs bad) in *.
  transitivity (2 ^ j * (2 ^ k * x)); [lia|]. transitivity (2 ^ j * y); [apply Z.mul_le_mono_nonneg_l; lia|]. unfold y. lia.
Qed.
Lemma but_bad {R} num k bs bad (f g : list Z -> R) : 0 <= k -> 0 <= num -> Forall (fun b => 0 <= b) bs -> (forall ds, bad ds = true) -> within_distance_but num k bs bad f g.
Proof.
  intros Hk Hn NB H test. pose proof (count_bound bs (fun ds => test (f ds)) NB). pose proof (count_bound bs (fun ds => test (g ds)) NB). pose proof (tuples_nonneg bs NB).
  assert (E : count bs bad = tuples bs).
  { rewrite count_zsums. rewrite (zsums_ext bs _ (fun _ => 1)) by (intros ds _; rewrite H; reflexivity). rewrite zsums_const by exact NB. lia. }
  rewrite E. assert (0 < 2 ^ k) by (apply Z.pow_pos_nonneg; lia). assert (0 <= num * tuples bs) by (apply Z.mul_nonneg_nonneg; assumption).
  assert (2 ^ k * Z.abs (count bs (fun ds => test (f ds)) - count bs (fun ds => test (g ds))) <= 2 ^ k * tuples bs) by (apply Z.mul_le_mono_nonneg_l; lia). lia.
Qed.
Lemma but_weaken {R} num k bs (bad bad' : list Z -> bool) (f g : list Z -> R) : 0 <= k -> (forall ds, drawn bs ds -> bad ds = true -> bad' ds = true) -> within_distance_but num k bs bad f g -> within_distance_but num k bs bad' f g.
Proof.
  intros Hk H D test. specialize (D test). assert (Q : count bs bad <= count bs bad').
  { rewrite !count_zsums. apply zsums_le. intros ds Hd. specialize (H ds Hd). destruct (bad ds); [rewrite H by reflexivity; lia|]. destruct (bad' ds); lia. }
  assert (0 < 2 ^ k) by (apply Z.pow_pos_nonneg; lia). assert (2 ^ k * count bs bad <= 2 ^ k * count bs bad') by (apply Z.mul_le_mono_nonneg_l; lia). lia.
Qed.

(** ** Commitments as powers of h *)
Fixpoint zdot (xs es : list Z) : Z := match xs, es with x :: xs', e :: es' => x * e + zdot xs' es' | _, _ => 0 end.
Lemma zdot_nonneg xs es : nonneg xs -> nonneg es -> 0 <= zdot xs es.
Proof. intros H. revert es. induction H as [|x xs Hx H IH]; intros es He; [cbn; lia|]. destruct He as [|e es He0 He]; [cbn; lia|]. cbn [zdot]. specialize (IH es He). pose proof (Z.mul_nonneg_nonneg x e Hx He0). lia. Qed.
Lemma multi_exp_logs h n l es : 0 < n -> nonneg l -> nonneg es -> eqmod n (multi_exp (map (fun a => h ^ a mod n) l) es) (h ^ zdot l es).
Proof.
  intros Hn Hl. revert es. induction Hl as [|a l Ha Hl IH]; intros es He; [destruct es; reflexivity|]. destruct He as [|e es He0 He]; [reflexivity|]. cbn [map multi_exp zdot].
  pose proof (zdot_nonneg l es Hl He). rewrite (IH es He), eqmod_mod. rewrite Z.pow_add_r, Z.pow_mul_r by (first [assumption|apply Z.mul_nonneg_nonneg; assumption]). reflexivity.
Qed.

Section View.
Variable flag : bool.
Variable C : ec.
Variable sha : bytes -> bytes.
Variable b : bb C.
Variables (n : Z) (s : nat) (xs : list Z).
Notation cs := (bb_cs C b).
Hypothesis W : cs_valid n s cs.
Hypothesis Hg : Z.gcd (cs_g cs) n = 1.
Hypothesis Hk : key_match n s (cs_g cs) xs (cs_ys cs).
Notation len := (cs_len cs).
Hypothesis Hlen : (0 < len)%nat.
Variables (rk ry : nat -> Z) (k y : Z).
Hypothesis Hrk : forall j, 0 <= rk j.
Hypothesis Hry : forall j, 0 <= ry j.
Notation q := (ec_order C).
Hypothesis Rk : 0 <= k < q.
Hypothesis Ry : 0 <= y < q.
Notation ped := (bb_ped C b).
Notation pp := (pd_par ped).
Notation N := (pp_n pp).
Notation G := (length (pp_gs pp)).
Notation h := (pp_h pp).
Hypothesis PO : ped_ok ped.
Hypothesis UN : units pp.
Hypothesis L : ec_laws C.
Notation sec := (bp_sec (bb_par C b)).
Notation chal := (bp_chal (bb_par C b)).
Notation t := (chal + sec).
Hypothesis Hsec : 0 < sec.
Hypothesis Hchal : 0 < chal <= 120000.
Variable pk : bb_public.
Variable keys : list (cs_ciphertext * cs_ciphertext).
Hypothesis EP : parse_public C b pk = Ok keys.
Hypothesis K1 : map fst keys = key_cts C b n s xs rk k.
Hypothesis K2 : map snd keys = key_cts C b n s xs ry y.
Notation M := (n ^ (Z.of_nat s + 1)).
Notation g := (cs_g cs).
Variable ord : Z.
Hypothesis Hord : 0 < ord.
Hypothesis Ho : g ^ ord mod M = 1.
(** The bases are powers of h, and h has an order dividing PE. *)
Variable gl : list Z.
Hypothesis Ngl : nonneg gl.
Hypothesis Egl : pp_gs pp = map (fun a => h ^ a mod N) gl.
Variable PE : Z.
Hypothesis HPE : 0 < PE.
Hypothesis HhE : h ^ PE mod N = 1.
Variable c : Z.
Hypothesis HO : oracle_says sha chal c.

Lemma vN : 1 < N. Proof. apply PO. Qed.
Definition pw (x : Z) : Z := h ^ (x mod PE) mod N.
Lemma pw_is x : 0 <= x -> h ^ x mod N = pw x.
Proof.
  intros Hx. pose proof vN as HN. unfold pw. apply eqmod_eq; [lia|]. pose proof (Z.mod_pos_bound x PE HPE). pose proof (Z.div_pos x PE Hx HPE). rewrite (Z.div_mod x PE) at 1 by lia.
  rewrite (Z.pow_add_r h (PE * (x / PE))), (Z.pow_mul_r h PE) by (try lia; apply Z.mul_nonneg_nonneg; lia).
  assert (O1 : eqmod N (h ^ PE) 1) by (apply eq_eqmod; rewrite HhE, Z.mod_1_l by lia; reflexivity).
  rewrite (eqmod_pow N _ _ (x / PE) O1), Z.pow_1_l, Z.mul_1_l by lia. reflexivity.
Qed.
Lemma pw_period x : pw (x mod PE) = pw x.
Proof. unfold pw. rewrite Z.mod_mod by lia. reflexivity. Qed.
Lemma com_pw l r : nonneg l -> 0 <= r -> com C b l r = pw (r + zdot gl l).
Proof.
  intros Hl Hr. pose proof vN as HN. pose proof (zdot_nonneg gl l Ngl Hl). rewrite <- pw_is by lia. unfold com, raw_commit. apply eqmod_eq; [lia|].
  rewrite Egl. rewrite (multi_exp_logs h N gl l ltac:(lia) Ngl Hl). rewrite (Z.pow_add_r h r) by lia. exists 0. ring.
Qed.
Lemma accumulated_pw ps es r : nonneg ps -> nonneg es -> 0 <= r -> (h ^ r mod N * multi_exp (map pw ps) es) mod N = pw (r + zdot ps es).
Proof.
  intros Hp He Hr. pose proof vN as HN. pose proof (zdot_nonneg ps es Hp He). rewrite <- pw_is by lia. apply eqmod_eq; [lia|].
  assert (E : map pw ps = map (fun a => h ^ a mod N) ps). { clear H. induction Hp as [|p ps Hp0 Hp IH]; [reflexivity|]. cbn [map]. rewrite IH, pw_is by exact Hp0. reflexivity. }
  rewrite E, (multi_exp_logs h N ps es ltac:(lia) Hp He), eqmod_mod. rewrite (Z.pow_add_r h r) by lia. reflexivity.
Qed.

Section Msgs.
Variables ms rs : list Z.
Notation m := (length ms).
Notation K := (num_cts len m).
Hypothesis HmG : (m <= G)%nat.
Hypothesis Lr : length rs = m.
Hypothesis Hms : Forall (fun x => 0 <= x < q) ms.
Hypothesis Hrs : Forall (fun x => 0 <= x < q) rs.
Hypothesis Hv : forall j, (j < m)%nat -> vv k y ms rs j mod q <> 0.

Lemma v_nonneg l : Forall (fun x => 0 <= x < q) l -> nonneg l.
Proof. intros H. eapply Forall_impl; [|exact H]. cbn beta. lia. Qed.

(** What an honest request commits to. *)
Lemma secrets_values as_ bs om or_ en e rc w : length as_ = m -> length bs = m -> nonneg as_ -> nonneg bs -> commit_secrets C b ms rs as_ bs om or_ en e = Ok (rc, w) ->
  let ps := tab m (fun i => e_ao e i mod N + zdot gl (slot G i (nth i as_ 0))) in
  rc_as rc = map pw ps /\ rc_bs rc = pw (e_bo e mod N + zdot gl bs) /\ rc_alphas rc = pw (e_zal e mod N + zdot ps ms) /\ rc_gammas rc = pw (e_zga e mod N + zdot ps rs).
Proof.
  intros La Lb Na Nb E ps. pose proof vN as HN. pose proof (v_nonneg ms Hms) as Nm. pose proof (v_nonneg rs Hrs) as Nr.
  assert (B : forall z, 0 <= z mod N < N) by (intros; apply Z.mod_pos_bound; lia).
  unfold commit_secrets in E. rewrite La in E.
  assert (E1 : mapM (fun i => let* a := at_index as_ i in ped_commit ped (slot G i a) (e_ao e i)) (seq 0 m) = Ok (tab m (fun i => (pw (nth i ps 0), e_ao e i mod N)))).
  { apply mapM_seq. intros i Hi. rewrite (at_index_ok as_) by lia. cbn [bind]. unfold ped_commit. rewrite rand_ok by lia. cbn [bind].
    rewrite (com_ok C b PO) by (first [rewrite slot_len; lia|apply slot_nonneg, nonneg_nth; exact Na|apply B]). rewrite com_pw by (first [apply slot_nonneg, nonneg_nth; exact Na|apply B]).
    unfold ps. rewrite tab_nth. destruct (Nat.ltb_spec i m); [reflexivity|lia]. }
  rewrite E1 in E. cbn [bind] in E. unfold ped_commit in E. rewrite !rand_ok in E by lia. cbn [bind] in E. rewrite !(zero_com C b Hlen PO) in E by apply B. cbn [bind] in E.
  rewrite (com_ok C b PO) in E by (first [lia|exact Nb|apply B]). cbn [bind] in E.
  assert (Ef : map fst (tab m (fun i => (pw (nth i ps 0), e_ao e i mod N))) = map pw ps). { unfold ps, tab. rewrite !map_map. apply map_ext_in. intros i Hi. apply in_seq in Hi. cbn [fst]. fold (tab m (fun i => e_ao e i mod N + zdot gl (slot G i (nth i as_ 0)))). rewrite tab_nth. destruct (Nat.ltb_spec i m); [reflexivity|lia]. }
  rewrite Ef in E.
  rewrite (proj1 (accumulate_ok C b Hlen PO (map pw ps) ms _ (B _) Nm)) in E. cbn [bind] in E. rewrite (proj1 (accumulate_ok C b Hlen PO (map pw ps) rs _ (B _) Nr)) in E. cbn [bind] in E.
  assert (Nps : nonneg ps). { unfold ps. apply tab_Forall. intros i Hi. pose proof (B (e_ao e i)). pose proof (zdot_nonneg gl _ Ngl (slot_nonneg G i (nth i as_ 0) ltac:(apply nonneg_nth; exact Na))). lia. }
  rewrite !accumulated_pw in E by (first [assumption|apply B]). rewrite com_pw in E by (first [assumption|apply B]).
  assert (Erc : rc = {| rc_as := map pw ps; rc_bs := pw (e_bo e mod N + zdot gl bs); rc_alphas := pw (e_zal e mod N + zdot ps ms); rc_gammas := pw (e_zga e mod N + zdot ps rs) |}) by congruence.
  rewrite Erc. cbn [rc_as rc_bs rc_alphas rc_gammas]. auto.
Qed.

(** ** The view as a function of commitments, ciphertexts and proof *)
Definition finish (cl : list Z) (rq : outcome bb_request) (d : list Z) : outcome (Z * Z * bb_request * req_proof) :=
  let* r := rq in
  let* cas := bignum_vector_to_proto (part 2 m cl) in
  let* cbs := to_bytes (nth (2 + m) cl 0) in
  let* cal := to_bytes (nth (3 + m) cl 0) in
  let* cga := to_bytes (nth (4 + m) cl 0) in
  let* x := simulated_request r cas cbs cal cga [] m K c d in
  Ok (nth 0 cl 0, nth 1 cl 0, fst (fst x), snd (fst x)).
Definition ea (a : list Z) : req_entropy := with_masks (openings_only m []) m a.
Definition va (a : list Z) : list Z := mask_as C (ea a) m.
Definition vb (a : list Z) : list Z := mask_bs C b (ea a) m.
Definition w1 (a : list Z) : list Z := zdot gl ms :: zdot gl rs :: tab m (fun i => zdot gl (slot G i (nth i (va a) 0))) ++ [zdot gl (vb a)].
Definition w2 (p : list Z) : list Z := [zdot (part 2 m p) ms; zdot (part 2 m p) rs].
Definition real_logs (o1 o2 a : list Z) : list Z := shift (w1 a) o1 ++ shift (w2 (shift (w1 a) o1)) o2.
Definition real_rq (a : list Z) : outcome bb_request := rq_from m (request_cts C b n s xs rk ry k y ms rs (ea a)).

Notation B_o := (repeat N (m + 5)).
Notation B_m := (mask_bounds C b m K).
Notation B_d := (request_bounds C b m K).
Lemma va_nonneg a : nonneg (va a).
Proof. eapply Forall_impl; [|exact (mask_as_range C L (ea a) m)]. cbn beta. lia. Qed.
Lemma vb_nonneg a : nonneg (vb a).
Proof. eapply Forall_impl; [|exact (mask_bs_range C b Hlen L Hsec Hchal (ea a) m)]. cbn beta. lia. Qed.
Lemma w1_len a : length (w1 a) = (m + 3)%nat.
Proof. unfold w1. cbn [length]. rewrite app_length, tab_len. cbn [length]. lia. Qed.
Lemma w1_nonneg a : nonneg (w1 a).
Proof.
  unfold w1. constructor; [apply zdot_nonneg; [exact Ngl|apply v_nonneg; exact Hms]|]. constructor; [apply zdot_nonneg; [exact Ngl|apply v_nonneg; exact Hrs]|].
  apply Forall_app. split; [|constructor; [apply zdot_nonneg; [exact Ngl|apply vb_nonneg]|constructor]]. apply tab_Forall. intros i _. apply zdot_nonneg; [exact Ngl|]. apply slot_nonneg, nonneg_nth, va_nonneg.
Qed.
Lemma shift_nonneg ws ds : nonneg ws -> nonneg ds -> nonneg (shift ws ds).
Proof.
  intros Hw. revert ds. induction Hw as [|w ws Hw0 Hw IH]; intros ds Hd; [destruct ds; exact Hd|]. destruct Hd as [|d ds Hd0 Hd]; [constructor|]. cbn [shift]. constructor; [lia|apply IH; exact Hd].
Qed.
Lemma drawn_nonneg bs ds : drawn bs ds -> nonneg ds.
Proof. induction 1; constructor; [lia|assumption]. Qed.
Lemma part_nonneg st l ds : nonneg ds -> nonneg (part st l ds).
Proof. intros H. unfold part. apply Forall_map, Forall_forall. intros i _. apply nonneg_nth. exact H. Qed.

(** The real view is made of the real commitments and ciphertexts when the proof is drawn instead of computed. *)
Lemma proof_drawn o1 o2 a : drawn (repeat N (m + 3)) o1 -> drawn (repeat N 2) o2 -> drawn B_m a -> unusable_mask n m K a = false ->
  within_distance_but (Z.of_nat (7 * m + 7 + K)) sec B_d (unusable_draw n m K)
    (fun d => issuer_view flag C sha b ms rs pk K ((o1 ++ o2) ++ a ++ d)) (fun d => finish (map pw (real_logs o1 o2 a)) (real_rq a) d).
Proof.
  intros D1 D2 Da Hb. pose proof vN as HN. pose proof (n1 n s cs W) as Hn. set (o := o1 ++ o2).
  pose proof (drawn_len _ _ D1) as L1. pose proof (drawn_len _ _ D2) as L2. pose proof (drawn_len _ _ Da) as L3. rewrite repeat_length in L1, L2.
  assert (Lm : length B_m = (2 * m + K)%nat) by (unfold mask_bounds; cbv zeta; rewrite !app_length, !repeat_length; lia). rewrite Lm in L3.
  assert (Lo : length o = (m + 5)%nat) by (unfold o; rewrite app_length; lia).
  assert (Do : drawn B_o o). { replace (m + 5)%nat with ((m + 3) + 2)%nat by lia. rewrite repeat_app. apply drawn_app; assumption. }
  pose proof (drawn_repeat _ _ _ 0%nat Do ltac:(lia)) as R0. pose proof (drawn_repeat _ _ _ 1%nat Do ltac:(lia)) as R1.
  set (e := with_masks (openings_only m o) m a).
  assert (He : Forall (rnd_ok n) (enc_rand C b n e m)).
  { apply tab_Forall. intros i Hi. cbn [e with_masks e_enc]. unfold unusable_mask in Hb. apply negb_false_iff in Hb. rewrite forallb_forall in Hb.
    specialize (Hb (nth (2 * m + i) a 0) ltac:(apply in_map_iff; exists i; split; [reflexivity|apply in_seq; lia])).
    assert (Ri : 0 <= nth (2 * m + i) a 0 < n).
    { pose proof (part_range (repeat (q - 1) m ++ repeat (q * q * 2 ^ t) m) n K [] a) as Q. rewrite app_length, !repeat_length in Q. replace (2 * m + i)%nat with (m + m + i)%nat by lia. apply Q; [|exact Hi].
      unfold mask_bounds in Da. cbv zeta in Da. rewrite (w_n _ _ _ W) in Da. rewrite app_nil_r, <- app_assoc. exact Da. }
    rewrite Z.mod_small by exact Ri. split; [lia|]. apply orb_true_iff in Hb. lia. }
  assert (Hk0 : 0 <= k) by lia. assert (Hy0 : 0 <= y) by lia.
  destruct (request_hides flag C b n s xs W Hg Hk Hlen rk ry k y Hrk Hry Hk0 Hy0 PO L Hsec Hchal pk keys EP K1 K2 ms rs (nth 0 o 0) (nth 1 o 0) e HmG Lr Hms Hrs R0 R1 He)
    as (rq & cas & cbs & cal & cga & st & (Ect & Enum & rc & w & Ew & Eas & Ebs & Eal & Ega) & D). specialize (D sha c HO).
  destruct (secrets_values (va a) (vb a) (nth 0 o 0) (nth 1 o 0) _ e rc w (tab_len _ _) (tab_len _ _) (va_nonneg a) (vb_nonneg a) Ew) as (V1 & V2 & V3 & V4).
  set (cm := com C b ms (nth 0 o 0)) in *. set (cr := com C b rs (nth 1 o 0)) in *.
  pose proof (but_apply _ _ _ _ _ _ (fun z : outcome (bb_request * req_proof * list bytes) => let* x := z in Ok (cm, cr, fst (fst x), snd (fst x))) D) as D'. cbn beta in D'.
  assert (No : nonneg o) by (apply (drawn_nonneg _ _ Do)). assert (No1 : nonneg o1) by (apply (drawn_nonneg _ _ D1)). assert (No2 : nonneg o2) by (apply (drawn_nonneg _ _ D2)).
  (* the logarithms of the commitments *)
  set (p := shift (w1 a) o1). assert (Lp : length p = (m + 3)%nat) by (unfold p; rewrite shift_len; exact L1).
  assert (P0 : forall i, (i < m + 3)%nat -> nth i p 0 = nth i o 0 + nth i (w1 a) 0). { intros i Hi. unfold p, o. rewrite shift_nth by lia. rewrite app_nth1 by lia. reflexivity. }
  assert (Ps : part 2 m p = tab m (fun i => e_ao e i mod N + zdot gl (slot G i (nth i (va a) 0)))).
  { apply tab_ext. intros i Hi. rewrite P0 by lia. cbn [e with_masks openings_only e_ao]. rewrite Z.mod_small by (apply (drawn_repeat _ _ _ _ Do); lia). f_equal.
    change (2 + i)%nat with (S (S i)). unfold w1. cbn [nth]. rewrite app_nth1 by (rewrite tab_len; exact Hi). rewrite tab_nth. destruct (Nat.ltb_spec i m); [reflexivity|lia]. }
  rewrite <- Ps in V1, V3, V4.
  set (cl := map pw (real_logs o1 o2 a)). assert (Lrl : length (real_logs o1 o2 a) = (m + 5)%nat) by (unfold real_logs; rewrite app_length, !shift_len; lia).
  assert (C0 : forall i, (i < m + 5)%nat -> nth i cl 0 = pw (nth i (real_logs o1 o2 a) 0)). { intros i Hi. unfold cl. rewrite (nth_indep _ 0 (pw 0)) by (rewrite map_length; lia). apply map_nth. }
  assert (C1 : forall i, (i < m + 3)%nat -> nth i cl 0 = pw (nth i p 0)). { intros i Hi. rewrite C0 by lia. unfold real_logs. rewrite app_nth1 by (fold p; lia). reflexivity. }
  assert (C2 : part 2 m cl = rc_as rc). { rewrite V1. unfold part. rewrite map_map. apply map_ext_in. intros i Hi. apply in_seq in Hi. apply C1. lia. }
  assert (C3 : nth (2 + m) cl 0 = rc_bs rc).
  { rewrite C1 by lia. rewrite V2. f_equal. rewrite P0 by lia. cbn [e with_masks openings_only e_bo]. rewrite Z.mod_small by (apply (drawn_repeat _ _ _ _ Do); lia). f_equal.
    change (2 + m)%nat with (S (S m)). unfold w1. cbn [nth]. rewrite app_nth2 by (rewrite tab_len; lia). rewrite tab_len, Nat.sub_diag. reflexivity. }
  assert (C4 : nth (3 + m) cl 0 = rc_alphas rc).
  { rewrite C0 by lia. rewrite V3. f_equal. cbn [e with_masks openings_only e_zal]. rewrite Z.mod_small by (apply (drawn_repeat _ _ _ _ Do); lia). unfold real_logs. fold p. rewrite app_nth2 by lia. rewrite shift_nth by lia.
    unfold o. rewrite (app_nth2 o1) by lia. rewrite L1, Lp. replace (3 + m - (m + 3))%nat with 0%nat by lia. reflexivity. }
  assert (C5 : nth (4 + m) cl 0 = rc_gammas rc).
  { rewrite C0 by lia. rewrite V4. f_equal. cbn [e with_masks openings_only e_zga]. rewrite Z.mod_small by (apply (drawn_repeat _ _ _ _ Do); lia). unfold real_logs. fold p. rewrite app_nth2 by lia. rewrite shift_nth by lia.
    unfold o. rewrite (app_nth2 o1) by lia. rewrite L1, Lp. replace (4 + m - (m + 3))%nat with 1%nat by lia. reflexivity. }
  assert (C6 : nth 0 cl 0 = cm). { rewrite C1, P0 by lia. unfold cm. rewrite com_pw by (first [apply v_nonneg; exact Hms|lia]). reflexivity. }
  assert (C7 : nth 1 cl 0 = cr). { rewrite C1, P0 by lia. unfold cr. rewrite com_pw by (first [apply v_nonneg; exact Hrs|lia]). reflexivity. }
  assert (Erq : real_rq a = Ok rq). { unfold real_rq, rq_from. change (request_cts C b n s xs rk ry k y ms rs (ea a)) with (request_cts C b n s xs rk ry k y ms rs e). rewrite Ect. cbn [bind]. destruct rq as [nu ct]. cbn [rq_num rq_cts] in *. subst nu. reflexivity. }
  intros test. specialize (D' test).
  rewrite (count_ext B_d (fun d => test (issuer_view flag C sha b ms rs pk K (o ++ a ++ d)))
    (fun d => test (let* x := bb_request_and_proof flag C sha b ms rs pk cm (nth 0 o 0) cr (nth 1 o 0) (with_dummies e m d) in Ok (cm, cr, fst (fst x), snd (fst x))))).
  - rewrite (count_ext B_d (fun d => test (finish cl (real_rq a) d)) (fun d => test (let* x := simulated_request rq cas cbs cal cga st m K c d in Ok (cm, cr, fst (fst x), snd (fst x))))); [exact D'|].
    intros d _ _. f_equal. unfold finish. rewrite Erq. cbn [bind]. rewrite C2, C3, C4, C5, C6, C7, Eas. cbn [bind]. rewrite Ebs. cbn [bind]. rewrite Eal. cbn [bind]. rewrite Ega. cbn [bind]. unfold simulated_request.
    destruct (to_bytes c) as [cb0| | | |]; try reflexivity. cbn [bind]. destruct (values_to_proto (arrange m K d)) as [v0| | | |]; reflexivity.
  - intros d Ld Dd. f_equal. assert (Ldd : length d = (7 * m + 7 + K)%nat). { rewrite Ld. unfold request_bounds. cbv zeta. rewrite !app_length, !repeat_length. cbn [length]. lia. }
    unfold issuer_view. rewrite !(app_nth1 o) by lia. change (commitment (pp_gs pp) h N ms (nth 0 o 0)) with cm. change (commitment (pp_gs pp) h N rs (nth 1 o 0)) with cr.
    assert (Ev : view_entropy m K (o ++ a ++ d) = with_dummies e m d); [|rewrite Ev; reflexivity].
    unfold view_entropy, mask_part, proof_part. rewrite (part_0 (m + 5) o) by exact Lo. rewrite <- Lo at 1. rewrite <- L3 at 1. rewrite (part_mid o a d).
    replace (part (3 * m + 5 + K) (7 * m + 7 + K) (o ++ a ++ d)) with d; [reflexivity|]. symmetry. rewrite app_assoc. replace (3 * m + 5 + K)%nat with (length (o ++ a)) by (rewrite app_length; lia). rewrite <- Ldd. rewrite <- (app_nil_r d) at 2. apply part_mid.
Qed.

(** ** Replacing the commitments *)
Variable v : Z.
Hypothesis Hperv : nearly_periods t v PE N.
Lemma pw_every p l : map pw (p ++ every_period PE l) = map pw (p ++ l).
Proof. rewrite !map_app. f_equal. unfold every_period. rewrite map_map. apply map_ext. intros x. apply pw_period. Qed.
Lemma pw_every_l p l : map pw (every_period PE p ++ l) = map pw (p ++ l).
Proof. rewrite !map_app. f_equal. unfold every_period. rewrite map_map. apply map_ext. intros x. apply pw_period. Qed.
Lemma N_nonneg l : Forall (fun x => 0 <= x) (repeat N l).
Proof. pose proof vN. apply Forall_repeat. lia. Qed.
Lemma openings_close a rq d : within_distance (Z.of_nat (m + 5) * v) t (repeat N (m + 3) ++ repeat N 2)
  (fun o => finish (map pw (real_logs (part 0 (m + 3) o) (part (m + 3) 2 o) a)) rq d) (fun o => finish (map pw o) rq d).
Proof.
  pose proof vN as HN. replace (Z.of_nat (m + 5) * v) with (Z.of_nat 2 * v + Z.of_nat (m + 3) * v) by lia.
  assert (Sp : forall o1 o2, length o1 = (m + 3)%nat -> length o2 = 2%nat -> part 0 (m + 3) (o1 ++ o2) = o1 /\ part (m + 3) 2 (o1 ++ o2) = o2).
  { intros o1 o2 H1 H2. split; [apply part_0; exact H1|]. rewrite <- H1, <- H2. rewrite <- (app_nil_r o2) at 2. apply part_mid. }
  apply (distance_trans _ _ _ _ _ (fun o => finish (map pw (shift (w1 a) (part 0 (m + 3) o) ++ part (m + 3) 2 o)) rq d)).
  - apply distance_inner; [apply N_nonneg|]. intros o1 D1. pose proof (drawn_len _ _ D1) as L1. rewrite repeat_length in L1. set (p := shift (w1 a) o1).
    assert (Np : nonneg p) by (apply shift_nonneg; [apply w1_nonneg|apply (drawn_nonneg _ _ D1)]).
    eapply distance_ext; [| |exact (periodic_close t v PE N 2 (w2 p) (fun o2 => finish (map pw (p ++ o2)) rq d) ltac:(lia) Hperv eq_refl
      ltac:(repeat constructor; apply zdot_nonneg; first [apply part_nonneg; exact Np|apply v_nonneg; assumption]) ltac:(intros o2; cbn beta; rewrite pw_every; reflexivity))].
    + intros o2 L2 _. rewrite repeat_length in L2. cbn beta. destruct (Sp o1 o2 L1 L2) as [-> ->]. reflexivity.
    + intros o2 L2 _. rewrite repeat_length in L2. cbn beta. destruct (Sp o1 o2 L1 L2) as [-> ->]. reflexivity.
  - apply distance_outer; [apply N_nonneg|]. intros o2 D2. pose proof (drawn_len _ _ D2) as L2. rewrite repeat_length in L2.
    eapply distance_ext; [| |exact (periodic_close t v PE N (m + 3) (w1 a) (fun o1 => finish (map pw (o1 ++ o2)) rq d) ltac:(lia) Hperv (w1_len a) (w1_nonneg a) ltac:(intros o1; cbn beta; rewrite pw_every_l; reflexivity))].
    + intros o1 L1 _. rewrite repeat_length in L1. cbn beta. destruct (Sp o1 o2 L1 L2) as [-> ->]. reflexivity.
    + intros o1 L1 _. reflexivity.
Qed.

(** ** All steps *)
Variable u : Z.
Hypothesis Hper : nearly_periods t u ord n.
Lemma view_parts o a d : length o = (m + 5)%nat -> length a = (2 * m + K)%nat -> length d = (7 * m + 7 + K)%nat ->
  part 0 (m + 5) (o ++ a ++ d) = o /\ mask_part m K (o ++ a ++ d) = a /\ proof_part m K (o ++ a ++ d) = d.
Proof.
  intros Lo La Ld. unfold mask_part, proof_part. split; [apply part_0; exact Lo|]. split; [rewrite <- Lo at 1; rewrite <- La at 1; apply part_mid|].
  rewrite app_assoc. replace (3 * m + 5 + K)%nat with (length (o ++ a)) by (rewrite app_length; lia). rewrite <- Ld. rewrite <- (app_nil_r d) at 2. apply part_mid.
Qed.
Lemma B_m_len : length B_m = (2 * m + K)%nat. Proof. unfold mask_bounds. cbv zeta. rewrite !app_length, !repeat_length. lia. Qed.
Lemma B_d_len : length B_d = (7 * m + 7 + K)%nat. Proof. unfold request_bounds. cbv zeta. rewrite !app_length, !repeat_length. cbn [length]. lia. Qed.
Lemma B_m_is : B_m = B_a C ms ++ B_b C b ms ++ B_r C b n ms.
Proof. unfold mask_bounds, B_a, B_b, B_r. cbv zeta. rewrite (w_n _ _ _ W). reflexivity. Qed.
Lemma B_m_nonneg : Forall (fun x => 0 <= x) B_m.
Proof.
  pose proof (order_gt1 C L). pose proof (n1 n s cs W). assert (0 < 2 ^ t) by (apply Z.pow_pos_nonneg; lia). unfold mask_bounds. cbv zeta. rewrite (w_n _ _ _ W).
  repeat (apply Forall_app; split); apply Forall_repeat; first [lia|repeat apply Z.mul_nonneg_nonneg; lia].
Qed.
Lemma B_d_nonneg : Forall (fun x => 0 <= x) B_d.
Proof.
  pose proof (order_gt1 C L). pose proof (n1 n s cs W). pose proof vN. assert (0 < 2 ^ t) by (apply Z.pow_pos_nonneg; lia). unfold request_bounds. cbv zeta. rewrite (w_n _ _ _ W).
  repeat (apply Forall_app; split); try (apply Forall_repeat; repeat apply Z.mul_nonneg_nonneg; lia). repeat constructor; repeat apply Z.mul_nonneg_nonneg; lia.
Qed.
Definition stage1 (ds : list Z) := let o := part 0 (m + 5) ds in finish (map pw (real_logs (part 0 (m + 3) o) (part (m + 3) 2 o) (mask_part m K ds))) (real_rq (mask_part m K ds)) (proof_part m K ds).
Definition stage2 (ds : list Z) := finish (map pw (part 0 (m + 5) ds)) (real_rq (mask_part m K ds)) (proof_part m K ds).
Definition stage3 (ds : list Z) := finish (map pw (part 0 (m + 5) ds)) (random_request n s g (cs_ys cs) q m K (mask_part m K ds)) (proof_part m K ds).
Notation B_v := (view_bounds C b m K).
Lemma split_openings o : drawn B_o o -> exists o1 o2, o = o1 ++ o2 /\ drawn (repeat N (m + 3)) o1 /\ drawn (repeat N 2) o2 /\ part 0 (m + 3) o = o1 /\ part (m + 3) 2 o = o2.
Proof.
  intros D. replace (m + 5)%nat with ((m + 3) + 2)%nat in D by lia. rewrite repeat_app in D. destruct (part_drawn _ _ _ D) as (o1 & o2 & -> & D1 & D2). exists o1, o2.
  pose proof (drawn_len _ _ D1) as L1. pose proof (drawn_len _ _ D2) as L2. rewrite repeat_length in L1, L2. repeat split; try assumption; [apply part_0; exact L1|].
  rewrite <- L1, <- L2. rewrite <- (app_nil_r o2) at 2. apply part_mid.
Qed.
Lemma to_stage1 : within_distance_but (Z.of_nat (7 * m + 7 + K) * 2 ^ chal) t B_v (unusable_view n m K) (issuer_view flag C sha b ms rs pk K) stage1.
Proof.
  unfold view_bounds. rewrite app_assoc. apply but_scale; [lia|lia|]. apply but_inner; [apply Forall_app; split; [apply N_nonneg|exact B_m_nonneg]|]. intros oa Doa.
  destruct (part_drawn _ _ _ Doa) as (o & a & -> & Do & Da). pose proof (drawn_len _ _ Do) as Lo. rewrite repeat_length in Lo. pose proof (drawn_len _ _ Da) as La. rewrite B_m_len in La.
  destruct (unusable_mask n m K a) eqn:Eb.
  - intros test. pose proof (but_bad (Z.of_nat (7 * m + 7 + K)) sec B_d (fun _ => true) (fun ds => issuer_view flag C sha b ms rs pk K ((o ++ a) ++ ds)) (fun ds => stage1 ((o ++ a) ++ ds)) ltac:(lia) ltac:(lia) B_d_nonneg ltac:(reflexivity) test) as Q.
    rewrite (count_ext B_d (fun ds => unusable_view n m K ((o ++ a) ++ ds)) (fun _ => true)); [exact Q|].
    intros d Ld _. rewrite B_d_len in Ld. rewrite <- app_assoc. unfold unusable_view. destruct (view_parts o a d Lo La Ld) as (_ & -> & _). rewrite Eb. reflexivity.
  - destruct (split_openings o Do) as (o1 & o2 & Eo & D1 & D2 & P1 & P2). pose proof (proof_drawn o1 o2 a D1 D2 Da Eb) as D. intros test. specialize (D test).
    rewrite (count_ext B_d (fun ds => unusable_view n m K ((o ++ a) ++ ds)) (unusable_draw n m K)).
    + rewrite (count_ext B_d (fun ds => test (stage1 ((o ++ a) ++ ds))) (fun d => test (finish (map pw (real_logs o1 o2 a)) (real_rq a) d))).
      * rewrite (count_ext B_d (fun ds => test (issuer_view flag C sha b ms rs pk K ((o ++ a) ++ ds))) (fun d => test (issuer_view flag C sha b ms rs pk K ((o1 ++ o2) ++ a ++ d)))); [exact D|].
        intros d _ _. rewrite <- app_assoc, <- Eo. reflexivity.
      * intros d Ld _. rewrite B_d_len in Ld. rewrite <- app_assoc. unfold stage1. destruct (view_parts o a d Lo La Ld) as (-> & -> & ->). rewrite P1, P2. reflexivity.
    + intros d Ld _. rewrite B_d_len in Ld. rewrite <- app_assoc. unfold unusable_view. destruct (view_parts o a d Lo La Ld) as (_ & -> & ->). rewrite Eb. reflexivity.
Qed.
Lemma to_stage2 : within_distance (Z.of_nat (m + 5) * v) t B_v stage1 stage2.
Proof.
  unfold view_bounds. apply distance_outer; [apply Forall_app; split; [exact B_m_nonneg|exact B_d_nonneg]|]. intros ad Dad. destruct (part_drawn _ _ _ Dad) as (a & d & -> & Da & Dd).
  pose proof (drawn_len _ _ Da) as La. rewrite B_m_len in La. pose proof (drawn_len _ _ Dd) as Ld. rewrite B_d_len in Ld.
  pose proof (openings_close a (real_rq a) d) as D. rewrite <- repeat_app in D. replace (m + 3 + 2)%nat with (m + 5)%nat in D by lia.
  eapply distance_ext; [| |exact D].
  - intros o Lo Do. rewrite repeat_length in Lo. unfold stage1. destruct (view_parts o a d Lo La Ld) as (-> & -> & ->). reflexivity.
  - intros o Lo Do. rewrite repeat_length in Lo. unfold stage2. destruct (view_parts o a d Lo La Ld) as (-> & -> & ->). reflexivity.
Qed.
Lemma to_stage3 : within_distance (Z.of_nat m + Z.of_nat K * u) t B_v stage2 stage3.
Proof.
  unfold view_bounds. apply distance_inner; [apply N_nonneg|]. intros o Do. pose proof (drawn_len _ _ Do) as Lo. rewrite repeat_length in Lo.
  apply distance_outer; [exact B_d_nonneg|]. intros d Dd. pose proof (drawn_len _ _ Dd) as Ld. rewrite B_d_len in Ld.
  pose proof (masks_close C b n s xs W Hlen rk ry k y Hrk Hry Rk Ry L Hsec Hchal ord Hord ms rs HmG Lr Hms Hrs Hv u Hper) as D. rewrite <- B_m_is in D.
  pose proof (distance_apply _ _ _ _ _ (fun rq => finish (map pw o) rq d) D) as D'. cbn beta in D'.
  eapply distance_ext; [| |exact D'].
  - intros a La Da. rewrite B_m_len in La. cbn beta. unfold stage2. destruct (view_parts o a d Lo La Ld) as (-> & -> & ->). f_equal.
    rewrite B_m_is in Da. destruct (part_drawn _ _ _ Da) as (a1 & a23 & -> & D1 & D23). destruct (part_drawn _ _ _ D23) as (a2 & a3 & -> & D2 & D3).
    pose proof (drawn_len _ _ D1) as L1. pose proof (drawn_len _ _ D2) as L2. pose proof (drawn_len _ _ D3) as L3. unfold B_a, B_b, B_r in L1, L2, L3. rewrite repeat_length in L1, L2, L3.
    erewrite on_app by eassumption. symmetry. unfold real_rq, ea. apply (request_is C b n s xs W Hlen rk ry k y Hrk Hry L Hsec Hchal ord Hord Ho ms rs HmG Lr Hrs); assumption.
  - intros a La Da. rewrite B_m_len in La. cbn beta. unfold stage3. destruct (view_parts o a d Lo La Ld) as (-> & -> & ->). f_equal.
    symmetry. apply (random_request_is C b n s xs W Hk Hlen ord Hord Ho ms rs HmG Lr). rewrite <- B_m_is. exact Da.
Qed.
Lemma stage3_is ds : drawn B_v ds -> stage3 ds = simulated_view h N n s g (cs_ys cs) q m K c ds.
Proof.
  intros D. destruct (part_drawn _ _ _ D) as (o & ad & -> & Do & Dad). destruct (part_drawn _ _ _ Dad) as (a & d & -> & Da & Dd).
  pose proof (drawn_len _ _ Do) as Lo. rewrite repeat_length in Lo. pose proof (drawn_len _ _ Da) as La. rewrite B_m_len in La. pose proof (drawn_len _ _ Dd) as Ld. rewrite B_d_len in Ld.
  unfold stage3, simulated_view. destruct (view_parts o a d Lo La Ld) as (-> & -> & ->).
  assert (E : forall i, (i < m + 5)%nat -> nth i (map pw o) 0 = h ^ nth i (o ++ a ++ d) 0 mod N).
  { intros i Hi. rewrite app_nth1 by lia. rewrite (nth_indep _ 0 (pw 0)) by (rewrite map_length; lia). rewrite map_nth. symmetry. apply pw_is. apply (drawn_repeat _ _ _ _ Do Hi). }
  unfold finish. rewrite !E by lia. replace (part 2 m (map pw o)) with (map (fun i => h ^ nth (2 + i) (o ++ a ++ d) 0 mod N) (seq 0 m)); [reflexivity|].
  unfold part. apply map_ext_in. intros i Hi. apply in_seq in Hi. symmetry. apply E. lia.
Qed.
Lemma view_hides : within_distance_but (Z.of_nat (7 * m + 7 + K) * 2 ^ chal + (Z.of_nat (m + 5) * v + (Z.of_nat m + Z.of_nat K * u))) t B_v (unusable_view n m K)
  (issuer_view flag C sha b ms rs pk K) (simulated_view h N n s g (cs_ys cs) q m K c).
Proof.
  eapply but_then; [exact to_stage1|]. eapply distance_trans; [exact to_stage2|]. eapply distance_ext; [| |exact to_stage3]; [intros; reflexivity|]. intros ds _ D. apply stage3_is. exact D.
Qed.
End Msgs.
End View.

(** ** Unusable randomness is rare *)
Lemma rare_block X (ok : Z -> bool) j : 0 < X -> X * count (repeat X j) (fun ds => negb (forallb ok ds)) <= Z.of_nat j * count [X] (fun ds => negb (ok (nth 0 ds 0))) * tuples (repeat X j).
Proof.
  intros HX. set (bad1 := count [X] (fun ds => negb (ok (nth 0 ds 0)))).
  induction j as [|j IH]; [cbn [repeat count forallb negb]; lia|]. cbn [repeat count tuples fold_right]. fold (tuples (repeat X j)).
  assert (NR : Forall (fun x => 0 <= x) (repeat X j)) by (apply Forall_repeat; lia). pose proof (tuples_nonneg _ NR) as HT. set (T := tuples (repeat X j)) in *. set (c := count (repeat X j) (fun ds => negb (forallb ok ds))) in *.
  assert (Y0 : forall d, count (repeat X j) (fun ds => negb (forallb ok (d :: ds))) <= T * (if negb (ok d) then 1 else 0) + c).
  { intros d. pose proof (count_bound (repeat X j) (fun ds => negb (forallb ok (d :: ds))) NR) as Q. pose proof (count_bound (repeat X j) (fun ds => negb (forallb ok ds)) NR) as Q2. fold c in Q2. fold T in Q, Q2. destruct (ok d) eqn:Ed; cbn [negb].
    - assert (Eq : count (repeat X j) (fun ds => negb (forallb ok (d :: ds))) = c) by (apply count_ext; intros ds _ _; cbn [forallb]; rewrite Ed; reflexivity). rewrite Eq. lia.
    - lia. }
  assert (Y : zsum (Z.to_nat X) (fun d => T * (if negb (ok d) then 1 else 0) + c) = T * bad1 + X * c).
  { unfold bad1. cbn [count nth]. set (f := fun d => if negb (ok d) then 1 else 0). pose proof (zsum_sub (Z.to_nat X) (fun d => T * f d + c) (fun d => T * f d)) as Z1. cbn beta in Z1.
    rewrite (zsum_ext (Z.to_nat X) (fun d => T * f d + c - T * f d) (fun _ => c)) in Z1 by (intros; ring). rewrite zsum_const, Z2Nat.id, <- zsum_scale in Z1 by lia. change (zsum (Z.to_nat X) (fun d => if negb (ok d) then 1 else 0)) with (zsum (Z.to_nat X) f). unfold f at 1 in Z1. lia. }
  pose proof (zsum_le (Z.to_nat X) _ _ (fun d _ => Y0 d)) as Q. rewrite Y in Q.
  transitivity (X * (T * bad1 + X * c)); [apply Z.mul_le_mono_nonneg_l; [lia|exact Q]|]. rewrite Nat2Z.inj_succ. transitivity (X * T * bad1 + X * (Z.of_nat j * bad1 * T)); [|apply Z.eq_le_incl; ring].
  rewrite Z.mul_add_distr_l. apply Z.add_le_mono; [apply Z.eq_le_incl; ring|]. apply Z.mul_le_mono_nonneg_l; [lia|exact IH].
Qed.
Lemma multiples_count p a : 0 < p -> zsum (Z.to_nat p * a) (fun x => if x mod p =? 0 then 1 else 0) = Z.of_nat a.
Proof.
  intros Hp. induction a as [|a IH]; [rewrite Nat.mul_0_r; reflexivity|]. replace (Z.to_nat p * S a)%nat with (Z.to_nat p * a + Z.to_nat p)%nat by lia. rewrite zsum_add, IH.
  assert (E : zsum (Z.to_nat p) (fun x => if (x + Z.of_nat (Z.to_nat p * a)) mod p =? 0 then 1 else 0) = 1); [|rewrite E; lia].
  rewrite (zsum_ext (Z.to_nat p) _ (fun x => if x =? 0 then 1 else 0)).
  - replace (Z.to_nat p) with (1 + Z.to_nat (p - 1))%nat by lia. rewrite zsum_add. cbn [zsum]. rewrite (zsum_ext (Z.to_nat (p - 1)) _ (fun _ => 0)) by (intros x Hx; change (Z.of_nat 1) with 1; destruct (Z.eqb_spec (x + 1) 0); [lia|reflexivity]). change (Z.of_nat 0) with 0. rewrite Z.eqb_refl. rewrite zsum_const. lia.
  - intros x Hx. rewrite Nat2Z.inj_mul, Z2Nat.id by lia. rewrite (Z.mul_comm p), Z.mod_add by lia. rewrite Z.mod_small by lia. reflexivity.
Qed.
Definition usable_b (n x : Z) : bool := (x =? 0) || (Z.gcd x n =? 1).
Lemma unusable_count p q T : prime p -> prime q -> 0 <= T -> count [p * q * T] (fun ds => negb (usable_b (p * q) (nth 0 ds 0))) <= (p + q) * T.
Proof.
  intros Pp Pq HT. pose proof (prime_ge_2 _ Pp). pose proof (prime_ge_2 _ Pq). cbn [count nth].
  assert (HPQ : 0 <= p * q) by (apply Z.mul_nonneg_nonneg; lia). assert (HQT : 0 <= q * T) by (apply Z.mul_nonneg_nonneg; lia). assert (HPT : 0 <= p * T) by (apply Z.mul_nonneg_nonneg; lia).
  transitivity (zsum (Z.to_nat (p * q * T)) (fun x => (if x mod p =? 0 then 1 else 0) + (if x mod q =? 0 then 1 else 0))).
  - apply zsum_le. intros x Hx. destruct (usable_b (p * q) x) eqn:U; cbn [negb]; [destruct (x mod p =? 0), (x mod q =? 0); lia|].
    unfold usable_b in U. apply orb_false_iff in U. destruct U as [_ U]. apply Z.eqb_neq in U. destruct (Z.eqb_spec (x mod p) 0) as [|N1]; [destruct (x mod q =? 0); lia|]. destruct (Z.eqb_spec (x mod q) 0) as [|N2]; [lia|].
    exfalso. apply U. apply Zgcd_1_rel_prime. assert (X : forall r, prime r -> x mod r <> 0 -> rel_prime x r).
    { intros r Pr Nr. apply rel_prime_sym, prime_rel_prime; [exact Pr|]. intros D. apply Nr. apply Z.mod_divide; [pose proof (prime_ge_2 _ Pr); lia|exact D]. }
    apply rel_prime_mult; apply X; assumption.
  - pose proof (zsum_sub (Z.to_nat (p * q * T)) (fun x => (if x mod p =? 0 then 1 else 0) + (if x mod q =? 0 then 1 else 0)) (fun x => if x mod q =? 0 then 1 else 0)) as Z1. cbn beta in Z1.
    rewrite (zsum_ext _ (fun x => _ + _ - _) (fun x => if x mod p =? 0 then 1 else 0)) in Z1 by (intros; ring).
    assert (E1 : zsum (Z.to_nat (p * q * T)) (fun x => if x mod p =? 0 then 1 else 0) = q * T) by (replace (p * q * T) with (p * (q * T)) by ring; rewrite Z2Nat.inj_mul by lia; rewrite multiples_count by lia; lia).
    assert (E2 : zsum (Z.to_nat (p * q * T)) (fun x => if x mod q =? 0 then 1 else 0) = p * T) by (replace (p * q * T) with (q * (p * T)) by ring; rewrite Z2Nat.inj_mul by lia; rewrite multiples_count by lia; lia).
    rewrite E1, E2 in Z1. lia.
Qed.
Lemma count_block A B D f : Forall (fun x => 0 <= x) A -> Forall (fun x => 0 <= x) B -> Forall (fun x => 0 <= x) D ->
  count (A ++ B ++ D) (fun ds => f (part (length A) (length B) ds)) = tuples A * (count B f * tuples D).
Proof.
  intros NA NB ND. rewrite count_app. rewrite (zsums_ext A _ (fun _ => count B f * tuples D)); [apply zsums_const; exact NA|]. intros a Ha. rewrite count_app, count_zsums.
  transitivity (zsums B (fun d => tuples D * (if f d then 1 else 0))); [|rewrite <- zsums_scale; ring]. apply zsums_ext. intros d Hd.
  rewrite count_zsums. rewrite (zsums_ext D _ (fun _ => if f d then 1 else 0)); [apply zsums_const; exact ND|]. intros e He. rewrite <- (drawn_len _ _ Ha), <- (drawn_len _ _ Hd), part_mid. reflexivity.
Qed.
Lemma count_or B (f g : list Z -> bool) : count B (fun ds => f ds || g ds) <= count B f + count B g.
Proof. rewrite !count_zsums, <- zsums_add. apply zsums_le. intros ds _. destruct (f ds), (g ds); cbn [orb]; lia. Qed.
Lemma part_part s l s' l' ds : (s' + l' <= l)%nat -> part s' l' (part s l ds) = part (s + s') l' ds.
Proof. intros H. unfold part at 1 3. apply map_ext_in. intros i Hi. apply in_seq in Hi. rewrite part_nth by lia. f_equal. lia. Qed.
