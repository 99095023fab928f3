(** Lemmas about the requester of S_Cheat: its request is always accepted. *)
From Coq Require Import Znumtheory FinFun.
From Verif Require Import Base M_BigNum L_BigNum M_Num L_Mod L_Num L_NT M_DJ L_DJ M_Paillier L_Paillier L_PaillierKey M_EC L_EC L_Cipher M_Proto M_CS S_CS L_CS
  M_Simul M_Pedersen M_Wire M_VRF M_BB L_BBct L_BBhom L_BBped L_BBreq L_BBrsp S_Exp S_Pedersen L_Exp L_Protocol L_Pedersen L_VRF S_BB S_Cheat.

(** ** An exponent that is a full turn for every unit *)
Definition full (N T : Z) : Prop := forall a, Z.gcd a N = 1 -> eqmod N (a ^ T) 1.

Lemma two_equal (f : nat -> nat) k : (forall i, (f i < k)%nat) -> exists i j, (i < j <= k)%nat /\ f i = f j.
Proof.
  intros Hf. assert (D : forall m, (exists i j, (i < j <= m)%nat /\ f i = f j) \/ NoDup (map f (seq 0 (S m)))).
  { induction m as [|m IH]; [right; cbn; constructor; [intros []|constructor]|]. destruct IH as [(i & j & Hij & E)|ND]; [left; exists i, j; split; [lia|exact E]|].
    destruct (in_dec Nat.eq_dec (f (S m)) (map f (seq 0 (S m)))) as [Hin|Hin].
    - left. apply in_map_iff in Hin. destruct Hin as (i & E & Hi). apply in_seq in Hi. exists i, (S m). split; [lia|exact E].
    - right. rewrite seq_S, map_app. cbn [map Nat.add]. apply (NoDup_Add (a := f (S m)) (l := map f (seq 0 (S m)))); [|split; assumption].
      rewrite <- (app_nil_r (map f (seq 0 (S m)))) at 1. apply Add_app. }
  destruct (D k) as [H|ND]; [exact H|]. exfalso.
  assert (I : incl (map f (seq 0 (S k))) (seq 0 k)). { intros x Hx. apply in_map_iff in Hx. destruct Hx as (i & <- & _). apply in_seq. specialize (Hf i). lia. }
  pose proof (NoDup_incl_length ND I) as H. rewrite map_length, !seq_length in H. lia.
Qed.
Lemma unit_order a N : 1 < N -> Z.gcd a N = 1 -> exists o, 0 < o <= N /\ eqmod N (a ^ o) 1.
Proof.
  intros HN G. destruct (two_equal (fun i => Z.to_nat (a ^ Z.of_nat i mod N)) (Z.to_nat N)) as (i & j & Hij & E).
  { intros i. pose proof (Z.mod_pos_bound (a ^ Z.of_nat i) N ltac:(lia)). lia. }
  pose proof (Z.mod_pos_bound (a ^ Z.of_nat i) N ltac:(lia)) as B1. pose proof (Z.mod_pos_bound (a ^ Z.of_nat j) N ltac:(lia)) as B2.
  assert (E' : a ^ Z.of_nat i mod N = a ^ Z.of_nat j mod N) by lia. exists (Z.of_nat (j - i)). split; [lia|].
  apply (eqmod_cancel N (a ^ Z.of_nat i)); [apply coprime_pow_gcd; [lia|exact G]|]. rewrite <- Z.pow_add_r by lia. replace (Z.of_nat i + Z.of_nat (j - i)) with (Z.of_nat j) by lia.
  rewrite Z.mul_1_r. symmetry. apply eq_eqmod. exact E'.
Qed.
Lemma divides_zfact o k : 0 < o <= Z.of_nat k -> (o | zfact k).
Proof.
  induction k as [|k IH]; intros H; [lia|]. rewrite zfact_S. destruct (Z.eq_dec o (Z.of_nat (S k))) as [->|Hne].
  - apply Z.divide_mul_l. exists 1. lia.
  - apply Z.divide_mul_r, IH. lia.
Qed.
Lemma full_pow N T k : 0 <= T -> 0 <= k -> full N T -> full N (T * k).
Proof. intros HT Hk F a G. rewrite Z.pow_mul_r by assumption. rewrite (eqmod_pow _ _ _ k (F a G)), Z.pow_1_l by exact Hk. reflexivity. Qed.
Lemma full_exists N M : 1 < N -> 1 < M -> exists T, 0 < T /\ full N T /\ full M T.
Proof.
  intros HN HM. assert (F : forall N, 1 < N -> full N (zfact (Z.to_nat N))).
  { clear. intros N HN a G. destruct (unit_order a N HN G) as (o & Ho & E). destruct (divides_zfact o (Z.to_nat N) ltac:(lia)) as [z Ez].
    pose proof (zfact_pos (Z.to_nat N)) as P. assert (Hz : 0 <= z) by nia. rewrite Ez, (Z.mul_comm z o), Z.pow_mul_r by lia. rewrite (eqmod_pow _ _ _ z E), Z.pow_1_l by exact Hz. reflexivity. }
  pose proof (zfact_pos (Z.to_nat N)) as P1. pose proof (zfact_pos (Z.to_nat M)) as P2.
  exists (zfact (Z.to_nat N) * zfact (Z.to_nat M)). split; [nia|]. split; [apply full_pow; try lia; apply F; exact HN|]. rewrite Z.mul_comm. apply full_pow; try lia. apply F, HM.
Qed.

(** ** Inverses are powers *)
Lemma turn_split X T : 0 < T -> X ^ T = X * X ^ (T - 1).
Proof. intros H. rewrite <- (Z.pow_1_r X) at 2. rewrite <- Z.pow_add_r by lia. f_equal. lia. Qed.
Lemma inverse_turn N T X : 1 < N -> 0 < T -> full N T -> Z.gcd X N = 1 -> bn_mod_inverse (X mod N) N = Ok (X ^ (T - 1) mod N).
Proof.
  intros HN HT F G. destruct (inverse_mod N X 1 HN G) as (i & Ei & Bi & Pi). rewrite Ei. f_equal. rewrite <- (Z.mod_small i N Bi). apply eqmod_eq; [lia|].
  pose proof (F X G) as E1. rewrite turn_split in E1 by exact HT. rewrite Z.mul_1_l in Pi.
  transitivity ((X * X ^ (T - 1)) * i); [rewrite E1, Z.mul_1_l; reflexivity|]. transitivity (X ^ (T - 1) * (X * i)); [exists 0; ring|]. rewrite Pi, Z.mul_1_r. reflexivity.
Qed.

Section Opp.
Variable flag : bool.
Variable C : ec.
Variable sha : bytes -> bytes.
Variable b : bb C.
Variables (n : Z) (s : nat) (xs : list Z).
Notation cs := (bb_cs C b).
Notation M := (n ^ (Z.of_nat s + 1)).
Hypothesis W : cs_valid n s cs.
Hypothesis Hg : Z.gcd (cs_g cs) n = 1.
Hypothesis Hk : key_match n s (cs_g cs) xs (cs_ys cs).
Notation len := (cs_len cs).
Notation E := (enc n s cs xs).
Hypothesis Hlen : (0 < len)%nat.
Variables (rk ry : nat -> Z) (k y : Z).
Hypothesis Hrk : forall j, 0 <= rk j.
Hypothesis Hry : forall j, 0 <= ry j.
Hypothesis Hk0 : 0 <= k.
Hypothesis Hy0 : 0 <= y.
Notation ped := (bb_ped C b).
Notation pp := (pd_par ped).
Notation N := (pp_n pp).
Notation G := (length (pp_gs pp)).
Notation q := (ec_order C).
Hypothesis PO : ped_ok ped.
Hypothesis UN : units pp.
Hypothesis L : ec_laws C.
Notation sec := (bp_sec (bb_par C b)).
Notation chal := (bp_chal (bb_par C b)).
Notation t := (chal + sec).
Hypothesis Hsec : 0 < sec.
Hypothesis Hchal : 0 < chal <= 120000.
Variable pk : bb_public.
Variable keys : list (cs_ciphertext * cs_ciphertext).
Hypothesis EP : parse_public C b pk = Ok keys.
Hypothesis K1 : map fst keys = key_cts C b n s xs rk k.
Hypothesis K2 : map snd keys = key_cts C b n s xs ry y.
Notation first := (first_of C b n s xs rk ry k y).
Notation Com := (com C b).
Variable T : Z.
Hypothesis HT : 0 < T.
Hypothesis FN : full N T.
Hypothesis FM : full M T.

Lemma oN1 : 1 < N. Proof. apply PO. Qed.

(** Multiples of T disappear. *)
Lemma com_turn a v r o : nonneg a -> nonneg v -> 0 <= r -> 0 <= o -> Com (vadd a (vscale T v)) (r + T * o) = Com a r.
Proof.
  intros Ha Hv Hr Ho. unfold com. pose proof oN1 as HN. apply eqmod_eq; [lia|]. rewrite raw_commit_add by (first [assumption|apply nonneg_vscale; [lia|assumption]|apply Z.mul_nonneg_nonneg; lia]).
  rewrite raw_commit_scale by (first [assumption|lia]). rewrite (FN (raw_commit pp v o)) by (apply raw_commit_unit; assumption). rewrite Z.mul_1_r. reflexivity.
Qed.
Lemma com_inverse v o : nonneg v -> 0 <= o -> bn_mod_inverse (Com v o) N = Ok (Com (vscale (T - 1) v) ((T - 1) * o)).
Proof.
  intros Hv Ho. unfold com. rewrite (inverse_turn N T) by (first [apply oN1|exact HT|exact FN|apply raw_commit_unit; assumption]). rewrite raw_commit_scale by (first [assumption|lia]). reflexivity.
Qed.
Lemma enc_turn r r' f f' : 0 <= r -> 0 <= r' -> (forall l, 0 <= f l) -> (forall l, 0 <= f' l) -> E (r + T * r') (fun l => f l + T * f' l) = E r f.
Proof.
  intros Hr Hr' Hf Hf'. pose proof (M1 n s cs W) as HM.
  assert (U : forall a c, 0 <= a -> 0 <= c -> Z.gcd (cs_g cs ^ a) M = 1) by (intros; apply (g_unit n s cs Hg); assumption).
  assert (Tr : 0 <= T * r') by (apply Z.mul_nonneg_nonneg; lia). assert (Tf : forall l, 0 <= T * f' l) by (intros l; apply Z.mul_nonneg_nonneg; [lia|apply Hf']).
  assert (E1 : eqmod M (cs_g cs ^ (T * r')) 1) by (rewrite (Z.mul_comm T), Z.pow_mul_r by lia; apply FM, (U r' 0); lia).
  unfold enc. f_equal.
  - apply eqmod_eq; [lia|]. rewrite (Z.pow_add_r (cs_g cs)) by assumption. rewrite E1, Z.mul_1_r. reflexivity.
  - apply tab_ext. intros l _. unfold enc_e. apply eqmod_eq; [lia|]. pose proof (x_nonneg n s cs xs W Hk l) as Hx.
    rewrite (Z.pow_add_r (cs_g cs)), (Z.pow_add_r (1 + n)), Z.pow_mul_l by (first [assumption|apply Hf|apply Tf]).
    rewrite (eqmod_pow _ _ _ (nth l xs 0) E1), Z.pow_1_l by exact Hx.
    assert (E2 : eqmod M ((1 + n) ^ (T * f' l)) 1) by (rewrite (Z.mul_comm T), Z.pow_mul_r by (first [apply Hf'|lia]); apply FM, (np1_unit n s), Hf').
    rewrite E2. exists 0. ring.
Qed.
Lemma enc_inverse r f : 0 <= r -> (forall l, 0 <= f l) -> inverse_ct C b (E r f) = Ok (E ((T - 1) * r) (fun l => (T - 1) * f l)).
Proof.
  intros Hr Hf. pose proof (M1 n s cs W) as HM. unfold inverse_ct. cbn [enc ct_u ct_es]. rewrite (w_mod _ _ _ W).
  rewrite (inverse_turn M T) by (first [exact HM|exact HT|exact FM|apply (g_unit n s cs Hg); exact Hr]). cbn [bind].
  assert (EM : mapM (fun e => bn_mod_inverse e M) (tab len (enc_e n s cs xs r f)) = Ok (tab len (enc_e n s cs xs ((T - 1) * r) (fun l => (T - 1) * f l)))).
  { unfold tab. generalize (seq 0 len) as js. induction js as [|j js IH]; [reflexivity|]. cbn [map mapM].
    unfold enc_e at 1. rewrite (inverse_turn M T) by (first [exact HM|exact HT|exact FM|apply (enc_e_raw_unit n s cs xs W Hg Hk); [exact Hr|apply Hf]]). cbn [bind]. rewrite IH. cbn [bind]. do 2 f_equal.
    unfold enc_e. f_equal. pose proof (x_nonneg n s cs xs W Hk j) as Hx. rewrite Z.pow_mul_l. f_equal.
    - rewrite <- !Z.pow_mul_r by (first [assumption|lia|apply Z.mul_nonneg_nonneg; (assumption || lia)]). f_equal. ring.
    - rewrite <- Z.pow_mul_r by (first [apply Hf|lia]). f_equal. ring. }
  rewrite EM. cbn [bind]. unfold enc. do 2 f_equal. rewrite <- Z.pow_mul_r by lia. f_equal. f_equal. ring.
Qed.

(** ** The same values without negative numbers *)
Definition turned (w : req_values) : req_values :=
  {| v_messages := v_messages w; v_messages_open := v_messages_open w; v_rs := v_rs w; v_rs_open := v_rs_open w;
     v_as := vscale (T - 1) (v_as w); v_as_open := vscale (T - 1) (v_as_open w); v_bs := vscale (T - 1) (v_bs w); v_bs_open := (T - 1) * v_bs_open w;
     v_alphas := vscale (T - 1) (v_alphas w); v_alphas_1 := (T - 1) * v_alphas_1 w; v_alphas_2 := (T - 1) * v_alphas_2 w;
     v_gammas := vscale (T - 1) (v_gammas w); v_gammas_1 := (T - 1) * v_gammas_1 w; v_gammas_2 := (T - 1) * v_gammas_2 w; v_enc := vscale (T - 1) (v_enc w) |}.
Lemma vscale_len c l : length (vscale c l) = length l. Proof. apply map_length. Qed.
Lemma vscale_nth c l i : nth i (vscale c l) 0 = c * nth i l 0.
Proof. unfold vscale. revert i. induction l as [|x l IH]; intros [|i]; cbn [map nth]; try lia. apply IH. Qed.
Lemma shaped_turned m w : shaped C b m w -> shaped C b m (turned w).
Proof.
  intros V. assert (P : forall x, 0 <= x -> 0 <= (T - 1) * x) by (intros; apply Z.mul_nonneg_nonneg; lia). destruct V.
  constructor; cbn; rewrite ?vscale_len; try assumption; try (apply nonneg_vscale; [lia|assumption]); apply P; assumption.
Qed.
(** The masked value with the opposite sign and the one of the turned secret differ by a multiple of T. *)
Lemma mask_list c d w : length d = length w -> map2 (mask c) d (vscale (T - 1) w) = vadd (map2 (mask c) d (map Z.opp w)) (vscale T (vscale c w)).
Proof.
  revert w. induction d as [|x d IH]; intros [|z w] H; cbn [length] in H; try lia; [reflexivity|]. cbn [map2 vscale map vadd]. unfold vscale in IH. rewrite IH by lia. f_equal. unfold mask. ring.
Qed.
Lemma mask_one c d w : mask c d ((T - 1) * w) = mask c d (- w) + T * (c * w).
Proof. unfold mask. ring. Qed.

Lemma first_turned m c cas d w : 0 <= c -> shaped C b m d -> shaped C b m w -> shaped C b m (masked_values c d (opposite w)) ->
  first cas (masked_values c d (turned w)) = first cas (masked_values c d (opposite w)).
Proof.
  intros Hc D V S. pose proof oN1 as HN. assert (P : forall x, 0 <= x -> 0 <= c * x) by (intros; apply Z.mul_nonneg_nonneg; lia).
  pose proof D as D'. pose proof V as V'. pose proof S as S'. destruct D, V. destruct S as [s1 s2 s3 s4 s5 s6 s7 s8 p1 p2 p3 p4 p5 p6 p7 p8 o1 o2 o3 o4 o5 o6 o7].
  cbn [masked_values opposite v_messages v_messages_open v_rs v_rs_open v_as v_as_open v_bs v_bs_open v_alphas v_alphas_1 v_alphas_2 v_gammas v_gammas_1 v_gammas_2 v_enc] in *.
  unfold first_of. cbn [masked_values opposite turned v_messages v_messages_open v_rs v_rs_open v_as v_as_open v_bs v_bs_open v_alphas v_alphas_1 v_alphas_2 v_gammas v_gammas_1 v_gammas_2 v_enc].
  assert (CT : forall dl wl d0 w0, length dl = length wl -> nonneg wl -> nonneg (map2 (mask c) dl (map Z.opp wl)) -> 0 <= w0 -> 0 <= mask c d0 (- w0) ->
    Com (map2 (mask c) dl (vscale (T - 1) wl)) (mask c d0 ((T - 1) * w0)) = Com (map2 (mask c) dl (map Z.opp wl)) (mask c d0 (- w0))).
  { intros dl wl d0 w0 Ll Hw Hm H0 Hm0. rewrite mask_list by exact Ll. rewrite mask_one. apply com_turn; [exact Hm|apply nonneg_vscale; assumption|exact Hm0|apply P, H0]. }
  assert (HP : forall d0 w0 z, 0 <= w0 -> 0 <= mask c d0 (- w0) -> (pp_h pp ^ mask c d0 ((T - 1) * w0) * z) mod N = (pp_h pp ^ mask c d0 (- w0) * z) mod N).
  { intros d0 w0 z H0 Hm0. apply eqmod_eq; [lia|]. specialize (P w0 H0). rewrite mask_one, Z.pow_add_r by (first [exact Hm0|apply Z.mul_nonneg_nonneg; lia]).
    rewrite (Z.mul_comm T), Z.pow_mul_r by lia. rewrite (FN (pp_h pp ^ (c * w0))) by (apply coprime_pow_gcd; [exact P|apply UN]). rewrite Z.mul_1_r. reflexivity. }
  f_equal.
  - apply tab_ext. intros i _. rewrite !(map2_nth (mask c)) by (first [rewrite ?vscale_len, ?map_length; congruence|unfold mask; lia]).
    assert (On : forall l, nth i (map Z.opp l) 0 = - nth i l 0). { intros l. revert i. induction l as [|x l IH]; intros [|i]; cbn [map nth]; try lia. apply IH. }
    assert (N1 : 0 <= nth i (map2 (mask c) (v_as d) (map Z.opp (v_as w))) 0) by (apply nonneg_nth; exact p3).
    assert (N2 : 0 <= nth i (map2 (mask c) (v_as_open d) (map Z.opp (v_as_open w))) 0) by (apply nonneg_nth; exact p4).
    rewrite !(map2_nth (mask c)), !On in N1, N2 by (first [rewrite ?map_length; congruence|unfold mask; lia]).
    rewrite !vscale_nth, !mask_one, !On. rewrite slot_mask. apply com_turn; [apply slot_nonneg; exact N1|apply slot_nonneg, P, nonneg_nth; assumption|exact N2|apply P, nonneg_nth; assumption].
  - apply CT; first [assumption|congruence].
  - apply CT; first [assumption|congruence].
  - apply HP; assumption.
  - apply CT; first [assumption|congruence].
  - apply HP; assumption.
  - apply tab_ext. intros i _. set (v := masked_values c d (opposite w)) in *.
    assert (On : forall j l, nth j (map Z.opp l) 0 = - nth j l 0). { intros j l. revert j. induction l as [|x l IH]; intros [|j]; cbn [map nth]; try lia. apply IH. }
    assert (M0 : mask c 0 0 = 0) by (unfold mask; lia).
    etransitivity; [|refine (enc_turn (hr C b rk ry (v_as v) (v_gammas v) (v_enc v) i) (c * hr C b rk ry (v_as w) (v_gammas w) (v_enc w) i)
      (hf C b k y (hidden C v) (v_as v) (v_gammas v) i) (fun l => c * hf C b k y (hidden C w) (v_as w) (v_gammas w) i l) _ _ _ _)].
    + apply enc_ext.
      * unfold hr, v. cbn [masked_values opposite v_as v_gammas v_enc]. rewrite !(map2_nth (mask c)) by (first [exact M0|rewrite ?vscale_len, ?map_length; congruence]).
        rewrite vscale_nth, mask_one, On. rewrite Z.mul_add_distr_l, Z.mul_add_distr_l.
        rewrite (sumz_ext _ (fun j => nth (i * len + j) (map2 (mask c) (v_as d) (vscale (T - 1) (v_as w))) 0 * rk j + nth (i * len + j) (map2 (mask c) (v_gammas d) (vscale (T - 1) (v_gammas w))) 0 * ry j)
          (fun j => (nth (i * len + j) (map2 (mask c) (v_as d) (map Z.opp (v_as w))) 0 * rk j + nth (i * len + j) (map2 (mask c) (v_gammas d) (map Z.opp (v_gammas w))) 0 * ry j) +
                    (T * c) * (nth (i * len + j) (v_as w) 0 * rk j + nth (i * len + j) (v_gammas w) 0 * ry j))).
        { rewrite sumz_lin. ring. }
        intros j _. rewrite !(map2_nth (mask c)) by (first [exact M0|rewrite ?vscale_len, ?map_length; congruence]). rewrite !vscale_nth, !mask_one, !On. ring.
      * intros l _. unfold hf. set (u := masked_values c d (turned w)). change (hidden C {| v_messages := _ |}) with (hidden C u).
        pose proof (shaped_mask C b Hlen m c d (turned w) Hc D' (shaped_turned m w V')) as S2. fold u in S2.
        rewrite (hidden_nth C b m u _ S2), (hidden_nth C b m v _ S'), (hidden_nth C b m w _ V'). unfold u, v.
        cbn [masked_values opposite turned v_as v_gammas v_alphas v_bs]. rewrite !(map2_nth (mask c)) by (first [exact M0|rewrite ?vscale_len, ?map_length; congruence]).
        rewrite !vscale_nth, !mask_one, !On. ring.
    + apply hr_nonneg; assumption.
    + apply P, hr_nonneg; assumption.
    + intros l. apply hf_nonneg; try assumption. apply (hidden_nonneg C b Hlen) with (m := m); try assumption. pose proof (order_gt1 C L). lia.
    + intros l. apply P, hf_nonneg; try assumption. apply (hidden_nonneg C b Hlen) with (m := m); try assumption. pose proof (order_gt1 C L). lia.
Qed.
(** ** The commitments of the request *)
Lemma slot_scale c i v : vscale c (slot G i v) = slot G i (c * v).
Proof. unfold slot, vscale. rewrite map_map. apply map_ext. intros j. destruct (j =? i)%nat; lia. Qed.
Lemma multi_exp_turn cas' cas es : Forall2 (fun x z => eqmod N x (z ^ (T - 1))) cas' cas -> nonneg es -> eqmod N (multi_exp cas' es) (multi_exp cas es ^ (T - 1)).
Proof.
  intros H. revert es. induction H as [|x z cas' cas Hx H IH]; intros es He; cbn [multi_exp]; [rewrite Z.pow_1_l by lia; reflexivity|].
  destruct He as [|e es He Hes]; [rewrite Z.pow_1_l by lia; reflexivity|]. rewrite (IH es Hes), (eqmod_pow _ _ _ e Hx), Z.pow_mul_l, <- !Z.pow_mul_r by lia. rewrite (Z.mul_comm e). reflexivity.
Qed.
Definition icas (m : nat) (w : req_values) : list Z := tab m (fun i => Com (slot G i (nth i (v_as (turned w)) 0)) (nth i (v_as_open (turned w)) 0)).

Lemma turned_commits m cas w : shaped C b m w -> f_as (first cas w) = cas -> f_alphas_1 (first cas w) = f_alphas_2 (first cas w) -> f_gammas_1 (first cas w) = f_gammas_2 (first cas w) ->
  mapM (fun x => bn_mod_inverse x N) cas = Ok (icas m w) /\ bn_mod_inverse (f_bs (first cas w)) N = Ok (f_bs (first (icas m w) (turned w))) /\
  bn_mod_inverse (f_alphas_1 (first cas w)) N = Ok (f_alphas_1 (first (icas m w) (turned w))) /\
  bn_mod_inverse (f_gammas_1 (first cas w)) N = Ok (f_gammas_1 (first (icas m w) (turned w))) /\
  f_as (first (icas m w) (turned w)) = icas m w /\ f_alphas_1 (first (icas m w) (turned w)) = f_alphas_2 (first (icas m w) (turned w)) /\
  f_gammas_1 (first (icas m w) (turned w)) = f_gammas_2 (first (icas m w) (turned w)).
Proof.
  intros V Ea Eal Ega. pose proof oN1 as HN. pose proof V as V'. destruct V as [z_m0 z_r0 z_a0 z_ao0 z_b0 z_al0 z_ga0 z_e0 y_m0 y_r0 y_a0 y_ao0 y_b0 y_al0 y_ga0 y_e0 y_mo0 y_ro0 y_bo0 y_al3 y_al4 y_ga3 y_ga4].
  assert (Ecas : cas = tab m (fun i => Com (slot G i (nth i (v_as w) 0)) (nth i (v_as_open w) 0))) by (rewrite <- Ea; cbn [first_of f_as]; rewrite z_m0; reflexivity).
  assert (Ei : forall i, Com (slot G i (nth i (v_as (turned w)) 0)) (nth i (v_as_open (turned w)) 0) = Com (vscale (T - 1) (slot G i (nth i (v_as w) 0))) ((T - 1) * nth i (v_as_open w) 0)).
  { intros i. cbn [turned v_as v_as_open]. rewrite !vscale_nth, slot_scale. reflexivity. }
  split. { rewrite Ecas. unfold tab, icas. assert (GEN : forall js, mapM (fun x => bn_mod_inverse x N) (map (fun i => Com (slot G i (nth i (v_as w) 0)) (nth i (v_as_open w) 0)) js) =
      Ok (map (fun i => Com (slot G i (nth i (v_as (turned w)) 0)) (nth i (v_as_open (turned w)) 0)) js)).
    { induction js as [|j js IH]; [reflexivity|]. cbn [map mapM]. rewrite com_inverse by (first [apply slot_nonneg, nonneg_nth; assumption|apply nonneg_nth; assumption]). cbn [bind]. rewrite IH. cbn [bind]. rewrite Ei. reflexivity. }
    apply GEN. }
  split; [apply com_inverse; assumption|]. split; [apply com_inverse; assumption|]. split; [apply com_inverse; assumption|].
  split; [unfold icas; cbn [first_of f_as turned v_messages]; rewrite z_m0; reflexivity|].
  assert (F2 : Forall2 (fun x z => eqmod N x (z ^ (T - 1))) (icas m w) cas).
  { rewrite Ecas. unfold icas, tab. generalize (seq 0 m) as js. induction js as [|j js IH]; constructor; [|exact IH]. rewrite Ei. unfold com.
    rewrite (eqmod_mod N), raw_commit_scale by (first [apply slot_nonneg, nonneg_nth; assumption|apply nonneg_nth; assumption|lia]). apply eqmod_pow. symmetry. apply eqmod_mod. }
  assert (AL : forall v r o es, nonneg v -> 0 <= r -> 0 <= o -> nonneg es -> Com v r = (pp_h pp ^ o * multi_exp cas es) mod N ->
    Com (vscale (T - 1) v) ((T - 1) * r) = (pp_h pp ^ ((T - 1) * o) * multi_exp (icas m w) es) mod N).
  { intros v r o es Hv Hr Ho Hes Ec. unfold com in *. apply mod_eqmod_iff in Ec; [|lia]. apply eqmod_eq; [lia|]. rewrite raw_commit_scale by (first [assumption|lia]).
    rewrite (eqmod_pow _ _ _ (T - 1) Ec), Z.pow_mul_l, (multi_exp_turn _ _ es F2 Hes), (Z.mul_comm (T - 1) o), Z.pow_mul_r by lia. reflexivity. }
  split; [apply (AL _ _ _ _ y_al0 y_al3 y_al4 y_m0 Eal)|apply (AL _ _ _ _ y_ga0 y_ga3 y_ga4 y_r0 Ega)].
Qed.

(** The ciphertexts of the request. *)
Lemma turned_cts m cas w : shaped C b m w -> mapM (inverse_ct C b) (f_cts (first cas w)) = Ok (f_cts (first cas (turned w))).
Proof.
  intros V. pose proof V as V'. destruct V. cbn [first_of f_cts turned v_messages]. unfold tab. generalize (seq 0 (num_cts len (length (v_messages w)))) as js.
  induction js as [|i js IH]; [reflexivity|]. cbn [map mapM].
  rewrite enc_inverse.
  - cbn [bind]. rewrite IH. cbn [bind]. do 2 f_equal. apply enc_ext.
    + unfold hr. rewrite (sumz_ext _ (fun j => nth (i * len + j) (v_as (turned w)) 0 * rk j + nth (i * len + j) (v_gammas (turned w)) 0 * ry j)
        (fun j => 0 + (T - 1) * (nth (i * len + j) (v_as w) 0 * rk j + nth (i * len + j) (v_gammas w) 0 * ry j))).
      { rewrite sumz_lin. assert (Z0 : forall z, sumz z (fun _ => 0) = 0) by (induction z as [|z IHz]; cbn; lia). rewrite Z0. cbn [turned v_enc]. rewrite vscale_nth. ring. }
      intros j _. cbn [turned v_as v_gammas]. rewrite !vscale_nth. ring.
    + intros l _. unfold hf. rewrite (hidden_nth C b m w _ V'), (hidden_nth C b m _ _ (shaped_turned m w V')). cbn [turned v_as v_gammas v_alphas v_bs]. rewrite !vscale_nth. ring.
  - apply hr_nonneg; assumption.
  - intros l. apply hf_nonneg; try assumption. apply (hidden_nonneg C b Hlen) with (m := m); try assumption. pose proof (order_gt1 C L). lia.
Qed.

(** ** The verifier's bounds *)
Lemma in_bounds_opposite m c d w ms : 0 <= c < 2 ^ chal -> shaped C b m d -> shaped C b m w ->
  Forall (fun x => 0 <= x < q * 2 ^ t) (v_messages d) -> Forall (fun x => 0 <= x < q * 2 ^ t) (v_as d) -> Forall (fun x => 0 <= x < q * q * 2 ^ t * 2 ^ t) (v_bs d) ->
  Forall (fun x => 0 <= x < q * 2 ^ t * q) (v_alphas d) -> Forall (fun x => 0 <= x < q * 2 ^ t * q) (v_gammas d) ->
  Forall (fun x => 0 <= x < q) ms -> v_messages w = ms -> values_in_bounds C b (masked_values c d (opposite w)) = Ok true.
Proof.
  intros Hc D V B1 B2 B3 B4 B5 Hms Em. pose proof (order_gt1 C L) as Hq. unfold values_in_bounds. rewrite !lshift_ok by lia. cbn [bind]. f_equal.
  set (U := 2 ^ t) in *. assert (P : 2 ^ chal <= U) by (apply Z.pow_le_mono_r; lia). assert (T0 : 0 < U) by (apply Z.pow_pos_nonneg; lia).
  assert (E1 : 2 ^ (t + 1) = 2 * U). { unfold U. rewrite Z.pow_add_r by lia. ring. }
  assert (E2 : 2 ^ (2 * chal + 2 * sec + 1) = 2 * U * U). { unfold U. replace (2 * chal + 2 * sec + 1) with (t + t + 1) by lia. rewrite !(Z.pow_add_r 2) by lia. ring. }
  rewrite E1, E2.
  assert (cx : forall x X, 0 <= x < X -> 0 <= c * x <= U * X). { clear - Hc P T0. intros x X Hx. split; [apply Z.mul_nonneg_nonneg; lia|apply Z.mul_le_mono_nonneg; lia]. }
  assert (LOW : forall dl wl X Y, Forall (fun x => 0 <= x < X) dl -> nonneg wl -> X <= Y -> Forall (fun x => x < Y) (map2 (mask c) dl (map Z.opp wl))).
  { intros dl wl X Y Hd Hw HX. eapply (map2_bound (mask c) _ (fun x => x <= 0)); [|exact Hd|].
    - cbn beta. intros x z Hx Hz. unfold mask. assert (0 <= c * - z) by (apply Z.mul_nonneg_nonneg; lia). lia.
    - apply Forall_forall. intros x Hx. apply in_map_iff in Hx. destruct Hx as (z & <- & Hz). unfold nonneg in Hw. rewrite Forall_forall in Hw. specialize (Hw z Hz). lia. }
  assert (X1 : q * U <= 2 * U * q) by (clear - Hq T0; nia). assert (X2 : q * U * q <= 2 * U * q * q) by (clear - Hq T0; nia). assert (X3 : q * q * U * U <= 2 * U * U * q * q) by (clear - Hq T0; nia).
  destruct V. cbn [masked_values opposite v_messages v_as v_bs v_alphas v_gammas]. rewrite !andb_true_iff. repeat split; apply forallb_ltb.
  - rewrite Em. eapply (map2_bound (mask c) _ (fun x => 0 <= x < q)); [|exact B1|exact Hms]. cbn beta. intros x z Hx Hz. unfold mask. specialize (cx z q Hz). nia.
  - eapply LOW; [exact B2|assumption|]. lia.
  - eapply LOW; [exact B3|assumption|]. lia.
  - eapply LOW; [exact B4|assumption|]. lia.
  - eapply LOW; [exact B5|assumption|]. lia.
Qed.

Lemma opposite_accepted ms rs om or_ e : (length ms <= G)%nat -> length rs = length ms -> Forall (fun x => 0 <= x < q) ms -> nonneg rs -> 0 <= om -> 0 <= or_ ->
  let m := length ms in
  Forall (rnd_ok n) (enc_rand C b n e m) -> Forall (rnd_ok n) (dummy_enc C b n e m) ->
  (forall rc w d c, commit_secrets C b ms rs (mask_as C e m) (mask_bs C b e m) om or_ (enc_rand C b n e m) e = Ok (rc, w) -> draw_dummies C b m e = Ok d -> 0 <= c < 2 ^ chal ->
     shaped C b m (masked_values c d (opposite w)) /\ Forall (rnd_ok n) (v_enc (masked_values c d (opposite w)))) ->
  let as_ := mask_as C e m in let ga := map2 Z.mul rs as_ in
  exists rq pf st, opposite_request flag C sha b ms rs pk (Com ms om) om (Com rs or_) or_ e = Ok (rq, pf, st) /\
    rq_num rq = m /\ parse_bignum_vector st = as_ /\
    mapM (cs_parse_ct cs) (rq_cts rq) = Ok (tab (num_cts len m) (fun i => E ((T - 1) * hr C b rk ry as_ ga (enc_rand C b n e m) i)
      (fun l => (T - 1) * hf C b k y (hidden_msgs C ms as_ (mask_bs C b e m)) as_ ga i l))) /\
    bb_verify_request flag C sha b pk rq pf (Com ms om) (Com rs or_) = Ok tt.
Proof.
  intros HmG Lr Rms Hrs Hom Hor m He Hde Hcov as_ ga. pose proof (order_gt1 C L) as Hq. pose proof oN1 as HN. pose proof (n1 n s cs W) as Hn.
  assert (Hms : nonneg ms) by (eapply Forall_impl; [|exact Rms]; cbn beta; lia).
  assert (P : 0 < 2 ^ t) by (apply Z.pow_pos_nonneg; lia). assert (Q2 : 0 < q * q * 2 ^ t) by nia.
  pose proof (mask_as_range C L e m) as Ra. pose proof (mask_bs_range C b Hlen L Hsec Hchal e m) as Rb. fold as_ in Ra.
  assert (Na : nonneg as_) by (eapply Forall_impl; [|exact Ra]; cbn beta; lia). assert (Nb : nonneg (mask_bs C b e m)) by (eapply Forall_impl; [|exact Rb]; cbn beta; lia).
  assert (La : length as_ = m) by apply tab_len. assert (Lb : length (mask_bs C b e m) = m) by apply tab_len.
  assert (Ne : nonneg (enc_rand C b n e m)) by (apply tab_mod_nonneg; lia). assert (Le : length (enc_rand C b n e m) = num_cts len m) by apply tab_len.
  assert (Q0 : 0 < q) by lia.
  destruct (secrets_ok C b n s xs Hlen rk ry k y PO m ms rs as_ (mask_bs C b e m) om or_ (enc_rand C b n e m) e eq_refl Lr La Lb Le HmG Hms Hrs Na Nb Ne Hom Hor)
    as (rc & w & Ew & Sw & Wm & Wmo & Wr & Wro & Wa & Wb & Wal & Wga & We & Fa & Fb & Fal1 & Fal2 & Fga1 & Fga2).
  pose proof (cts_ok flag C b n s xs W Hg Hk Hlen rk ry k y Hrk Hry Hk0 Hy0 Q0 keys K1 K2 m w Sw ltac:(rewrite We; exact He)) as EC.
  unfold hidden in EC. rewrite Wal, Wb, Wa, Wga, We in EC.
  unfold opposite_request. unfold draw_masks. fold m. rewrite lshift_ok by lia. cbn [bind]. rewrite draws_ok by exact Q2. cbn [bind]. change (map (fun i => generate_private_key C (e_a e i)) (seq 0 m)) with as_.
  change (tab m (fun i => e_b e i mod (q * q * 2 ^ t))) with (mask_bs C b e m). rewrite EP. cbn [bind].
  rewrite (w_n _ _ _ W), draws_ok by lia. cbn [bind]. change (tab (num_cts len m) (fun i => e_enc e i mod n)) with (enc_rand C b n e m).
  rewrite EC. cbn [bind]. rewrite (turned_cts m [] w Sw). cbn [bind].
  destruct (vec_proto _ Na) as (sb & Esb & Psb & _). rewrite Esb. cbn [bind].
  set (icts := f_cts (first [] (turned w))).
  destruct (cts_proto C b n s xs W icts) as (ctb & Ectb & Pctb & Lctb). { apply tab_Forall. intros i _. eexists. eexists. reflexivity. }
  rewrite Ectb. cbn [bind]. rewrite Ew. cbn [bind].
  destruct (turned_commits m (rc_as rc) w Sw Fa ltac:(congruence) ltac:(congruence)) as (I1 & I2 & I3 & I4 & I5 & I6 & I7). rewrite Fb in I2. rewrite Fal1 in I3. rewrite Fga1 in I4.
  rewrite I1. cbn [bind]. rewrite I2. cbn [bind]. rewrite I3. cbn [bind]. rewrite I4. cbn [bind].
  destruct (dummies_ok C b n s W Hlen PO L Hsec Hchal m e) as (d & Ed & Sd & Ed2 & B1 & B2 & B3 & B4 & B5). rewrite Ed. cbn [bind].
  set (cas := icas m w) in *. set (w' := turned w) in *.
  rewrite (composites_ok flag C b n s xs W Hg Hk Hlen rk ry k y Hrk Hry Hk0 Hy0 PO Q0 keys K1 K2 m) by (first [assumption|lia|rewrite Ed2; exact Hde]). cbn [bind].
  assert (Rng : forall l r, 0 <= com C b l r) by (intros; apply Z.mod_pos_bound; lia).
  destruct (to_bytes_of (Com ms om) (Rng _ _)) as (cmb & Ecm & Pcm). rewrite Ecm. cbn [bind]. destruct (to_bytes_of (Com rs or_) (Rng _ _)) as (crb & Ecr & Pcr). rewrite Ecr. cbn [bind].
  assert (Nca : nonneg cas). { apply tab_Forall. intros i _. apply Rng. }
  destruct (vec_proto _ Nca) as (cab & Ecab & Pcab & Lcab). rewrite Ecab. cbn [bind].
  destruct (to_bytes_of (f_bs (first cas w'))) as (cbb & Ecb & Pcb). { apply Rng. } rewrite Ecb. cbn [bind].
  destruct (to_bytes_of (f_alphas_1 (first cas w'))) as (alb & Eal & Pal). { apply Rng. } rewrite Eal. cbn [bind].
  destruct (to_bytes_of (f_gammas_1 (first cas w'))) as (gab & Ega & Pga). { apply Rng. } rewrite Ega. cbn [bind].
  destruct (first_proto C b n s xs W Hlen rk ry k y PO cas d) as (m1 & Em1). rewrite Em1. cbn [bind].
  match goal with |- context [req_challenge C sha b ?st m1] => destruct (challenge_ok C sha b Hlen Hchal st m1) as (c & Ec & Bc) end. rewrite Ec. cbn [bind].
  destruct (to_bytes_of c (proj1 Bc)) as (chb & Echb & Pchb). rewrite Echb. cbn [bind].
  destruct (Hcov rc w d c Ew Ed Bc) as [Smk Hv].
  destruct (values_proto C b m _ Smk) as (m2 & Em2 & Pm2 & Q1' & Q2' & Q3' & Q4' & Q5' & Q6' & Q7'). rewrite Em2. cbn [bind].
  eexists. eexists. eexists. split; [reflexivity|]. cbn [rq_num rq_cts rp_m2]. split; [reflexivity|]. split; [exact Psb|].
  assert (Eicts : icts = tab (num_cts len m) (fun i => E ((T - 1) * hr C b rk ry as_ ga (enc_rand C b n e m) i)
      (fun l => (T - 1) * hf C b k y (hidden_msgs C ms as_ (mask_bs C b e m)) as_ ga i l))).
  { pose proof (turned_cts m [] w Sw) as TC. fold w' icts in TC. cbn [first_of f_cts] in TC. rewrite Wm in TC. fold m in TC. unfold hidden in TC. rewrite Wal, Wb, Wa, Wga, We in TC. fold ga in TC.
    change (map2 (fun al x => al + x * q) (map2 Z.mul ms as_) (mask_bs C b e m)) with (hidden_msgs C ms as_ (mask_bs C b e m)) in TC. 
    assert (X : Ok icts = Ok (tab (num_cts len m) (fun i => E ((T - 1) * hr C b rk ry as_ ga (enc_rand C b n e m) i) (fun l => (T - 1) * hf C b k y (hidden_msgs C ms as_ (mask_bs C b e m)) as_ ga i l)))); [|congruence].
    rewrite <- TC. unfold tab. assert (Nga : nonneg ga) by (apply nonneg_map2; [intros; apply Z.mul_nonneg_nonneg; assumption|assumption..]).
    assert (Nh : nonneg (hidden_msgs C ms as_ (mask_bs C b e m))).
    { apply nonneg_map2; [|apply nonneg_map2; [intros; apply Z.mul_nonneg_nonneg; assumption|assumption..]|exact Nb]. intros a c' Ha Hc'. pose proof (Z.mul_nonneg_nonneg c' q). lia. }
    generalize (seq 0 (num_cts len m)) as js. induction js as [|j js IH]; [reflexivity|]. cbn [map mapM]. rewrite enc_inverse by (first [apply hr_nonneg; assumption|intros l; apply hf_nonneg; assumption]). cbn [bind]. rewrite IH. reflexivity. }
  split; [rewrite <- Eicts; exact Pctb|].
  assert (Lctb' : length ctb = num_cts len m). { rewrite Lctb. rewrite Eicts. apply tab_len. }
  assert (Lca : length cas = m) by apply tab_len.
  assert (Lcab' : length cab = m) by congruence.
  unfold bb_verify_request. cbn [rq_num rq_cts rp_m2 rp_as rp_bs rp_alphas rp_gammas rp_challenge].
  destruct (Nat.ltb_spec G m) as [|_]; [unfold m in *; lia|]. rewrite Lcab', Q1', Q2', Q3', Q4', Q5', Q6', Q7', Lctb', !Nat.eqb_refl. cbn [negb].
  destruct (Nat.eqb_spec len 0) as [|_]; [lia|]. rewrite Ecm, Ecr. cbn [bind]. rewrite Pctb. cbn [bind]. rewrite Pm2.
  rewrite (in_bounds_opposite m c d w ms Bc Sd Sw B1 B2 B3 B4 B5 Rms Wm). cbn [bind negb].
  rewrite Pcab, Pcb, Pal, Pga, Pchb.
  rewrite (masked_composites_ok flag C b n s xs W Hg Hk Hlen rk ry k y Hrk Hry Hk0 Hy0 PO Q0 keys K1 K2 pk m) by (first [assumption|lia]). cbn [bind].
  rewrite <- (first_turned m c cas d w (proj1 Bc) Sd Sw Smk). fold w'.
  assert (Sw' : shaped C b m w') by (apply shaped_turned; exact Sw).
  assert (Fcm : f_messages (first cas w') = Com ms om) by (cbn [first_of f_messages w' turned v_messages v_messages_open]; unfold w'; cbn [turned v_messages v_messages_open]; rewrite Wm, Wmo; reflexivity).
  assert (Fcr : f_rs (first cas w') = Com rs or_) by (unfold w'; cbn [first_of f_rs turned v_rs v_rs_open]; rewrite Wr, Wro; reflexivity).
  assert (Fct : f_cts (first cas w') = icts) by reflexivity.
  pose proof (unmask_all_ok C b n s xs W Hg Hk Hlen rk ry k y Hrk Hry Hk0 Hy0 PO UN Q0) as UA.
  specialize (UA m c cas d w' (proj1 Bc) Sd Sw' HmG I5 I6 I7). rewrite Fcm, Fcr, Fct in UA. rewrite UA. cbn [bind].
  rewrite Em1. cbn [bind]. rewrite Ec. cbn [bind]. rewrite Z.eqb_refl. reflexivity.
Qed.
End Opp.
