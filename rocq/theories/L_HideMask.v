(** The distribution of the ciphertexts of an honest request. *)
From Coq Require Import Znumtheory.
From Verif Require Import Base M_BigNum L_BigNum M_Num L_Mod L_Num L_NT M_DJ L_DJ M_Paillier L_Paillier L_PaillierKey M_EC L_EC L_Cipher M_Proto M_CS S_CS L_CS
  M_Simul M_Pedersen M_Wire M_VRF M_BB L_BBct L_BBhom L_BBped L_BBreq S_Exp S_Pedersen L_Exp L_Protocol L_Pedersen L_VRF S_Hide L_Hide S_HideMask L_HideKey L_HideMix.

Lemma part_drawn A B ds : drawn (A ++ B) ds -> exists a d, ds = a ++ d /\ drawn A a /\ drawn B d.
Proof.
  revert ds. induction A as [|b A IH]; intros ds H; [exists [], ds; repeat split; [constructor|exact H]|]. cbn [app] in H. inversion H as [|b0 d0 l0 l1 H1 H2]. subst.
  destruct (IH _ H2) as (a & d & -> & Ha & Hd). exists (d0 :: a), d. split; [reflexivity|]. split; [constructor; assumption|exact Hd].
Qed.
Lemma part_0 m a d : length a = m -> part 0 m (a ++ d) = a.
Proof. intros <-. pose proof (part_mid [] a d) as H. exact H. Qed.
Lemma part_nth s l ds i : (i < l)%nat -> nth i (part s l ds) 0 = nth (s + i) ds 0.
Proof. intros H. unfold part. rewrite seq_map_nth. destruct (Nat.ltb_spec i l); [reflexivity|lia]. Qed.
Lemma drawn_repeat B l ds i : drawn (repeat B l) ds -> (i < l)%nat -> 0 <= nth i ds 0 < B.
Proof. intros H Hi. pose proof (part_range [] B l [] ds) as Q. cbn [app length] in Q. rewrite app_nil_r in Q. exact (Q H i Hi). Qed.
Lemma renames_nth ss ds i : (i < length ss)%nat -> (i < length ds)%nat -> nth i (renames ss ds) 0 = nth i ss (fun x => x) (nth i ds 0).
Proof.
  revert ds i. induction ss as [|s ss IH]; intros [|d ds] i H1 H2; cbn [length] in *; try lia. destruct i as [|i]; cbn [renames nth]; [reflexivity|]. apply IH; lia.
Qed.
Lemma Forall_repeat {A} (P : A -> Prop) x k : P x -> Forall P (repeat x k).
Proof. intros H. apply Forall_forall. intros y Hy. apply repeat_spec in Hy. subst. exact H. Qed.

Section Mask.
Variable flag : bool.
Variable C : ec.
Variable sha : bytes -> bytes.
Variable b : bb C.
Variables (n : Z) (s : nat) (xs : list Z).
Notation cs := (bb_cs C b).
Hypothesis W : cs_valid n s cs.
Hypothesis Hg : Z.gcd (cs_g cs) n = 1.
Hypothesis Hk : key_match n s (cs_g cs) xs (cs_ys cs).
Notation len := (cs_len cs).
Notation E := (enc n s cs xs).
Hypothesis Hlen : (0 < len)%nat.
Variables (rk ry : nat -> Z) (k y : Z).
Hypothesis Hrk : forall j, 0 <= rk j.
Hypothesis Hry : forall j, 0 <= ry j.
Notation q := (ec_order C).
Hypothesis Rk : 0 <= k < q.
Hypothesis Ry : 0 <= y < q.
Notation ped := (bb_ped C b).
Notation pp := (pd_par ped).
Notation G := (length (pp_gs pp)).
Hypothesis PO : ped_ok ped.
Hypothesis UN : units pp.
Hypothesis L : ec_laws C.
Notation sec := (bp_sec (bb_par C b)).
Notation chal := (bp_chal (bb_par C b)).
Notation t := (chal + sec).
Hypothesis Hsec : 0 < sec.
Hypothesis Hchal : 0 < chal <= 120000.
Variable pk : bb_public.
Variable keys : list (cs_ciphertext * cs_ciphertext).
Hypothesis EP : parse_public C b pk = Ok keys.
Hypothesis K1 : map fst keys = key_cts C b n s xs rk k.
Hypothesis K2 : map snd keys = key_cts C b n s xs ry y.
Notation M := (n ^ (Z.of_nat s + 1)).
Notation g := (cs_g cs).
(** The order of g. *)
Variable ord : Z.
Hypothesis Hord : 0 < ord.
Hypothesis Ho : g ^ ord mod M = 1.

Lemma pow_ord r : 0 <= r -> eqmod M (g ^ r) (g ^ (r mod ord)).
Proof.
  intros Hr. pose proof (M1 n s cs W) as HM. rewrite (Z.div_mod r ord) at 1 by lia. pose proof (Z.mod_pos_bound r ord Hord). pose proof (Z.div_pos r ord Hr Hord).
  rewrite (Z.pow_add_r g (ord * (r / ord))), (Z.pow_mul_r g ord) by (try lia; apply Z.mul_nonneg_nonneg; lia).
  assert (O1 : eqmod M (g ^ ord) 1) by (apply eq_eqmod; rewrite Ho, Z.mod_1_l by lia; reflexivity).
  rewrite (eqmod_pow M _ _ (r / ord) O1), Z.pow_1_l, Z.mul_1_l by lia. reflexivity.
Qed.
Lemma enc_ord r f : 0 <= r -> E r f = E (r mod ord) f.
Proof.
  intros Hr. pose proof (M1 n s cs W) as HM. pose proof (Z.mod_pos_bound r ord Hord). unfold enc. f_equal; [apply eqmod_eq; [lia|apply pow_ord; exact Hr]|].
  apply tab_ext. intros l _. unfold enc_e. apply eqmod_eq; [lia|]. apply eqmod_mul; [|reflexivity]. apply eqmod_pow. apply pow_ord. exact Hr.
Qed.

(** ** The request as a function of blinded values and randomness *)
Definition blinded_cts (m : nat) (vals : list Z) (r : nat -> Z) : list cs_ciphertext := tab (num_cts len m) (fun i => E (r i) (fun l => nth (i * len + l) vals 0)).
Definition rq_from (m : nat) (cts : list cs_ciphertext) : outcome bb_request := let* c := mapM cs_ct_to_proto cts in Ok {| rq_num := m; rq_cts := c |}.
(** a: the multipliers minus 1, d: the offsets, r: the randomness. *)
Definition rq_blind (m : nat) (a d r : list Z) : outcome bb_request :=
  rq_from m (blinded_cts m (tab m (fun j => 1 + nth j a 0 + q * nth j d 0)) (fun i => nth i r 0 mod ord)).

Lemma rq_blind_period m a d r : rq_blind m a d r = rq_blind m a d (every_period ord r).
Proof.
  unfold rq_blind, rq_from, blinded_cts. do 2 f_equal. apply tab_ext. intros i _. f_equal. unfold every_period.
  assert (X : nth i (map (fun x => x mod ord) r) 0 = nth i r 0 mod ord). { pose proof (map_nth (fun x => x mod ord) r 0 i) as Q. cbn beta in Q. rewrite Z.mod_0_l in Q by lia. exact Q. }
  rewrite X. symmetry. apply Z.mod_mod. lia.
Qed.

(** The request that an honest client sends. *)
Lemma request_rq ms rs om or_ e : (length ms <= G)%nat -> length rs = length ms -> nonneg ms -> nonneg rs -> 0 <= om -> 0 <= or_ ->
  Forall (rnd_ok n) (enc_rand C b n e (length ms)) -> Forall (rnd_ok n) (dummy_enc C b n e (length ms)) ->
  request_of (bb_request_and_proof flag C sha b ms rs pk (com C b ms om) om (com C b rs or_) or_ e) = rq_from (length ms) (request_cts C b n s xs rk ry k y ms rs e).
Proof.
  intros HmG Lr Hms Hrs Hom Hor He Hde. set (m := length ms). assert (Hk0 : 0 <= k) by lia. assert (Hy0 : 0 <= y) by lia.
  destruct (honest_request flag C sha b n s xs W Hg Hk Hlen rk ry k y Hrk Hry Hk0 Hy0 PO UN L Hsec Hchal pk keys EP K1 K2 ms rs om or_ e HmG Lr Hms Hrs Hom Hor He Hde) as (rq & pf & st & EQ & _).
  rewrite EQ. cbn [request_of bind fst].
  pose proof (order_gt1 C L) as Hq. pose proof (n1 n s cs W) as Hn.
  assert (P : 0 < 2 ^ t) by (apply Z.pow_pos_nonneg; lia). assert (Q2 : 0 < q * q * 2 ^ t) by nia.
  pose proof (mask_as_range C L e m) as Ra. pose proof (mask_bs_range C b Hlen L Hsec Hchal e m) as Rb.
  assert (Na : nonneg (mask_as C e m)) by (eapply Forall_impl; [|exact Ra]; cbn beta; lia). assert (Nb : nonneg (mask_bs C b e m)) by (eapply Forall_impl; [|exact Rb]; cbn beta; lia).
  assert (La : length (mask_as C e m) = m) by apply tab_len. assert (Lb : length (mask_bs C b e m) = m) by apply tab_len.
  assert (Le : length (enc_rand C b n e m) = num_cts len m) by apply tab_len.
  assert (Ng : nonneg (map2 Z.mul rs (mask_as C e m))) by (apply nonneg_map2; [intros; apply Z.mul_nonneg_nonneg; assumption|assumption..]).
  assert (Lg : length (map2 Z.mul rs (mask_as C e m)) = m) by (rewrite map2_len; lia).
  assert (Nh : nonneg (hidden_msgs C ms (mask_as C e m) (mask_bs C b e m))).
  { apply nonneg_map2; [|apply nonneg_map2; [intros; apply Z.mul_nonneg_nonneg; assumption|assumption..]|exact Nb]. intros a c Ha Hc. pose proof (Z.mul_nonneg_nonneg c q). lia. }
  assert (Lh : length (hidden_msgs C ms (mask_as C e m) (mask_bs C b e m)) = m) by (unfold hidden_msgs; rewrite !map2_len; rewrite ?map2_len; fold m; lia).
  unfold bb_request_and_proof in EQ. fold m in EQ. destruct (Nat.ltb_spec G m) as [|_]; [unfold m in *; lia|]. rewrite Lr in EQ. fold m in EQ. rewrite Nat.eqb_refl in EQ. cbn [negb] in EQ.
  unfold draw_masks in EQ. fold m in EQ. rewrite lshift_ok in EQ by lia. cbn [bind] in EQ. rewrite draws_ok in EQ by exact Q2. cbn [bind] in EQ. change (map (fun i => generate_private_key C (e_a e i)) (seq 0 m)) with (mask_as C e m) in EQ.
  change (tab m (fun i => e_b e i mod (q * q * 2 ^ t))) with (mask_bs C b e m) in EQ. rewrite EP in EQ. cbn [bind] in EQ. destruct (Nat.eqb_spec len 0) as [|_]; [lia|].
  rewrite (w_n _ _ _ W), draws_ok in EQ by lia. cbn [bind] in EQ. change (tab (num_cts len m) (fun i => e_enc e i mod n)) with (enc_rand C b n e m) in EQ.
  change (map2 (fun al x => al + x * q) (map2 Z.mul ms (mask_as C e m)) (mask_bs C b e m)) with (hidden_msgs C ms (mask_as C e m) (mask_bs C b e m)) in EQ.
  rewrite K1, K2 in EQ.
  rewrite (homomorphic_ok flag C b n s xs W Hg Hk Hlen rk ry k y Hrk Hry Hk0 Hy0) in EQ by (first [congruence|assumption]). cbn [bind] in EQ. rewrite Lh in EQ.
  change (tab (num_cts len m) _) with (request_cts C b n s xs rk ry k y ms rs e) in EQ.
  apply bind_ok in EQ. destruct EQ as (st0 & _ & EQ). apply bind_ok in EQ. destruct EQ as (ctb & Ectb & EQ). apply bind_ok in EQ. destruct EQ as ([rc w] & _ & EQ).
  repeat (apply bind_ok in EQ; destruct EQ as (? & _ & EQ)). unfold rq_from. rewrite Ectb. cbn [bind]. congruence.
Qed.

Section Msgs.
Variables ms rs : list Z.
Notation m := (length ms).
Notation K := (num_cts len m).
Hypothesis HmG : (m <= G)%nat.
Hypothesis Lr : length rs = m.
Hypothesis Hms : Forall (fun x => 0 <= x < q) ms.
Hypothesis Hrs : Forall (fun x => 0 <= x < q) rs.
Definition vv (j : nat) : Z := nth j ms 0 + k + y * nth j rs 0.
Hypothesis Hv : forall j, (j < m)%nat -> vv j mod q <> 0.

Lemma q_gt : 1 < q. Proof. apply (order_gt1 C L). Qed.
Lemma vv_range j : 0 <= vv j < q * q.
Proof.
  pose proof q_gt as Hq. assert (A : forall l, Forall (fun x => 0 <= x < q) l -> 0 <= nth j l 0 < q).
  { intros l Hl. destruct (nth_in_or_default j l 0) as [H1| ->]; [|lia]. rewrite Forall_forall in Hl. exact (Hl _ H1). }
  pose proof (A ms Hms) as A1. pose proof (A rs Hrs) as A2. unfold vv. pose proof (Z.mul_nonneg_nonneg y (nth j rs 0) ltac:(lia) ltac:(lia)).
  assert (y * nth j rs 0 <= (q - 1) * (q - 1)) by (apply Z.mul_le_mono_nonneg; lia). lia.
Qed.

Definition sa (j : nat) (d : Z) : Z := ((d + 1) * vv j) mod q - 1.
Lemma sa_bij j : (j < m)%nat -> bijects (q - 1) (sa j).
Proof.
  intros Hj. pose proof q_gt as Hq. pose proof (order_prime C L) as Pq.
  assert (NV : ~ (q | vv j)). { intros D. apply (Hv j Hj). apply Z.mod_divide; [lia|exact D]. }
  assert (Gv : Z.gcd (vv j) q = 1). { apply Zgcd_1_rel_prime, rel_prime_sym, prime_rel_prime; assumption. }
  assert (U : forall d, 0 <= d < q - 1 -> ((d + 1) * vv j) mod q <> 0).
  { intros d Hd E0. apply Z.mod_divide in E0; [|lia]. apply prime_mult in E0; [|exact Pq]. destruct E0 as [E0|E0]; [apply Z.divide_pos_le in E0; lia|contradiction]. }
  split.
  - intros d Hd. unfold sa. pose proof (U d Hd). pose proof (Z.mod_pos_bound ((d + 1) * vv j) q). lia.
  - intros d e Hd He E0. unfold sa in E0. assert (E' : ((d + 1) * vv j) mod q = ((e + 1) * vv j) mod q) by lia.
    assert (Q : eqmod q (d + 1) (e + 1)). { apply (eqmod_cancel q (vv j)); [exact Gv|]. rewrite !(Z.mul_comm (vv j)). apply eq_eqmod. exact E'. }
    assert (d + 1 = e + 1); [|lia]. rewrite <- (Z.mod_small (d + 1) q), <- (Z.mod_small (e + 1) q) by lia. apply eqmod_eq; [lia|exact Q].
Qed.
Definition ssa : list (Z -> Z) := tab m sa.
Lemma ssa_nth j : (j < m)%nat -> nth j ssa (fun x => x) = sa j.
Proof. intros H. apply nth_error_nth, tab_at, H. Qed.

(** What is added to the offsets and to the randomness. *)
Definition wb (a : list Z) : list Z := tab m (fun j => (nth j a 0 + 1) * vv j / q).
Definition ga_ (a : list Z) : list Z := tab m (fun j => nth j rs 0 * (1 + nth j a 0)).
Definition aa_ (a : list Z) : list Z := tab m (fun j => 1 + nth j a 0).
Definition wr (a : list Z) : list Z := tab K (fun i => sumz len (fun j => nth (i * len + j) (aa_ a) 0 * rk j + nth (i * len + j) (ga_ a) 0 * ry j)).

Lemma wr_nonneg a : drawn (repeat (q - 1) m) a -> Forall (fun w => 0 <= w) (wr a).
Proof.
  intros Ha. apply tab_Forall. intros i _. apply sumz_nonneg. intros j _.
  assert (N1 : 0 <= nth (i * len + j) (aa_ a) 0). { unfold aa_. rewrite tab_nth. destruct (Nat.ltb_spec (i * len + j) m) as [H|]; [|lia]. pose proof (drawn_repeat _ _ _ _ Ha H). lia. }
  assert (N2 : 0 <= nth (i * len + j) (ga_ a) 0).
  { unfold ga_. rewrite tab_nth. destruct (Nat.ltb_spec (i * len + j) m) as [H|]; [|lia]. pose proof (drawn_repeat _ _ _ _ Ha H). apply Z.mul_nonneg_nonneg; [|lia].
    rewrite Forall_forall in Hrs. apply Hrs, nth_In. lia. }
  pose proof (Z.mul_nonneg_nonneg _ _ N1 (Hrk j)). pose proof (Z.mul_nonneg_nonneg _ _ N2 (Hry j)). lia.
Qed.

Definition B_a := repeat (q - 1) m.
Definition B_b := repeat (q * q * 2 ^ t) m.
Definition B_r := repeat n K.
Definition real (a d r : list Z) : outcome bb_request := rq_blind m (renames ssa a) (shift (wb a) d) (shift (wr a) r).

(** The honest request has this form. *)
Lemma request_is e a d r : drawn B_a a -> drawn B_b d -> drawn B_r r -> rq_from m (request_cts C b n s xs rk ry k y ms rs (with_masks e m (a ++ d ++ r))) = real a d r.
Proof.
  intros Ha Hd Hr. pose proof q_gt as Hq. pose proof (n1 n s cs W) as Hn. assert (T0 : 0 < 2 ^ t) by (apply Z.pow_pos_nonneg; lia).
  pose proof (drawn_len _ _ Ha) as La. pose proof (drawn_len _ _ Hd) as Ld. pose proof (drawn_len _ _ Hr) as Lr'. unfold B_a, B_b, B_r in La, Ld, Lr'. rewrite repeat_length in La, Ld, Lr'.
  assert (Na : forall j, (j < m)%nat -> nth j (a ++ d ++ r) 0 = nth j a 0) by (intros j Hj; apply app_nth1; lia).
  assert (Nb : forall j, (j < m)%nat -> nth (m + j) (a ++ d ++ r) 0 = nth j d 0).
  { intros j Hj. rewrite app_nth2 by lia. replace (m + j - length a)%nat with j by lia. apply app_nth1. lia. }
  assert (Nr : forall j, (j < K)%nat -> nth (2 * m + j) (a ++ d ++ r) 0 = nth j r 0).
  { intros j Hj. rewrite app_nth2 by lia. rewrite app_nth2 by lia. f_equal. lia. }
  assert (Ea : mask_as C (with_masks e m (a ++ d ++ r)) m = aa_ a).
  { apply tab_ext. intros j Hj. cbn [with_masks e_a]. rewrite Na by exact Hj. unfold generate_private_key. rewrite Z.mod_small by (apply (drawn_repeat _ _ _ _ Ha Hj)). reflexivity. }
  assert (Eb : mask_bs C b (with_masks e m (a ++ d ++ r)) m = tab m (fun j => nth j d 0)).
  { apply tab_ext. intros j Hj. cbn [with_masks e_b]. rewrite Nb by exact Hj. apply Z.mod_small. apply (drawn_repeat _ _ _ _ Hd Hj). }
  assert (Er : enc_rand C b n (with_masks e m (a ++ d ++ r)) m = tab K (fun j => nth j r 0)).
  { apply tab_ext. intros j Hj. cbn [with_masks e_enc]. rewrite Nr by exact Hj. apply Z.mod_small. apply (drawn_repeat _ _ _ _ Hr Hj). }
  assert (Eg : map2 Z.mul rs (aa_ a) = ga_ a).
  { apply (nth_ext _ _ 0 0); [rewrite map2_len by (unfold aa_; rewrite tab_len; exact Lr); unfold ga_; rewrite tab_len; exact Lr|]. intros j Hj. rewrite map2_len in Hj by (unfold aa_; rewrite tab_len; exact Lr).
    rewrite map2_nth by (unfold aa_; rewrite ?tab_len; lia). unfold aa_, ga_. rewrite !tab_nth. destruct (Nat.ltb_spec j m); [reflexivity|lia]. }
  unfold request_cts. cbv zeta. rewrite Ea, Eb, Er, Eg. unfold real, rq_blind, rq_from, blinded_cts. do 2 f_equal. apply tab_ext. intros i Hi.
  assert (ER : hr C b rk ry (aa_ a) (ga_ a) (tab K (fun j => nth j r 0)) i = nth i (shift (wr a) r) 0).
  { rewrite shift_nth by lia. unfold hr, wr. rewrite !tab_nth. destruct (Nat.ltb_spec i K); [reflexivity|lia]. }
  rewrite ER. rewrite enc_ord.
  2: { rewrite shift_nth by lia. pose proof (drawn_repeat _ _ _ i Hr Hi). pose proof (wr_nonneg a Ha) as N. rewrite Forall_forall in N. assert (0 <= nth i (wr a) 0); [apply N, nth_In; unfold wr; rewrite tab_len; exact Hi|lia]. }
  apply enc_ext; [reflexivity|]. intros l Hl. set (j := (i * len + l)%nat). unfold hf. fold j. unfold hidden_msgs. rewrite tab_nth. destruct (Nat.ltb_spec j m) as [Hj|Hj].
  - rewrite !map2_nth by (rewrite ?map2_len; unfold aa_; rewrite ?tab_len; lia). unfold aa_, ga_. rewrite !tab_nth. destruct (Nat.ltb_spec j m); [|lia].
    rewrite shift_nth by lia. unfold wb. rewrite tab_nth. destruct (Nat.ltb_spec j m); [|lia].
    rewrite renames_nth by (unfold ssa; rewrite ?tab_len; lia). rewrite ssa_nth by lia. unfold sa.
    pose proof (Z.div_mod ((nth j a 0 + 1) * vv j) q ltac:(lia)) as DM. set (dv := (nth j a 0 + 1) * vv j / q) in *. set (mo := ((nth j a 0 + 1) * vv j) mod q) in *.
    replace (1 + (mo - 1) + q * (nth j d 0 + dv)) with (q * nth j d 0 + (q * dv + mo)) by ring. rewrite <- DM. unfold vv. ring.
  - rewrite (nth_overflow (map2 _ _ _)) by (rewrite !map2_len; rewrite ?map2_len; unfold aa_; rewrite ?tab_len; lia).
    rewrite (nth_overflow (aa_ a)), (nth_overflow (ga_ a)) by (unfold aa_, ga_; rewrite tab_len; lia). lia.
Qed.

(** ** Distances *)
Variable u : Z.
Hypothesis Hper : nearly_periods t u ord n.
Lemma nonneg_Ba : Forall (fun b => 0 <= b) B_a. Proof. pose proof q_gt. apply Forall_repeat. lia. Qed.
Lemma nonneg_Bb : Forall (fun b => 0 <= b) B_b. Proof. pose proof q_gt. apply Forall_repeat. assert (0 < 2 ^ t) by (apply Z.pow_pos_nonneg; lia). nia. Qed.
Lemma nonneg_Br : Forall (fun b => 0 <= b) B_r. Proof. pose proof (n1 n s cs W). apply Forall_repeat. lia. Qed.
Definition on (F : list Z -> list Z -> list Z -> outcome bb_request) (ds : list Z) : outcome bb_request := F (part 0 m ds) (part m m ds) (part (2 * m) K ds).
Lemma on_app F a d r : length a = m -> length d = m -> length r = K -> on F (a ++ d ++ r) = F a d r.
Proof.
  intros La Ld Lr'. unfold on. rewrite (part_0 m a) by exact La. f_equal.
  - rewrite <- La at 1. rewrite <- Ld at 1. apply part_mid.
  - rewrite app_assoc. replace (2 * m)%nat with (length (a ++ d)) by (rewrite app_length; lia). rewrite <- Lr'. rewrite <- (app_nil_r r) at 2. apply part_mid.
Qed.

Lemma offsets_close F a : drawn B_a a -> within_distance (Z.of_nat m) t (B_b ++ B_r) (fun ds => on F (renames ssa a ++ shift (wb a) (part 0 m ds) ++ shift (wr a) (part m K ds)))
   (fun ds => on F (renames ssa a ++ part 0 m ds ++ shift (wr a) (part m K ds))).
Proof.
  intros Ha. pose proof q_gt as Hq. pose proof (n1 n s cs W) as Hn. assert (T0 : 0 < 2 ^ t) by (apply Z.pow_pos_nonneg; lia).
  set (H := fun ds => on F (renames ssa a ++ part 0 m ds ++ shift (wr a) (part m K ds))).
  set (wus := map (fun w => (w, 1)) (wb a) ++ repeat (0, 0) K).
  assert (S1 : Forall2 (small_shift t) (B_b ++ B_r) wus).
  { apply Forall2_app.
    - unfold B_b, wb. assert (X : forall l, (forall x, In x l -> 0 <= x <= q * q) -> Forall2 (small_shift t) (repeat (q * q * 2 ^ t) (length l)) (map (fun w => (w, 1)) l)).
      { induction l as [|x l IH]; intros Hl; [constructor|]. cbn [length repeat map]. constructor; [|apply IH; intros; apply Hl; right; assumption]. specialize (Hl x (or_introl eq_refl)).
        unfold small_shift. cbn [fst snd]. split; [lia|]. split; [lia|]. split; [rewrite Z.mul_1_l; apply Z.mul_le_mono_nonneg_r; lia|apply Z.mul_nonneg_nonneg; [apply Z.mul_nonneg_nonneg|]; lia]. }
      replace m with (length (tab m (fun j => (nth j a 0 + 1) * vv j / q))) at 1 by apply tab_len. apply X. intros x Hx. apply in_map_iff in Hx. destruct Hx as (j & <- & Hj). apply in_seq in Hj.
      pose proof (drawn_repeat _ _ _ j Ha ltac:(lia)) as Rj. pose proof (vv_range j) as Rv. split; [apply Z.div_pos; [apply Z.mul_nonneg_nonneg; lia|lia]|].
      apply Z.div_le_upper_bound; [lia|]. apply Z.mul_le_mono_nonneg; lia.
    - unfold B_r. clear - Hn. induction K as [|k0 IH]; [constructor|]. cbn [repeat]. constructor; [|exact IH]. unfold small_shift. cbn [fst snd]. repeat split; lia. }
  pose proof (shift_close t (B_b ++ B_r) wus H ltac:(lia) S1) as D.
  assert (Z1 : zsum_list (map snd wus) = Z.of_nat m).
  { unfold wus. rewrite map_app, map_map. cbn [snd]. assert (X : forall (l : list Z) r, zsum_list (map (fun _ => 1) l ++ map snd (repeat (0, 0) r)) = Z.of_nat (length l)).
    { clear. induction l as [|x l IH]; intros r; [cbn [map app length]; induction r as [|r IH]; [reflexivity|cbn [repeat map snd zsum_list fold_right]; exact IH]|]. cbn [map app zsum_list fold_right length]. fold (zsum_list (map (fun _ => 1) l ++ map snd (repeat (0, 0) r))). rewrite IH. lia. }
    rewrite X. unfold wb. rewrite tab_len. reflexivity. }
  rewrite Z1 in D. eapply distance_ext; [| |exact D]; [|intros; reflexivity].
  intros ds Ld Dd. destruct (part_drawn _ _ _ Dd) as (d & r & -> & Hd & Hr). pose proof (drawn_len _ _ Hd) as L1. pose proof (drawn_len _ _ Hr) as L2. unfold B_b, B_r in L1, L2. rewrite repeat_length in L1, L2.
  assert (Lw : length (wb a) = m) by apply tab_len.
  replace (map fst wus) with (wb a ++ repeat 0 K). 2: { unfold wus. rewrite map_app, map_map. cbn [fst]. rewrite map_id. f_equal. clear. induction K as [|k0 IH]; [reflexivity|]. cbn [repeat map fst]. rewrite <- IH. reflexivity. }
  rewrite shift_app by lia. rewrite shift_zeros. unfold H.
  rewrite (part_0 m (shift (wb a) d)) by (rewrite shift_len; exact L1). rewrite (part_0 m d) by exact L1. f_equal. f_equal. f_equal. f_equal.
  rewrite <- (app_nil_r r). replace m with (length (shift (wb a) d)) at 1 by (rewrite shift_len; exact L1). rewrite <- L2 at 1. rewrite (part_mid (shift (wb a) d) r []). symmetry. rewrite <- L1 at 1. rewrite <- L2 at 1. apply part_mid.
Qed.
Lemma randomness_close a : drawn B_a a ->
  within_distance (Z.of_nat K * u) t (B_b ++ B_r) (fun ds => on (rq_blind m) (renames ssa a ++ part 0 m ds ++ shift (wr a) (part m K ds))) (fun ds => on (rq_blind m) (renames ssa a ++ ds)).
Proof.
  intros Ha. pose proof (drawn_len _ _ Ha) as La. unfold B_a in La. rewrite repeat_length in La. apply distance_inner; [exact nonneg_Bb|]. intros d Hd. pose proof (drawn_len _ _ Hd) as Ld. unfold B_b in Ld. rewrite repeat_length in Ld.
  assert (L1 : length (renames ssa a) = m) by (rewrite renames_len; exact La).
  pose proof (periodic_close t u ord n K (wr a) (fun r => rq_blind m (renames ssa a) d r) ltac:(lia) Hper (tab_len _ _) (wr_nonneg a Ha) (rq_blind_period m _ d)) as D.
  eapply distance_ext; [| |exact D].
  - intros r Lr' Dr. try unfold B_r in Lr'. rewrite repeat_length in Lr'. rewrite (part_0 m d) by exact Ld. assert (X : part m K (d ++ r) = r). { rewrite <- (app_nil_r r) at 1. rewrite <- Ld at 1. rewrite <- Lr' at 1. apply part_mid. }
    rewrite X. symmetry. apply on_app; [exact L1|exact Ld|rewrite shift_len; exact Lr'].
  - intros r Lr' Dr. try unfold B_r in Lr'. rewrite repeat_length in Lr'. symmetry. apply on_app; assumption.
Qed.
Lemma masks_close : within_distance (Z.of_nat m + Z.of_nat K * u) t (B_a ++ B_b ++ B_r) (on real) (on (rq_blind m)).
Proof.
  assert (D1 : within_distance (Z.of_nat m + Z.of_nat K * u) t (B_a ++ B_b ++ B_r) (on real) (fun ds => on (rq_blind m) (renames ssa ds))).
  { apply distance_inner; [exact nonneg_Ba|]. intros a Ha. pose proof (drawn_len _ _ Ha) as La. unfold B_a in La. rewrite repeat_length in La.
    eapply distance_trans; [|].
    - eapply distance_ext; [| |exact (offsets_close (rq_blind m) a Ha)]; [|intros ds _ _; reflexivity].
      intros ds Lds Dd. destruct (part_drawn _ _ _ Dd) as (d & r & -> & Hd & Hr). pose proof (drawn_len _ _ Hd) as L1. pose proof (drawn_len _ _ Hr) as L2. unfold B_b, B_r in L1, L2. rewrite repeat_length in L1, L2.
      rewrite (on_app real a d r La L1 L2). rewrite (part_0 m d) by exact L1.
      assert (X : part m K (d ++ r) = r). { rewrite <- (app_nil_r r) at 1. rewrite <- L1 at 1. rewrite <- L2 at 1. apply part_mid. } rewrite X.
      rewrite on_app by (rewrite ?renames_len, ?shift_len; assumption). reflexivity.
    - eapply distance_ext; [| |exact (randomness_close a Ha)]; [intros ds _ _; reflexivity|].
      intros ds _ _. cbn beta. rewrite renames_app by (unfold ssa; rewrite tab_len; lia). reflexivity. }
  assert (BJ : Forall2 bijects B_a ssa).
  { unfold B_a, ssa. assert (X : forall l, (forall j, In j l -> (j < m)%nat) -> Forall2 bijects (repeat (q - 1) (length l)) (map sa l)).
  { induction l as [|j l IH]; intros Hl; [constructor|]. cbn [length repeat map]. constructor; [apply sa_bij, Hl; left; reflexivity|apply IH; intros; apply Hl; right; assumption]. }
  specialize (X (seq 0 m) ltac:(intros j Hj; apply in_seq in Hj; lia)). rewrite seq_length in X. exact X. }
  intros test. specialize (D1 test). pose proof (count_renames B_a (B_b ++ B_r) ssa (fun ds => test (on (rq_blind m) ds)) BJ) as Q. cbn beta in Q. cbv beta in D1. rewrite <- Q. exact D1.
Qed.

(** The random request of the specification. *)
Lemma random_request_is ds : drawn (B_a ++ B_b ++ B_r) ds -> random_request n s g (cs_ys cs) q m K ds = on (rq_blind m) ds.
Proof.
  intros Dd. destruct (part_drawn _ _ _ Dd) as (a & dr & -> & Ha & Hdr). destruct (part_drawn _ _ _ Hdr) as (d & r & -> & Hd & Hr). pose proof (M1 n s cs W) as HM.
  pose proof (drawn_len _ _ Ha) as La. pose proof (drawn_len _ _ Hd) as Ld. pose proof (drawn_len _ _ Hr) as Lr'. unfold B_a, B_b, B_r in La, Ld, Lr'. rewrite repeat_length in La, Ld, Lr'.
  rewrite (on_app _ a d r La Ld Lr'). unfold random_request, rq_blind, rq_from, blinded_cts. change (length (cs_ys cs)) with len. do 2 f_equal. apply tab_ext. intros i Hi.
  assert (Nr : nth (2 * m + i) (a ++ d ++ r) 0 = nth i r 0). { rewrite app_nth2 by lia. rewrite app_nth2 by lia. f_equal. lia. }
  pose proof (drawn_repeat _ _ _ i Hr Hi) as R0. rewrite <- enc_ord by lia. unfold enc. rewrite Nr. f_equal. apply tab_ext. intros l Hl. unfold enc_e. apply eqmod_eq; [lia|].
  assert (Ev : random_values q m (a ++ d ++ r) = tab m (fun j => 1 + nth j a 0 + q * nth j d 0)).
  { apply tab_ext. intros j Hj. rewrite app_nth1 by lia. f_equal. f_equal. rewrite app_nth2 by lia. rewrite app_nth1 by lia. f_equal. lia. }
  rewrite Ev. apply eqmod_mul; [|reflexivity].
  assert (Ey : 0 <= nth l xs 0 /\ nth l (cs_ys cs) 0 = g ^ nth l xs 0 mod M).
  { assert (Hl' : (l < length (cs_ys cs))%nat) by exact Hl. clear - Hk Hl'. revert l Hl'. induction Hk as [|x z xs' ys' [H1 H2] H IH]; intros l Hl'; cbn [length] in Hl'; [lia|]. destruct l as [|l]; cbn [nth]; [split; assumption|]. apply IH; [exact H|lia]. }
  destruct Ey as [Nx Ey]. rewrite Ey, (eqmod_pow M _ _ _ (eqmod_mod M (g ^ nth l xs 0))), <- !Z.pow_mul_r by lia. rewrite (Z.mul_comm (nth l xs 0)). reflexivity.
Qed.
Theorem request_masks om or_ e : 0 <= om -> 0 <= or_ -> Forall (rnd_ok n) (dummy_enc C b n e m) ->
  within_distance_but (Z.of_nat m + Z.of_nat K * u) t (mask_bounds C b m K) (unusable_mask n m K)
    (fun ds => request_of (bb_request_and_proof flag C sha b ms rs pk (com C b ms om) om (com C b rs or_) or_ (with_masks e m ds)))
    (fun ds => random_request n s g (cs_ys cs) q m K ds).
Proof.
  intros Hom Hor Hde. assert (EB : mask_bounds C b m K = B_a ++ B_b ++ B_r) by (unfold mask_bounds, B_a, B_b, B_r; rewrite (w_n _ _ _ W); reflexivity). rewrite EB.
  assert (nnl : forall l, Forall (fun x => 0 <= x < q) l -> nonneg l) by (intros l H; eapply Forall_impl; [|exact H]; cbn beta; lia).
  apply (distance_but _ _ _ _ _ (on real)); [lia| |].
  - intros ds Lds Dd Hb. destruct (part_drawn _ _ _ Dd) as (a & dr & -> & Ha & Hdr). destruct (part_drawn _ _ _ Hdr) as (d & r & -> & Hd & Hr).
    pose proof (drawn_len _ _ Ha) as La. pose proof (drawn_len _ _ Hd) as Ld. pose proof (drawn_len _ _ Hr) as Lr'. unfold B_a, B_b, B_r in La, Ld, Lr'. rewrite repeat_length in La, Ld, Lr'.
    rewrite request_rq; [|exact HmG|exact Lr|apply nnl; exact Hms|apply nnl; exact Hrs|exact Hom|exact Hor| |exact Hde].
    + rewrite (on_app real a d r La Ld Lr'). apply request_is; assumption.
    + apply tab_Forall. intros i Hi. cbn [with_masks e_enc]. unfold unusable_mask in Hb. apply negb_false_iff in Hb. rewrite forallb_forall in Hb.
      specialize (Hb (nth (2 * m + i) (a ++ d ++ r) 0) ltac:(apply in_map_iff; exists i; split; [reflexivity|apply in_seq; lia])).
      assert (Nr : nth (2 * m + i) (a ++ d ++ r) 0 = nth i r 0). { rewrite app_nth2 by lia. rewrite app_nth2 by lia. f_equal. lia. }
      rewrite Nr in *. pose proof (drawn_repeat _ _ _ i Hr Hi) as R0. rewrite Z.mod_small by exact R0. split; [lia|]. apply orb_true_iff in Hb. lia.
  - eapply distance_ext; [| |exact masks_close]; [intros; reflexivity|]. intros ds _ Dd. symmetry. apply random_request_is. exact Dd.
Qed.
End Msgs.
End Mask.
