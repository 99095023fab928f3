(** Lemmas on the verifiable random function. *)
From Coq Require Import Znumtheory Zpow_facts.
From Verif Require Import Base M_BigNum M_Num M_Simul M_EC M_Proto M_Pedersen M_Wire M_VRF S_Exp S_Pedersen S_VRF
  L_BigNum L_Num L_Mod L_DJ L_Exp L_CS L_EC L_PaillierKey L_Protocol L_Cipher L_Wire L_Pedersen.

Lemma ro_pow2 sha b k : 0 < k <= 120000 -> exists c, random_oracle 512 sha b (2 ^ k) = Ok c /\ 0 <= c < 2 ^ k.
Proof.
  intros Hk. assert (P2 : 0 < 2 ^ k) by (apply Z.pow_pos_nonneg; lia). destruct (random_oracle_total 512 sha b (2 ^ k) ltac:(lia) P2) as [T _]. apply T.
  unfold bit_length. rewrite Z.abs_eq by lia. destruct (Z.eqb_spec (2 ^ k) 0); [lia|]. rewrite Z.log2_pow2 by lia.
  unfold ro_iterations. Z.to_euclidean_division_equations. lia.
Qed.
Lemma ro_pow2_range sha b k c : 0 < k -> random_oracle 512 sha b (2 ^ k) = Ok c -> 0 <= c < 2 ^ k.
Proof. intros Hk. apply random_oracle_range; [lia|apply Z.pow_pos_nonneg; lia]. Qed.

(** ** Commitments as group elements *)
Definition raw_commit (pp : ped_params) (ms : list Z) (r : Z) : Z := multi_exp (pp_gs pp) ms * pp_h pp ^ r.
Definition units (pp : ped_params) : Prop := Forall (fun g => Z.gcd g (pp_n pp) = 1) (pp_gs pp) /\ Z.gcd (pp_h pp) (pp_n pp) = 1.
Definition nonneg := Forall (fun m : Z => 0 <= m).

Lemma commit_ok pd ms r : ped_ok pd -> legal pd ms r ->
  ped_commit_with_rand pd ms r = Ok (raw_commit (pd_par pd) ms r mod pp_n (pd_par pd)).
Proof.
  intros O' Hl. unfold ped_commit_with_rand.
  match goal with |- context [simultaneous_exp ?A ?f ?z ?t ?es] => destruct (guards pd ms r (simultaneous_exp A f z t es)) as [[_ E]|[Hl2 _]]; [|contradiction] end.
  rewrite E. destruct Hl as (L1 & L2 & L3). apply ped_product; assumption.
Qed.
Lemma commit_inv pd ms r c : ped_ok pd -> ped_commit_with_rand pd ms r = Ok c -> legal pd ms r /\ c = raw_commit (pd_par pd) ms r mod pp_n (pd_par pd).
Proof.
  intros O' E. assert (Hl : legal pd ms r).
  { unfold ped_commit_with_rand in E. match type of E with context [simultaneous_exp ?A ?f ?z ?t ?es] => destruct (guards pd ms r (simultaneous_exp A f z t es)) as [[Hl _]|[_ E2]] end; [exact Hl|].
    rewrite E2 in E. discriminate. }
  split; [exact Hl|]. rewrite (commit_ok pd ms r O' Hl) in E. congruence.
Qed.
Lemma commit_cases pd ms r : ped_ok pd -> (exists c, ped_commit_with_rand pd ms r = Ok c) \/ ped_commit_with_rand pd ms r = Err InvalidArgument.
Proof.
  intros O'. unfold ped_commit_with_rand.
  match goal with |- context [simultaneous_exp ?A ?f ?z ?t ?es] => destruct (guards pd ms r (simultaneous_exp A f z t es)) as [[Hl E]|[_ E]]; rewrite E end; [left|right; reflexivity].
  destruct Hl as (L1 & L2 & L3). eexists. apply ped_product; assumption.
Qed.

Lemma raw_commit_add pp a b r s : nonneg a -> nonneg b -> 0 <= r -> 0 <= s -> raw_commit pp (vadd a b) (r + s) = raw_commit pp a r * raw_commit pp b s.
Proof. intros. unfold raw_commit. rewrite multi_exp_vadd by assumption. rewrite Z.pow_add_r by assumption. lia. Qed.
Lemma raw_commit_scale pp a r k : nonneg a -> 0 <= r -> 0 <= k -> raw_commit pp (vscale k a) (k * r) = raw_commit pp a r ^ k.
Proof. intros. unfold raw_commit. rewrite multi_exp_vscale by assumption. rewrite Z.pow_mul_l. f_equal. rewrite <- Z.pow_mul_r by assumption. f_equal. lia. Qed.

Lemma multi_exp_unit n gs ms : Forall (fun g => Z.gcd g n = 1) gs -> nonneg ms -> Z.gcd (multi_exp gs ms) n = 1.
Proof.
  intros H. revert ms. induction H as [|g gs Hg H IH]; intros ms Hm; [apply Z.gcd_1_l|]. destruct Hm as [|m ms Hm Hms]; [apply Z.gcd_1_l|]. cbn [multi_exp].
  apply Zgcd_1_rel_prime. apply rel_prime_sym. apply rel_prime_mult; apply rel_prime_sym, Zgcd_1_rel_prime; [apply coprime_pow_gcd; assumption|apply IH; assumption].
Qed.
Lemma raw_commit_unit pp ms r : units pp -> nonneg ms -> 0 <= r -> Z.gcd (raw_commit pp ms r) (pp_n pp) = 1.
Proof.
  intros [Hg Hh] Hm Hr. unfold raw_commit. apply Zgcd_1_rel_prime. apply rel_prime_sym. apply rel_prime_mult; apply rel_prime_sym, Zgcd_1_rel_prime;
    [apply multi_exp_unit; assumption|apply coprime_pow_gcd; assumption].
Qed.

(** E is an exponent of the parameters: every base raised to E is 1. *)
Definition exponent (pp : ped_params) (E : Z) : Prop := Forall (fun g => eqmod (pp_n pp) (g ^ E) 1) (pp_gs pp) /\ eqmod (pp_n pp) (pp_h pp ^ E) 1.
Lemma multi_exp_exponent n gs ms E : 0 <= E -> Forall (fun g => eqmod n (g ^ E) 1) gs -> nonneg ms -> eqmod n (multi_exp gs ms ^ E) 1.
Proof.
  intros HE H. revert ms. induction H as [|g gs Hg H IH]; intros ms Hm; [cbn; rewrite Z.pow_1_l by lia; reflexivity|].
  destruct Hm as [|m ms Hm Hms]; cbn [multi_exp]; [rewrite Z.pow_1_l by lia; reflexivity|].
  rewrite Z.pow_mul_l. rewrite (IH ms Hms). rewrite <- Z.pow_mul_r by assumption. rewrite (Z.mul_comm m E), Z.pow_mul_r by assumption. rewrite Hg.
  rewrite Z.pow_1_l by lia. reflexivity.
Qed.
Lemma raw_commit_exponent pp ms r E : 0 <= E -> exponent pp E -> nonneg ms -> 0 <= r -> eqmod (pp_n pp) (raw_commit pp ms r ^ E) 1.
Proof.
  intros HE [Hg Hh] Hm Hr. unfold raw_commit. rewrite Z.pow_mul_l. rewrite (multi_exp_exponent _ _ _ _ HE Hg Hm). rewrite <- Z.pow_mul_r by assumption.
  rewrite (Z.mul_comm r E), Z.pow_mul_r by assumption. rewrite Hh. rewrite Z.pow_1_l by lia. reflexivity.
Qed.

Lemma nonneg_vadd a b : nonneg a -> nonneg b -> nonneg (vadd a b). Proof. apply vadd_nonneg. Qed.
Lemma nonneg_vscale k a : 0 <= k -> nonneg a -> nonneg (vscale k a). Proof. apply vscale_nonneg. Qed.
Lemma nonneg_repeat x k : 0 <= x -> nonneg (repeat x k). Proof. intros H. induction k; constructor; assumption. Qed.

(** Inverse of the challenge difference, as a non-negative multiplier. *)
Lemma multiplier c1 c2 E : 1 < E -> 0 <= c1 -> 0 <= c2 -> Z.gcd (c1 - c2) E = 1 ->
  exists u k, 0 <= u /\ 0 <= k /\ u * (c1 + c2 * (E - 1)) = 1 + E * k /\ eqmod E (u * (c1 - c2)) 1.
Proof.
  intros HE H1 H2 G. set (a := c1 + c2 * (E - 1)). assert (Ha : 0 <= a) by (unfold a; assert (0 <= c2 * (E - 1)) by (apply Z.mul_nonneg_nonneg; lia); lia).
  assert (Ga : Z.gcd a E = 1). { unfold a. replace (c1 + c2 * (E - 1)) with ((c1 - c2) + c2 * E) by lia. rewrite Z.gcd_comm, Z.gcd_add_mult_diag_r, Z.gcd_comm. exact G. }
  assert (Ha0 : a <> 0) by (intros ->; rewrite Z.gcd_0_l, Z.abs_eq in Ga by lia; lia).
  destruct (Z.gcd_bezout a E 1 Ga) as (x & y & Hxy). set (u := x mod E).
  assert (Hu : 0 <= u < E) by (apply Z.mod_pos_bound; lia). assert (Ex : x = E * (x / E) + u) by (apply Z.div_mod; lia).
  set (k := - y - (x / E) * a). assert (Hk : u * a = 1 + E * k) by (unfold k; replace (u * a) with (x * a - E * (x / E) * a) by (rewrite Ex at 1; ring); lia).
  exists u, k. split; [lia|]. split.
  - destruct (Z_lt_le_dec k 0) as [D|D]; [exfalso|exact D]. assert (E * k <= - E) by nia. assert (0 <= u * a) by (apply Z.mul_nonneg_nonneg; lia). lia.
  - split; [exact Hk|]. exists (k - u * c2). replace (u * (c1 - c2)) with (u * a - u * c2 * E) by (unfold a; ring). rewrite Hk. ring.
Qed.

(** From ck^c1 F2 = ck^c2 F1, an opening of ck. *)
Lemma extract_opening pp ck c1 c2 ms1 ms2 r1 r2 E u k : 1 < E -> 0 <= c1 -> 0 <= c2 -> nonneg ms1 -> nonneg ms2 -> 0 <= r1 -> 0 <= r2 ->
  exponent pp E -> eqmod (pp_n pp) (ck ^ E) 1 -> 0 <= u -> 0 <= k -> u * (c1 + c2 * (E - 1)) = 1 + E * k ->
  eqmod (pp_n pp) (ck ^ c1 * raw_commit pp ms2 r2) (ck ^ c2 * raw_commit pp ms1 r1) ->
  eqmod (pp_n pp) ck (raw_commit pp (vscale u (vadd ms1 (vscale (E - 1) ms2))) (u * (r1 + (E - 1) * r2))).
Proof.
  intros HE Hc1 Hc2 M1 M2 R1 R2 HX Hck Hu Hk Huk Hcross. set (n := pp_n pp) in *. set (F1 := raw_commit pp ms1 r1) in *. set (F2 := raw_commit pp ms2 r2) in *.
  assert (S2 : nonneg (vscale (E - 1) ms2)) by (apply nonneg_vscale; [lia|assumption]). assert (P2 : 0 <= (E - 1) * r2) by (apply Z.mul_nonneg_nonneg; lia).
  rewrite raw_commit_scale; [|apply nonneg_vadd; assumption|lia|assumption]. rewrite raw_commit_add, raw_commit_scale by (assumption || lia). fold F1 F2.
  assert (X2 : eqmod n (F2 ^ E) 1) by (apply raw_commit_exponent; (assumption || lia)).
  (* ck^(c1 + c2 (E-1)) = F1 F2^(E-1) *)
  assert (Hd : eqmod n (ck ^ (c1 + c2 * (E - 1))) (F1 * F2 ^ (E - 1))).
  { pose proof (full_turn n ck c2 E Hc2 ltac:(lia) Hck) as T1.
    assert (T2 : eqmod n (F2 * F2 ^ (E - 1)) 1). { pose proof (full_turn n F2 1 E ltac:(lia) ltac:(lia) X2) as T. rewrite Z.pow_1_r, Z.mul_1_l in T. exact T. }
    assert (0 <= c2 * (E - 1)) by (apply Z.mul_nonneg_nonneg; lia). rewrite Z.pow_add_r by assumption.
    revert T1 T2 Hcross. generalize (ck ^ c1) (ck ^ c2) (ck ^ (c2 * (E - 1))) (F2 ^ (E - 1)). intros a b b' f T1 T2 Hc.
    transitivity (a * b' * (F2 * f)); [rewrite T2, Z.mul_1_r; reflexivity|].
    replace (a * b' * (F2 * f)) with ((a * F2) * (b' * f)) by ring. rewrite Hc. replace (b * F1 * (b' * f)) with ((b * b') * (F1 * f)) by ring. rewrite T1, Z.mul_1_l. reflexivity. }
  rewrite <- Hd. rewrite <- Z.pow_mul_r; [|clear - Hc1 Hc2 HE; nia|exact Hu].
  rewrite (Z.mul_comm _ u), Huk. assert (0 <= E * k) by (apply Z.mul_nonneg_nonneg; lia). rewrite Z.pow_add_r by lia. rewrite Z.pow_1_r. rewrite Z.pow_mul_r by lia.
  destruct (eqmod_one_pow n (ck ^ E) k Hck) as [->|]; [|lia]. rewrite Z.mul_1_r. reflexivity.
Qed.

(** ** Vectors of equal entries *)
Lemma repeat_affine a b c k : repeat (a + b * c) k = vadd (repeat a k) (vscale c (repeat b k)).
Proof. induction k as [|k IH]; [reflexivity|]. cbn [repeat vscale map vadd]. f_equal; [lia|]. exact IH. Qed.
Lemma repeat_extract u a b e k : vscale u (vadd (repeat a k) (vscale e (repeat b k))) = repeat (u * (a + e * b)) k.
Proof. induction k as [|k IH]; [reflexivity|]. cbn [repeat vscale map vadd]. f_equal. exact IH. Qed.

Lemma legal_repeat pd x r : 0 <= x -> 0 <= r -> legal pd (repeat x (length (pp_gs (pd_par pd)))) r.
Proof. intros. split; [rewrite repeat_length; lia|]. split; [apply nonneg_repeat; assumption|assumption]. Qed.

(** ** Vectors given by index *)
Lemma vadd_nth a b i : nth i (vadd a b) 0 = nth i a 0 + nth i b 0.
Proof. revert b i. induction a as [|x a IH]; intros [|y b] [|i]; cbn [vadd nth]; try lia; try (destruct i; lia). apply IH. Qed.
Lemma vadd_len a b : length (vadd a b) = Nat.max (length a) (length b).
Proof. revert b. induction a as [|x a IH]; intros [|y b]; cbn [vadd length]; try lia. rewrite IH. lia. Qed.
Lemma vscale_nth k a i : nth i (vscale k a) 0 = k * nth i a 0.
Proof. unfold vscale. revert i. induction a as [|x a IH]; intros [|i]; cbn [map nth]; try lia. apply IH. Qed.
Lemma vscale_len k a : length (vscale k a) = length a. Proof. apply map_length. Qed.
Lemma repeat_nth (x : Z) k i : nth i (repeat x k) 0 = if (i <? k)%nat then x else 0.
Proof. revert i. induction k as [|k IH]; intros [|i]; cbn [repeat nth]; try reflexivity. rewrite IH. reflexivity. Qed.
Lemma seq_map_nth (f : nat -> Z) k i : nth i (map f (seq 0 k)) 0 = if (i <? k)%nat then f i else 0.
Proof.
  destruct (Nat.ltb_spec i k); [rewrite (nth_map _ _ _ 0%nat) by (rewrite seq_length; assumption); rewrite seq_nth by assumption; reflexivity|].
  apply nth_overflow. rewrite map_length, seq_length. assumption.
Qed.
Lemma at_index_ok (l : list Z) i : (i < length l)%nat -> at_index l i = Ok (nth i l 0).
Proof. intros H. unfold at_index. rewrite (nth_error_nth' l 0 H). reflexivity. Qed.
Lemma at_index_some {A} (l : list A) i x : nth_error l i = Some x -> at_index l i = Ok x.
Proof. intros H. unfold at_index. rewrite H. reflexivity. Qed.
Lemma mapM_seq {B} (f : nat -> outcome B) (g : nat -> B) k : (forall i, (i < k)%nat -> f i = Ok (g i)) -> mapM f (seq 0 k) = Ok (map g (seq 0 k)).
Proof.
  intros H. apply mapM_map_ok. intros i Hi. apply in_seq in Hi. apply H. lia.
Qed.

Section Keys.
Variable C : ec.
Variable L : ec_laws C.
Variable sha : bytes -> bytes.
Variable v : dy_vrf C.
Notation n := (ec_order C).
Notation pp := (pd_par (dv_ped C v)).
Notation N := (pp_n pp).
Notation chal := (dp_chal (dv_par C v)).
Notation sec := (dp_sec (dv_par C v)).
Hypothesis PO : ped_ok (dv_ped C v).
Hypothesis Hsec : 0 < sec.
Hypothesis Hchal : 0 < chal <= 120000.

Lemma keys_challenge_ok pk db : exists c, keys_challenge C sha v pk db = Ok c /\ 0 <= c < 2 ^ chal.
Proof. unfold keys_challenge. rewrite lshift_ok by lia. cbn [bind]. rewrite Z.mul_1_l. apply ro_pow2. exact Hchal. Qed.
Lemma N_gt1 : 1 < N. Proof. apply PO. Qed.

(** What an accepted keys proof says. *)
Definition keys_accepts (pk : bytes) (pf : keys_proof) (d : Z) : Prop :=
  let ck := of_bytes pk in let c := of_bytes (kp_challenge pf) in
  of_bytes (kp_masked_key pf) <= n * 2 ^ (chal + sec + 1) /\ Z.gcd (ck ^ c) N = 1 /\ 0 <= d < N /\
  (ck ^ c * d) mod N = commitment (pp_gs pp) (pp_h pp) N (repeat (of_bytes (kp_masked_key pf)) (length (pp_gs pp))) (of_bytes (kp_masked_open pf)) /\
  exists db, to_bytes d = Ok db /\ keys_challenge C sha v pk db = Ok c.

Lemma verify_keys_cases pk pf : (exists d, keys_accepts pk pf d) /\ dy_verify_keys C sha v pk pf = Ok tt \/
  (~ exists d, keys_accepts pk pf d) /\ dy_verify_keys C sha v pk pf = Err InvalidArgument.
Proof.
  unfold dy_verify_keys. set (ck := of_bytes pk). set (c := of_bytes (kp_challenge pf)). set (mk := of_bytes (kp_masked_key pf)). set (mo := of_bytes (kp_masked_open pf)).
  assert (Hc : 0 <= c) by apply of_bytes_nonneg. assert (Hmk : 0 <= mk) by apply of_bytes_nonneg. assert (Hmo : 0 <= mo) by apply of_bytes_nonneg.
  pose proof N_gt1 as HN. rewrite lshift_ok by lia. cbn [bind].
  destruct (Z.ltb_spec (n * 2 ^ (chal + sec + 1)) mk) as [D|D]; [right; split; [|reflexivity]; intros (d & A & _); fold mk in A; lia|].
  unfold num_gs. rewrite (commit_ok _ _ _ PO (legal_repeat _ mk mo Hmk Hmo)). cbn [bind].
  change (raw_commit pp (repeat mk (length (pp_gs pp))) mo mod N) with (commitment (pp_gs pp) (pp_h pp) N (repeat mk (length (pp_gs pp))) mo).
  set (F := commitment (pp_gs pp) (pp_h pp) N (repeat mk (length (pp_gs pp))) mo). assert (HF : 0 <= F < N) by (apply Z.mod_pos_bound; lia).
  unfold ped_multiply. rewrite bn_mod_exp_ok by lia. cbn [bind].
  assert (Hgm : Z.gcd (ck ^ c mod N) N = Z.gcd (ck ^ c) N) by (rewrite Z.gcd_mod by lia; apply Z.gcd_comm).
  destruct (Z.eq_dec (Z.gcd (ck ^ c) N) 1) as [G|G].
  - destruct (bn_mod_inverse_ok (ck ^ c mod N) N ltac:(lia) ltac:(congruence)) as (inv & Ei & Hi & Ii). rewrite Ei. cbn [bind].
    unfold ped_add. rewrite bn_mod_mul_ok by lia. cbn [bind]. set (d := (inv * F) mod N). assert (Hd : 0 <= d < N) by (apply Z.mod_pos_bound; lia).
    assert (Ieq : eqmod N (ck ^ c * inv) 1) by (rewrite <- (eqmod_mod N (ck ^ c)); apply eq_eqmod; exact Ii).
    assert (Ed : (ck ^ c * d) mod N = F). { apply eqmod_mod_small; [exact HF|]. unfold d. rewrite eqmod_mod, Z.mul_assoc, Ieq, Z.mul_1_l. reflexivity. }
    assert (Ud : forall d', 0 <= d' < N -> (ck ^ c * d') mod N = F -> d' = d).
    { intros d' Hd' E'. apply (eqmod_small N); [assumption|assumption|]. apply (eqmod_cancel N (ck ^ c)); [exact G|]. apply eq_eqmod. congruence. }
    destruct (to_bytes_of d ltac:(lia)) as (db & Eb & _). rewrite Eb. cbn [bind]. destruct (keys_challenge_ok pk db) as (c' & Ec & _). rewrite Ec. cbn [bind].
    destruct (Z.eqb_spec c' c) as [->|Hne]; cbn [negb]; [left|right]; (split; [|reflexivity]).
    + exists d. split; [exact D|]. split; [exact G|]. split; [exact Hd|]. split; [exact Ed|]. exists db. split; [exact Eb|exact Ec].
    + intros (d' & _ & _ & Hd' & E' & db' & Eb' & Ec'). fold ck in Ec', E'. fold c in Ec', E'. assert (d' = d) by (apply Ud; assumption). subst d'. assert (db' = db) by congruence. subst db'. congruence.
  - rewrite bn_mod_inverse_err by (lia || congruence). right. split; [|reflexivity]. intros (d' & _ & G' & _). contradiction.
Qed.

(** An honest run. *)
Lemma honest_keys rk ro rdk rdo : units pp -> exists pk sk pf, dy_generate C sha v rk ro rdk rdo = Ok (pk, sk, pf) /\
  0 < of_bytes (dk_key sk) < n /\ 0 <= of_bytes (dk_open sk) < N /\
  of_bytes pk = commitment (pp_gs pp) (pp_h pp) N (repeat (of_bytes (dk_key sk)) (length (pp_gs pp))) (of_bytes (dk_open sk)) /\
  exists d, keys_accepts pk pf d.
Proof.
  intros U. pose proof N_gt1 as HN. pose proof (order_gt1 C L) as Hn. unfold dy_generate. set (key := generate_private_key C rk).
  assert (Hkey : 0 < key < n) by (apply private_key_range; exact L).
  unfold ped_commit. rewrite rand_ok by lia. cbn [bind]. set (o := ro mod N). assert (Ho : 0 <= o < N) by (apply Z.mod_pos_bound; lia).
  unfold num_gs. rewrite (commit_ok _ _ _ PO (legal_repeat _ key o ltac:(lia) ltac:(lia))). cbn [bind].
  set (cm := raw_commit pp (repeat key (length (pp_gs pp))) o mod N). assert (Hcm : 0 <= cm < N) by (apply Z.mod_pos_bound; lia).
  destruct (to_bytes_of cm ltac:(lia)) as (pkb & Epk & Vpk). rewrite Epk. cbn [bind].
  destruct (to_bytes_of key ltac:(lia)) as (kb & Ek & Vk). rewrite Ek. cbn [bind].
  destruct (to_bytes_of o ltac:(lia)) as (ob & Eo & Vo). rewrite Eo. cbn [bind].
  rewrite !lshift_ok by lia. cbn [bind]. set (T := 2 ^ (chal + sec)). assert (HT : 0 < T) by (apply Z.pow_pos_nonneg; lia).
  rewrite !rand_ok by nia. cbn [bind]. set (dk := rdk mod (n * T)). set (dop := rdo mod (N * T)).
  assert (Hdk : 0 <= dk < n * T) by (apply Z.mod_pos_bound; nia). assert (Hdo : 0 <= dop < N * T) by (apply Z.mod_pos_bound; nia).
  rewrite (commit_ok _ _ _ PO (legal_repeat _ dk dop ltac:(lia) ltac:(lia))). cbn [bind].
  set (d := raw_commit pp (repeat dk (length (pp_gs pp))) dop mod N). assert (Hd : 0 <= d < N) by (apply Z.mod_pos_bound; lia).
  destruct (to_bytes_of d ltac:(lia)) as (db & Ed & _). rewrite Ed. cbn [bind].
  destruct (keys_challenge_ok pkb db) as (c & Ec & Hc). rewrite Ec. cbn [bind].
  destruct (to_bytes_of c ltac:(lia)) as (cb & Ecb & Vc). rewrite Ecb. cbn [bind].
  assert (0 <= key * c) by (apply Z.mul_nonneg_nonneg; lia). assert (0 <= o * c) by (apply Z.mul_nonneg_nonneg; lia).
  destruct (to_bytes_of (dk + key * c) ltac:(lia)) as (mkb & Emk & Vmk). rewrite Emk. cbn [bind].
  destruct (to_bytes_of (dop + o * c) ltac:(lia)) as (mob & Emo & Vmo). rewrite Emo. cbn [bind].
  eexists _, _, _. split; [reflexivity|]. cbn [dk_key dk_open]. rewrite Vk, Vo, Vpk. split; [exact Hkey|]. split; [exact Ho|]. split; [reflexivity|].
  exists d. unfold keys_accepts. cbn [kp_challenge kp_masked_key kp_masked_open]. rewrite Vc, Vmk, Vmo, Vpk.
  assert (Gc : Z.gcd (cm ^ c) N = 1).
  { apply gcd_pow_l; [lia|]. unfold cm. rewrite Z.gcd_mod by lia. rewrite Z.gcd_comm. apply raw_commit_unit; [exact U|apply nonneg_repeat; lia|lia]. }
  split; [|split; [exact Gc|split; [exact Hd|split; [|exists db; split; [exact Ed|exact Ec]]]]].
  - replace (2 ^ (chal + sec + 1)) with (T * 2) by (unfold T; rewrite (Z.pow_add_r 2 (chal + sec) 1) by lia; reflexivity).
    assert (2 ^ chal <= T) by (apply Z.pow_le_mono_r; lia). assert (key * c <= n * T) by (apply Z.mul_le_mono_nonneg; lia). lia.
  - unfold commitment. apply eqmod_eq; [lia|]. fold (raw_commit pp (repeat (dk + key * c) (length (pp_gs pp))) (dop + o * c)).
    rewrite repeat_affine. rewrite (Z.mul_comm o c). rewrite raw_commit_add; [|apply nonneg_repeat; lia|apply nonneg_vscale; [lia|apply nonneg_repeat; lia]|lia|lia].
    rewrite raw_commit_scale by ((apply nonneg_repeat; lia) || lia). unfold d, cm. rewrite !eqmod_mod. rewrite Z.mul_comm. reflexivity.
Qed.
End Keys.

(** ** Evaluation *)
Section Apply.
Variable C : ec.
Variable L : ec_laws C.
Notation n := (ec_order C).

Lemma unit_iff a : Z.gcd a n = 1 <-> a mod n <> 0.
Proof.
  pose proof (order_gt1 C L) as Hn. pose proof (order_prime C L) as Hp. split.
  - intros G E. apply Z.mod_divide in E; [|lia]. rewrite Z.gcd_comm in G. apply Z.divide_gcd_iff in E; [lia|lia].
  - intros H. rewrite Z.gcd_comm. apply Zgcd_1_rel_prime. apply prime_rel_prime; [exact Hp|]. intros D. apply H. apply Z.mod_divide; [lia|exact D].
Qed.

Lemma apply_one (v : dy_vrf C) key m : (key + m) mod n <> 0 ->
  exists P, (let* inv := bn_mod_inverse (m + key) n in Ok (point_mul C (dv_base C v) inv)) = Ok P /\ vrf_value C (dv_base C v) key m P.
Proof.
  intros H. pose proof (order_gt1 C L) as Hn. destruct (bn_mod_inverse_ok (m + key) n ltac:(lia)) as (inv & E & Hi & I); [apply unit_iff; rewrite Z.add_comm; exact H|].
  rewrite E. cbn [bind]. eexists. split; [reflexivity|]. split; [exact H|]. rewrite (point_mul_eq C L), <- (pmul_mul C L).
  rewrite (pmul_eqmod C L _ 1); [apply (pmul_1 C)|]. rewrite Z.add_comm. apply eq_eqmod. exact I.
Qed.

Lemma apply_ok v ms sk : (forall m, In m ms -> (of_bytes (dk_key sk) + m) mod n <> 0) ->
  exists ps, dy_apply C v ms sk = Ok ps /\ Forall2 (vrf_value C (dv_base C v) (of_bytes (dk_key sk))) ms ps.
Proof.
  unfold dy_apply. induction ms as [|m ms IH]; intros H; [exists []; split; [reflexivity|constructor]|].
  destruct (apply_one v _ m (H m (or_introl eq_refl))) as (P & E & V). destruct IH as (ps & Eps & Vps); [intros m' Hm'; apply H; right; exact Hm'|].
  exists (P :: ps). split; [|constructor; assumption]. cbn [mapM]. rewrite E. cbn [bind]. rewrite Eps. reflexivity.
Qed.
Lemma apply_err v ms sk m : In m ms -> (of_bytes (dk_key sk) + m) mod n = 0 -> dy_apply C v ms sk = Err InvalidArgument.
Proof.
  unfold dy_apply. set (key := of_bytes (dk_key sk)). pose proof (order_gt1 C L) as Hn. intros Hin H0. induction ms as [|x ms IH]; [contradiction|]. cbn [mapM].
  destruct (Z.eq_dec ((key + x) mod n) 0) as [Hx|Hx].
  - rewrite bn_mod_inverse_err; [reflexivity|lia|]. rewrite unit_iff. rewrite Z.add_comm. tauto.
  - destruct (apply_one v key x Hx) as (P & E & _). rewrite E. cbn [bind]. destruct Hin as [->|Hin]; [contradiction|]. rewrite (IH Hin). reflexivity.
Qed.

Lemma check_evals_spec gc evals masked dpts : (length evals <= length masked)%nat -> length evals = length dpts ->
  (check_evals C gc evals masked dpts = Ok tt /\
     (forall i e m d, nth_error evals i = Some e -> nth_error masked i = Some m -> nth_error dpts i = Some d -> pmul C m e = padd C d gc)) \/
  (check_evals C gc evals masked dpts = Err InvalidArgument /\
     ~ (forall i e m d, nth_error evals i = Some e -> nth_error masked i = Some m -> nth_error dpts i = Some d -> pmul C m e = padd C d gc)).
Proof.
  revert masked dpts. induction evals as [|e evals IH]; intros masked dpts L1 L2.
  - left. split; [reflexivity|]. intros [|i] ? ? ? E; discriminate.
  - destruct masked as [|m masked]; [cbn in L1; lia|]. destruct dpts as [|d dpts]; [discriminate|]. cbn [length] in L1, L2. cbn [check_evals].
    rewrite (point_mul_eq C L). destruct (peqb C (pmul C m e) (padd C d gc)) eqn:Eq; cbn [negb].
    + apply (peqb_spec C L) in Eq. destruct (IH masked dpts ltac:(lia) ltac:(lia)) as [[-> H]|[-> H]]; [left|right]; (split; [reflexivity|]).
      * intros [|i] e' m' d'; cbn [nth_error]; [intros [= <-] [= <-] [= <-]; exact Eq|apply H].
      * intros H'. apply H. intros i. apply (H' (S i)).
    + right. split; [reflexivity|]. intros H'. specialize (H' 0%nat e m d eq_refl eq_refl eq_refl). apply (peqb_spec C L) in H'. congruence.
Qed.

Variable sha : bytes -> bytes.
Variable v : dy_vrf C.
Notation pp := (pd_par (dv_ped C v)).
Notation N := (pp_n pp).
Notation k := (length (pp_gs pp)).
Notation chal := (dp_chal (dv_par C v)).
Notation sec := (dp_sec (dv_par C v)).
Hypothesis PO : ped_ok (dv_ped C v).
Hypothesis Hsec : 0 < sec.
Hypothesis Hchal : 0 < chal <= 120000.
Hypothesis Hbase : dv_base C v <> pinf C.

Lemma points_to_proto ps : Forall (fun P => P <> pinf C) ps -> point_vector_to_proto C ps = Ok (map (ec_enc C) ps).
Proof. intros H. unfold point_vector_to_proto. apply mapM_map_ok. rewrite Forall_forall in H. intros P HP. apply (point_to_bytes_ok C L). apply H. exact HP. Qed.
Lemma parse_points ps : Forall (fun P => P <> pinf C) ps -> parse_point_vector C (map (ec_enc C) ps) = Ok ps.
Proof. intros H. unfold parse_point_vector. induction H as [|P ps HP _ IH]; [reflexivity|]. cbn [map mapM]. rewrite (point_of_bytes_enc C L) by exact HP. cbn [bind]. rewrite IH. reflexivity. Qed.
Lemma points_to_proto_err ps : ~ Forall (fun P => P <> pinf C) ps -> point_vector_to_proto C ps = Err Internal.
Proof.
  intros H. unfold point_vector_to_proto. induction ps as [|P ps IH]; [exfalso; apply H; constructor|]. cbn [mapM]. destruct (pt_eq_dec C L P (pinf C)) as [->|HP].
  - unfold point_to_bytes. replace (is_inf C (pinf C)) with true by (symmetry; apply (is_inf_true C L); reflexivity). reflexivity.
  - rewrite (point_to_bytes_ok C L) by exact HP. cbn [bind]. rewrite IH; [reflexivity|]. intros F. apply H. constructor; assumption.
Qed.

Lemma apply_challenge_ok evals pk com dcb dpb : Forall (fun P => P <> pinf C) evals -> 0 <= com ->
  exists c, apply_challenge C sha v evals pk com dcb dpb = Ok c /\ 0 <= c < 2 ^ chal.
Proof.
  intros He Hc. unfold apply_challenge. destruct (to_bytes_of com Hc) as (cb & Ec & _). rewrite Ec. cbn [bind]. rewrite points_to_proto by exact He. cbn [bind].
  rewrite lshift_ok by lia. cbn [bind]. rewrite Z.mul_1_l. apply ro_pow2. exact Hchal.
Qed.

(** What an accepted evaluation proof says. *)
Definition apply_accepts (evals : list (pt C)) (pk : bytes) (com : Z) (pf : apply_proof) (c : Z) (dpts : list (pt C)) : Prop :=
  let masked := map of_bytes (ap_masked pf) in
  Forall (fun P => P <> pinf C) evals /\ (length evals <= k)%nat /\ length masked = k /\
  parse_point_vector C (ap_points pf) = Ok dpts /\ length dpts = length evals /\
  apply_challenge C sha v evals pk com (ap_commit pf) (ap_points pf) = Ok c /\
  Forall (fun m => bit_length m <= bit_length n + chal + sec + 2) masked /\
  (forall i e m d, nth_error evals i = Some e -> nth_error masked i = Some m -> nth_error dpts i = Some d ->
     pmul C m e = padd C d (pmul C c (dv_base C v))) /\
  commitment (pp_gs pp) (pp_h pp) N masked (of_bytes (ap_masked_open pf)) = (of_bytes (ap_commit pf) * (com * of_bytes pk) ^ c) mod N.

Lemma existsb_bits masked b : existsb (fun m => b <? bit_length m) masked = false <-> Forall (fun m => bit_length m <= b) masked.
Proof.
  induction masked as [|m l IH]; [split; [constructor|reflexivity]|]. cbn [existsb]. rewrite Bool.orb_false_iff, IH. destruct (Z.ltb_spec b (bit_length m)); split.
  - intros [? _]; discriminate.
  - intros F. inversion F. lia.
  - intros [_ F]. constructor; [lia|exact F].
  - intros F. inversion F. split; [reflexivity|assumption].
Qed.

Lemma parse_points_cases bs : (exists ps, parse_point_vector C bs = Ok ps) \/ parse_point_vector C bs = Err InvalidArgument.
Proof.
  unfold parse_point_vector. induction bs as [|b bs IH]; [left; exists []; reflexivity|]. cbn [mapM]. unfold point_of_bytes at 1 3.
  destruct (ec_dec C b) as [P|]; [|right; reflexivity]. destruct (is_inf C P); [right; reflexivity|]. cbn [bind].
  destruct IH as [(ps & ->)| ->]; cbn [bind]; [left; eexists; reflexivity|right; reflexivity].
Qed.

Lemma all_not_inf_dec (ps : list (pt C)) : {Forall (fun P => P <> pinf C) ps} + {~ Forall (fun P => P <> pinf C) ps}.
Proof. apply Forall_dec. intros P. destruct (pt_eq_dec C L P (pinf C)); [right; tauto|left; assumption]. Qed.

Lemma verify_apply_cases evals pk com pf : 0 <= com ->
  ((exists c dpts, apply_accepts evals pk com pf c dpts) /\ dy_verify_apply C sha v evals pk com pf = Ok tt) \/
  ((~ exists c dpts, apply_accepts evals pk com pf c dpts) /\
   (dy_verify_apply C sha v evals pk com pf = Err InvalidArgument \/
    (~ Forall (fun P => P <> pinf C) evals /\ dy_verify_apply C sha v evals pk com pf = Err Internal))).
Proof.
  intros Hcom. unfold dy_verify_apply, parse_bignum_vector. set (masked := map of_bytes (ap_masked pf)). set (mo := of_bytes (ap_masked_open pf)). set (ck := of_bytes pk). set (dc := of_bytes (ap_commit pf)).
  destruct PO as [HN _].
  destruct (parse_points_cases (ap_points pf)) as [(dpts & Ep)|Ep].
  2:{ right. split; [intros (c & dpts & _ & _ & _ & E & _); congruence|]. left. rewrite Ep. reflexivity. }
  rewrite Ep. cbn [bind].
  unfold num_gs. destruct (Nat.ltb_spec k (length evals)) as [D1|D1]; [right; split; [intros (? & ? & _ & A & _); lia|left; reflexivity]|].
  destruct (Nat.eqb_spec (length evals) (length dpts)) as [D2|D2]; cbn [negb].
  2:{ right. split; [|left; reflexivity]. intros (c & dp & _ & _ & _ & E & E2 & _). assert (dp = dpts) by congruence. subst. lia. }
  destruct (Nat.eqb_spec k (length masked)) as [D3|D3]; cbn [negb]; [|right; split; [intros (? & ? & _ & _ & A & _); fold masked in A; lia|left; reflexivity]].
  destruct (all_not_inf_dec evals) as [Hev|Hev].
  2:{ right. split; [intros (? & ? & A & _); contradiction|]. right. split; [exact Hev|]. unfold apply_challenge. destruct (to_bytes_of com Hcom) as (cb & -> & _). cbn [bind].
      rewrite points_to_proto_err by exact Hev. reflexivity. }
  destruct (apply_challenge_ok evals pk com (ap_commit pf) (ap_points pf) Hev Hcom) as (c & Ec & Hc). rewrite Ec. cbn [bind].
  destruct (existsb _ masked) eqn:Ex; [right; split; [|left; reflexivity]|].
  { intros (? & ? & _ & _ & _ & _ & _ & _ & A & _). fold masked in A. apply existsb_bits in A. congruence. }
  apply existsb_bits in Ex. rewrite (point_mul_eq C L).
  destruct (check_evals_spec (pmul C c (dv_base C v)) evals masked dpts ltac:(lia) D2) as [[-> H]|[-> H]]; cbn [bind].
  2:{ right. split; [|left; reflexivity]. intros (c' & dp & _ & _ & _ & E & _ & Ec' & _ & A & _). assert (dp = dpts) by congruence. assert (c' = c) by congruence. subst. contradiction. }
  unfold ped_add, ped_multiply. rewrite bn_mod_mul_ok by lia. cbn [bind]. rewrite bn_mod_exp_ok by lia. cbn [bind].
  assert (Hm : nonneg masked) by (unfold masked; apply Forall_forall; intros m Hm; apply in_map_iff in Hm; destruct Hm as (b & <- & _); apply of_bytes_nonneg).
  assert (Hl : legal (dv_ped C v) masked mo) by (split; [lia|]; split; [exact Hm|apply of_bytes_nonneg]).
  rewrite (commit_ok _ _ _ PO Hl). cbn [bind]. rewrite bn_mod_mul_ok by lia. cbn [bind].
  assert (Er : (dc * (((com * ck) mod N) ^ c mod N)) mod N = (dc * (com * ck) ^ c) mod N).
  { apply eqmod_eq; [lia|]. rewrite (eqmod_mod N (((com * ck) mod N) ^ c)). rewrite (eqmod_pow N ((com * ck) mod N) (com * ck) c (eqmod_mod _ _)). reflexivity. }
  rewrite Er. destruct (Z.eqb_spec (raw_commit pp masked mo mod N) ((dc * (com * ck) ^ c) mod N)) as [Eq|Eq]; cbn [negb]; [left|right]; (split; [|try reflexivity; try (left; reflexivity)]).
  - exists c, dpts. unfold apply_accepts. cbv zeta. fold masked mo ck dc. repeat (split; [assumption || lia|]). exact Eq.
  - intros (c' & dp & _ & _ & _ & E & _ & Ec' & _ & _ & A). assert (c' = c) by congruence. subst c'. apply Eq. exact A.
Qed.

(** An honest run: prover and verifier agree unless a dummy value is a multiple of the order. *)
Lemma honest_apply ms evals pk sk com opn rdk rm rdo :
  let key := of_bytes (dk_key sk) in let ko := of_bytes (dk_open sk) in
  0 < key < n -> Forall (fun m => 0 <= m < n) ms -> (length ms <= k)%nat -> 0 <= opn ->
  com = commitment (pp_gs pp) (pp_h pp) N ms opn -> of_bytes pk = commitment (pp_gs pp) (pp_h pp) N (repeat key k) ko ->
  Forall2 (vrf_value C (dv_base C v) key) ms evals ->
  exists dkey dms, dummy_values C v ms rdk rm = Ok (dkey, dms) /\ length dms = k /\
    ((forall i, (i < length ms)%nat -> nth i dms 0 mod n <> 0) ->
       exists pf c dpts, dy_prove_apply C sha v ms evals pk sk com opn rdk rm rdo = Ok pf /\ apply_accepts evals pk com pf c dpts) /\
    ((exists i, (i < length ms)%nat /\ nth i dms 0 mod n = 0) ->
       dy_prove_apply C sha v ms evals pk sk com opn rdk rm rdo = Err Internal).
Proof.
  intros key ko Hkey Hms Hlen Hopn Hcom Hpk Hev. assert (HN : 1 < N) by (apply PO). pose proof (order_gt1 C L) as Hn.
  assert (Hko : 0 <= ko) by apply of_bytes_nonneg. set (T := 2 ^ (sec + chal)). assert (HT : 0 < T) by (apply Z.pow_pos_nonneg; lia).
  set (dkey := rdk mod (n * T)). assert (Hdk : 0 <= dkey < n * T) by (apply Z.mod_pos_bound; nia).
  set (draw := fun i => rm i mod (n * T)). assert (Hdr : forall i, 0 <= draw i < n * T) by (intros i; apply Z.mod_pos_bound; nia).
  set (dval := fun i => if (i <? length ms)%nat then draw i + dkey else dkey).
  assert (Ed : dummy_values C v ms rdk rm = Ok (dkey, map dval (seq 0 k))).
  { unfold dummy_values. rewrite lshift_ok by lia. cbn [bind]. fold T. rewrite rand_ok by nia. cbn [bind]. fold dkey. unfold num_gs.
    rewrite (mapM_seq _ dval); [reflexivity|]. intros i _. unfold dval. destruct (i <? length ms)%nat; [|reflexivity]. rewrite rand_ok by nia. reflexivity. }
  exists dkey, (map dval (seq 0 k)). split; [exact Ed|]. set (dms := map dval (seq 0 k)) in *.
  assert (Ldm : length dms = k) by (unfold dms; rewrite map_length, seq_length; reflexivity). split; [exact Ldm|].
  assert (Ndm : forall i, (i < k)%nat -> nth i dms 0 = dval i) by (intros i Hi; unfold dms; rewrite seq_map_nth; destruct (Nat.ltb_spec i k); [reflexivity|lia]).
  assert (Bdv : forall i, 0 <= dval i < 2 * (n * T)) by (intros i; unfold dval; specialize (Hdr i); destruct (i <? length ms)%nat; lia).
  assert (Pdm : nonneg dms) by (unfold dms; apply Forall_forall; intros x Hx; apply in_map_iff in Hx; destruct Hx as (i & <- & _); apply Bdv).
  set (dop := rdo mod (N * T)). assert (Hdo : 0 <= dop < N * T) by (apply Z.mod_pos_bound; nia).
  set (dc := raw_commit pp dms dop mod N). assert (Hdc : 0 <= dc < N) by (apply Z.mod_pos_bound; lia).
  pose proof (Forall2_len _ _ _ Hev) as Lev.
  assert (Eat : forall i, (i < length ms)%nat -> exists e, nth_error evals i = Some e /\ vrf_value C (dv_base C v) key (nth i ms 0) e).
  { clear - Hev. induction Hev as [|m e ms' ev' H _ IH]; intros i Hi; cbn [length] in Hi; [lia|]. destruct i as [|i]; [exists e; split; [reflexivity|exact H]|]. apply IH. lia. }
  assert (Enotinf : forall m e, vrf_value C (dv_base C v) key m e -> e <> pinf C).
  { intros m e [_ E] ->. rewrite (pmul_inf C L) in E. congruence. }
  assert (Hevn : Forall (fun P => P <> pinf C) evals).
  { clear - Hev Enotinf. induction Hev; constructor; [eapply Enotinf; eassumption|assumption]. }
  set (dpt := fun i => pmul C (dval i) (nth i evals (pinf C))).
  assert (Em1 : apply_message1 C v ms evals rdk rm rdo = Ok (dc, map dpt (seq 0 (length ms)), (dms, dkey, dop))).
  { unfold apply_message1. rewrite Ed. cbn [bind]. rewrite lshift_ok by lia. cbn [bind]. fold T. rewrite rand_ok by nia. cbn [bind]. fold dop.
    rewrite (commit_ok _ dms dop PO) by (split; [lia|]; split; [exact Pdm|lia]). cbn [bind]. fold dc.
    rewrite (mapM_seq _ dpt); [reflexivity|]. intros i Hi. destruct (Eat i Hi) as (e & Ee & _). rewrite (at_index_some _ _ _ Ee). cbn [bind].
    rewrite at_index_ok by lia. cbn [bind]. rewrite (point_mul_eq C L). unfold dpt. rewrite Ndm by lia. rewrite (nth_error_nth _ _ _ Ee). reflexivity. }
  unfold dy_prove_apply. rewrite Em1. cbn [bind]. destruct (to_bytes_of dc ltac:(lia)) as (dcb & Edc & Vdc). rewrite Edc. cbn [bind].
  assert (Hcom0 : 0 <= com < N) by (rewrite Hcom; apply Z.mod_pos_bound; lia).
  set (dpts := map dpt (seq 0 (length ms))).
  assert (Ndp : forall i, (i < length ms)%nat -> nth_error dpts i = Some (dpt i)).
  { intros i Hi. unfold dpts. rewrite nth_error_map. replace (nth_error (seq 0 (length ms)) i) with (Some i); [reflexivity|]. symmetry.
    rewrite (nth_error_nth' _ 0%nat) by (rewrite seq_length; exact Hi). rewrite seq_nth by exact Hi. reflexivity. }
  assert (Hinf : forall i, (i < length ms)%nat -> dpt i = pinf C <-> dval i mod n = 0).
  { intros i Hi. destruct (Eat i Hi) as (e & Ee & Ve). unfold dpt. rewrite (nth_error_nth _ _ _ Ee). rewrite (pmul_inf_iff C L _ _ (Enotinf _ _ Ve)). rewrite Z.mod_divide by lia. reflexivity. }
  split.
  2:{ intros (i & Hi & H0). rewrite Ndm in H0 by lia. rewrite points_to_proto_err; [reflexivity|]. intros F. rewrite Forall_forall in F.
      apply (F (dpt i)); [apply (nth_error_In _ i); apply Ndp; exact Hi|]. apply Hinf; assumption. }
  intros Hnz.
  assert (Fdp : Forall (fun P => P <> pinf C) dpts).
  { apply Forall_forall. intros P HP. unfold dpts in HP. apply in_map_iff in HP. destruct HP as (i & <- & Hi). apply in_seq in Hi. intros E. apply Hinf in E; [|lia].
    apply (Hnz i); [lia|]. rewrite Ndm by lia. exact E. }
  rewrite points_to_proto by exact Fdp. cbn [bind].
  destruct (apply_challenge_ok evals pk com dcb (map (ec_enc C) dpts) Hevn ltac:(lia)) as (c & Ec & Hc). rewrite Ec. cbn [bind].
  set (mval := fun i => if (i <? length ms)%nat then dval i + (nth i ms 0 + key) * c else dkey + key * c).
  assert (Em2 : apply_message2 C v ms opn key ko dms dkey dop c = Ok (map mval (seq 0 k), dop + (ko + opn) * c)).
  { unfold apply_message2, num_gs. rewrite (mapM_seq _ mval); [reflexivity|]. intros i Hi. unfold mval. destruct (Nat.ltb_spec i (length ms)); [|reflexivity].
    rewrite !at_index_ok by lia. cbn [bind]. rewrite Ndm by lia. reflexivity. }
  fold key ko. rewrite Em2. cbn [bind]. set (masked := map mval (seq 0 k)).
  assert (Hmsn : forall i, 0 <= nth i ms 0 < n).
  { intros i. destruct (Nat.lt_ge_cases i (length ms)) as [D|D]; [|rewrite nth_overflow by exact D; lia]. rewrite Forall_forall in Hms. apply Hms. apply nth_In. exact D. }
  assert (Bmv : forall i, 0 <= mval i < 4 * (n * T)).
  { intros i. unfold mval. specialize (Bdv i). specialize (Hmsn i). assert (2 * 2 ^ chal <= T) by (change (2 * 2 ^ chal) with (2 ^ 1 * 2 ^ chal); rewrite <- Z.pow_add_r by lia; apply Z.pow_le_mono_r; lia).
    destruct (i <? length ms)%nat.
    - assert (0 <= (nth i ms 0 + key) * c) by (apply Z.mul_nonneg_nonneg; lia). assert ((nth i ms 0 + key) * c <= (2 * n) * 2 ^ chal) by (apply Z.mul_le_mono_nonneg; lia).
      assert (n * (2 * 2 ^ chal) <= n * T) by (apply Z.mul_le_mono_nonneg_l; lia). lia.
    - assert (0 <= key * c) by (apply Z.mul_nonneg_nonneg; lia). assert (key * c <= n * 2 ^ chal) by (apply Z.mul_le_mono_nonneg; lia).
      assert (n * (2 * 2 ^ chal) <= n * T) by (apply Z.mul_le_mono_nonneg_l; lia). assert (0 < n * 2 ^ chal) by (apply Z.mul_pos_pos; lia). lia. }
  assert (Pm : nonneg masked) by (unfold masked; apply Forall_forall; intros x Hx; apply in_map_iff in Hx; destruct Hx as (i & <- & _); apply Bmv).
  destruct (mapM_to_bytes masked Pm) as (mb & Emb & Vmb). unfold bignum_vector_to_proto. rewrite Emb. cbn [bind].
  assert (Hmo : 0 <= dop + (ko + opn) * c) by (assert (0 <= (ko + opn) * c) by (apply Z.mul_nonneg_nonneg; lia); lia).
  destruct (to_bytes_of _ Hmo) as (mob & Emo & Vmo). rewrite Emo. cbn [bind].
  eexists _, c, dpts. split; [reflexivity|]. unfold apply_accepts. cbn [ap_commit ap_points ap_masked ap_masked_open]. cbv zeta. rewrite Vmb, Vmo, Vdc.
  split; [exact Hevn|]. split; [lia|]. split; [unfold masked; rewrite map_length, seq_length; reflexivity|].
  split; [apply parse_points; exact Fdp|]. split; [unfold dpts; rewrite map_length, seq_length; lia|]. split; [exact Ec|].
  split; [|split].
  - apply Forall_forall. intros x Hx. unfold masked in Hx. apply in_map_iff in Hx. destruct Hx as (i & <- & _). specialize (Bmv i).
    destruct (Z.eq_dec (mval i) 0) as [E0|E0]; [rewrite E0; change (bit_length 0) with 0; pose proof (bit_length_nonneg n); lia|].
    pose proof (bit_length_pow (mval i) E0) as [B1 _]. pose proof (bit_length_pow n ltac:(lia)) as [_ B2]. rewrite Z.abs_eq in B1, B2 by lia.
    pose proof (bit_length_nonneg n). destruct (Z_le_gt_dec (bit_length (mval i)) (bit_length n + chal + sec + 2)) as [D|D]; [exact D|exfalso].
    assert (Q : 2 ^ (bit_length n + chal + sec + 2) <= 2 ^ (bit_length (mval i) - 1)) by (apply Z.pow_le_mono_r; lia).
    replace (bit_length n + chal + sec + 2) with (bit_length n + (sec + chal) + 2) in Q by lia. rewrite !(Z.pow_add_r 2 _ 2), (Z.pow_add_r 2 (bit_length n)) in Q by lia. fold T in Q.
    assert (n * T <= 2 ^ bit_length n * T) by (apply Z.mul_le_mono_nonneg_r; lia). change (2 ^ 2) with 4 in Q. lia.
  - intros i e m d Ee Em Edp. assert (Hi : (i < length ms)%nat) by (rewrite Lev; apply nth_error_Some; congruence).
    rewrite Ndp in Edp by exact Hi. assert (Hd : d = dpt i) by congruence. destruct (Eat i Hi) as (e' & Ee' & _ & Ve). assert (e' = e) by congruence. subst e'.
    assert (Hm : m = mval i). { apply (nth_error_nth _ _ 0) in Em. unfold masked in Em. rewrite seq_map_nth in Em. destruct (Nat.ltb_spec i k); [congruence|lia]. }
    rewrite Hm, Hd. unfold mval, dpt. destruct (Nat.ltb_spec i (length ms)); [|lia]. rewrite (nth_error_nth _ _ _ Ee). rewrite (pmul_add C L). f_equal.
    rewrite Z.mul_comm, (pmul_mul C L). f_equal. rewrite Z.add_comm. exact Ve.
  - assert (Emask : masked = vadd dms (vscale c (vadd ms (repeat key k)))).
    { apply (nth_ext _ _ 0 0).
      - rewrite vadd_len, vscale_len, vadd_len, repeat_length. unfold masked. rewrite map_length, seq_length. lia.
      - intros i Hi. unfold masked in *. rewrite map_length, seq_length in Hi. rewrite vadd_nth, vscale_nth, vadd_nth, repeat_nth, seq_map_nth, Ndm by exact Hi.
        destruct (Nat.ltb_spec i k); [|lia]. unfold mval, dval. destruct (Nat.ltb_spec i (length ms)); [lia|]. rewrite (nth_overflow ms) by lia. lia. }
    unfold commitment. fold (raw_commit pp masked (dop + (ko + opn) * c)). rewrite Emask.
    assert (Nms : nonneg ms) by (eapply Forall_impl; [|exact Hms]; cbn beta; intros; lia). assert (Nk : nonneg (repeat key k)) by (apply nonneg_repeat; lia).
    rewrite (Z.mul_comm (ko + opn) c), (Z.add_comm ko opn).
    rewrite raw_commit_add; [|exact Pdm|apply nonneg_vscale; [lia|apply nonneg_vadd; assumption]|lia|apply Z.mul_nonneg_nonneg; lia].
    rewrite raw_commit_scale by (lia || (apply nonneg_vadd; assumption)). rewrite raw_commit_add by (assumption || lia).
    apply eqmod_eq; [lia|]. unfold dc. rewrite eqmod_mod. rewrite (eqmod_pow N (com * of_bytes pk) (raw_commit pp ms opn * raw_commit pp (repeat key k) ko) c); [reflexivity|].
    rewrite Hcom, Hpk. unfold commitment. rewrite !eqmod_mod. reflexivity.
Qed.
End Apply.
