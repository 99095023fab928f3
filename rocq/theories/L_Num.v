(** Lemmas about the numeric helpers. *)
From Coq Require Import Zpow_facts Znumtheory.
From Verif Require Import Base M_BigNum S_BigNum L_BigNum L_BigNumP L_Mod M_Num S_Num.

(** ** Random oracle *)

Lemma be_value_app s t : be_value (s ++ t) = be_value s * 256 ^ Z.of_nat (length t) + be_value t.
Proof.
  induction s as [|b s IH]; cbn [app be_value]; [lia|].
  rewrite IH, app_length, Nat2Z.inj_add, Z.pow_add_r by lia. ring.
Qed.

Lemma ro_loop_ok hl H n : 0 <= hl -> forall i x acc, 0 <= i -> exists v, ro_loop hl H n i x acc = Ok v.
Proof.
  intros Hh. induction n as [|n IH]; intros i x acc Hi; [eexists; reflexivity|]. cbn [ro_loop].
  unfold bn_lshift. destruct (Z.ltb_spec hl 0); [lia|]. cbn [bind].
  destruct (to_bytes_of i Hi) as (s & E & _). rewrite E. cbn [bind]. apply IH. lia.
Qed.

Lemma ro_loop_value hl H n : 0 <= hl -> (forall y, 8 * Z.of_nat (length (H y)) = hl) ->
  forall i x acc s, 0 <= i -> counter_blocks H x i n s ->
  ro_loop hl H n i x acc = Ok (acc * 2 ^ (hl * Z.of_nat n) + be_value s) /\ 8 * Z.of_nat (length s) = hl * Z.of_nat n.
Proof.
  intros Hh Hlen. induction n as [|n IH]; intros i x acc s Hi Hc.
  - inversion Hc; subst. cbn [ro_loop be_value length]. rewrite Z.mul_0_r. split; [f_equal; lia|lia].
  - inversion Hc as [|? ? ctr s' Hcan Hval Hc']; subst. cbn [ro_loop]. unfold bn_lshift. destruct (Z.ltb_spec hl 0); [lia|]. cbn [bind].
    assert (Hb : to_bytes (be_value ctr) = Ok ctr).
    { rewrite <- of_bytes_value. rewrite to_bytes_of_bytes. destruct ctr as [|b c]; [reflexivity|].
      cbn [strip_zeros]. cbn in Hcan. destruct (Z.eqb_spec (bz b) 0); [contradiction|reflexivity]. }
    rewrite Hb. cbn [bind].
    destruct (IH (be_value ctr + 1) x (acc * 2 ^ hl + of_bytes (H (ctr ++ x))) s' ltac:(lia) Hc') as [E El].
    rewrite E. split.
    + f_equal. rewrite be_value_app, of_bytes_value.
      replace (256 ^ Z.of_nat (length s')) with (2 ^ (hl * Z.of_nat n)).
      * rewrite Nat2Z.inj_succ, Z.mul_succ_r, Z.pow_add_r by nia. ring.
      * change 256 with (2 ^ 8). rewrite <- Z.pow_mul_r by lia. f_equal. lia.
    + rewrite app_length, Nat2Z.inj_add, Nat2Z.inj_succ. specialize (Hlen (ctr ++ x)). lia.
Qed.

Lemma ro_iterations_ge hl ob : 0 < hl -> ob <= ro_iterations hl ob * hl < ob + hl.
Proof.
  intros Hh. unfold ro_iterations.
  pose proof (Z.div_mod (ob + hl - 1) hl ltac:(lia)) as E.
  pose proof (Z.mod_pos_bound (ob + hl - 1) hl Hh) as B. rewrite Z.mul_comm. lia.
Qed.

Lemma random_oracle_total hl H x max_value : 0 < hl -> 0 < max_value ->
  let need := ro_iterations hl (bit_length max_value + hl) * hl in
  (need < 130048 -> exists r, random_oracle hl H x max_value = Ok r /\ 0 <= r < max_value) /\
  (130048 <= need -> random_oracle hl H x max_value = Crash).
Proof.
  intros Hh Hm need. unfold random_oracle. fold need.
  destruct (Z.ltb_spec need 130048) as [Hn|Hn]; cbn [negb]; (split; intros Hx; [|try lia]); try lia; [|reflexivity].
  destruct (ro_loop_ok hl H (Z.to_nat (ro_iterations hl (bit_length max_value + hl))) ltac:(lia) 1 x 0 ltac:(lia)) as [v E].
  rewrite E. cbn [bind].
  pose proof (ro_iterations_ge hl (bit_length max_value + hl) Hh) as Hge. fold need in Hge.
  unfold bn_rshift. destruct (Z.ltb_spec (need - (bit_length max_value + hl)) 0); [lia|]. cbn [bind].
  unfold bn_mod. destruct (Z.eqb_spec max_value 0); [lia|]. eexists. split; [reflexivity|].
  rewrite Z.abs_eq by lia. apply Z.mod_pos_bound. lia.
Qed.

Lemma random_oracle_value hl H x max_value s : 0 < hl -> 0 < max_value -> (forall y, 8 * Z.of_nat (length (H y)) = hl) ->
  let iter := ro_iterations hl (bit_length max_value + hl) in
  iter * hl < 130048 -> counter_blocks H x 1 (Z.to_nat iter) s ->
  random_oracle hl H x max_value = Ok (be_value s / 2 ^ (iter * hl - (bit_length max_value + hl)) mod max_value).
Proof.
  intros Hh Hm Hlen iter Hn Hc. unfold random_oracle. fold iter.
  destruct (Z.ltb_spec (iter * hl) 130048); [|lia]. cbn [negb].
  destruct (ro_loop_value hl H (Z.to_nat iter) ltac:(lia) Hlen 1 x 0 s ltac:(lia) Hc) as [E _].
  rewrite E. cbn [bind].
  pose proof (ro_iterations_ge hl (bit_length max_value + hl) Hh) as Hge. fold iter in Hge.
  unfold bn_rshift. destruct (Z.ltb_spec (iter * hl - (bit_length max_value + hl)) 0); [lia|]. cbn [bind].
  unfold bn_mod. destruct (Z.eqb_spec max_value 0); [lia|]. rewrite Z.abs_eq by lia. f_equal. f_equal.
  rewrite Z.mul_0_l, Z.add_0_l. apply Z.quot_div_nonneg; [apply be_value_range|apply Z.pow_pos_nonneg; lia].
Qed.

Lemma counter_blocks_exists H x n i : 0 <= i -> exists s, counter_blocks H x i n s.
Proof.
  revert i. induction n as [|n IH]; intros i Hi; [exists []; constructor|].
  destruct (IH (i + 1) ltac:(lia)) as [s Hs]. destruct (to_bytes_of i Hi) as (c & E & V).
  exists (H (c ++ x) ++ s). constructor; [exact (to_bytes_canonical i c E)|rewrite <- of_bytes_value; exact V|exact Hs].
Qed.

(** Number of v in [0,n) with v mod m = r. *)
Definition count_residue (n m r : Z) : Z := Z.of_nat (length (filter (fun v => v mod m =? r) (map Z.of_nat (seq 0 (Z.to_nat n))))).

Lemma count_residue_formula m r : 0 < m -> 0 <= r < m -> forall n : nat,
  Z.of_nat (length (filter (fun v => v mod m =? r) (map Z.of_nat (seq 0 n)))) = (Z.of_nat n - r + m - 1) / m.
Proof.
  intros Hm Hr. induction n as [|n IH].
  - cbn [seq map filter length]. symmetry. apply Z.div_small. lia.
  - rewrite seq_S, map_app, filter_app, app_length, Nat2Z.inj_add, IH. cbn [Nat.add map filter].
    rewrite Nat2Z.inj_succ.
    destruct (Z.eqb_spec (Z.of_nat n mod m) r) as [E|E].
    + cbn [length]. pose proof (Z.div_mod (Z.of_nat n) m ltac:(lia)) as D. rewrite E in D.
      replace (Z.of_nat n - r + m - 1) with ((m - 1) + (Z.of_nat n / m) * m) by lia.
      replace (Z.succ (Z.of_nat n) - r + m - 1) with (0 + (Z.of_nat n / m + 1) * m) by lia.
      rewrite !Z.div_add by lia. rewrite (Z.div_small (m - 1)) by lia. rewrite Z.div_0_l by lia. lia.
    + cbn [length]. pose proof (Z.div_mod (Z.of_nat n) m ltac:(lia)) as D.
      pose proof (Z.mod_pos_bound (Z.of_nat n) m Hm) as B. set (q := Z.of_nat n / m) in *. set (t := Z.of_nat n mod m) in *.
      destruct (Z.lt_ge_cases t r).
      * replace (Z.of_nat n - r + m - 1) with ((t - r + m - 1) + q * m) by lia.
        replace (Z.succ (Z.of_nat n) - r + m - 1) with ((t - r + m) + q * m) by lia.
        rewrite !Z.div_add by lia. rewrite !Z.div_small by lia. lia.
      * replace (Z.of_nat n - r + m - 1) with ((t - r - 1) + (q + 1) * m) by lia.
        replace (Z.succ (Z.of_nat n) - r + m - 1) with ((t - r) + (q + 1) * m) by lia.
        rewrite !Z.div_add by lia. rewrite !Z.div_small by lia. lia.
Qed.

Lemma count_residue_bounds n m r : 0 < m -> 0 <= n -> 0 <= r < m -> n / m <= count_residue n m r <= n / m + 1.
Proof.
  intros Hm Hn Hr. unfold count_residue. rewrite count_residue_formula by assumption. rewrite Z2Nat.id by exact Hn.
  pose proof (Z.div_mod n m ltac:(lia)). pose proof (Z.mod_pos_bound n m Hm). set (q := n / m) in *.
  split; [apply Z.div_le_lower_bound; nia|]. assert ((n - r + m - 1) / m < q + 2); [apply Z.div_lt_upper_bound; nia|lia].
Qed.

(** ** PRF *)

Lemma get_last_n_bits_nonneg x n : 0 <= x -> get_last_n_bits x n = x mod 2 ^ n.
Proof.
  intros Hx. unfold get_last_n_bits. destruct (Z.eq_dec x 0) as [->|Hn]; [rewrite Zmod_0_l; reflexivity|].
  rewrite Z.sgn_pos, Z.abs_eq by lia. lia.
Qed.

Lemma prf_sound mac key max_value : 80 <= Z.of_nat (length key) * 8 -> bit_length max_value <= 512 ->
  forall fuel data,
  (exists k v, (k < fuel)%nat /\ prf mac fuel key data max_value = Ok v /\ prf_first mac key data (bit_length max_value) max_value k v) \/
  (prf mac fuel key data max_value = Diverge /\
   forall j, (j < fuel)%nat -> max_value <= prf_candidate mac key data (bit_length max_value) j).
Proof.
  intros Hk Hb. induction fuel as [|fuel IH]; intros data.
  - right. split; [reflexivity|lia].
  - cbn [prf]. destruct (Z.ltb_spec (Z.of_nat (length key) * 8) 80); [lia|]. destruct (Z.ltb_spec 512 (bit_length max_value)); [lia|].
    rewrite of_bytes_value. rewrite get_last_n_bits_nonneg by apply be_value_range.
    assert (E0 : prf_candidate mac key data (bit_length max_value) 0 = be_value (mac key data) mod 2 ^ bit_length max_value) by reflexivity.
    rewrite <- E0. destruct (Z.ltb_spec (prf_candidate mac key data (bit_length max_value) 0) max_value) as [Hlt|Hge].
    + left. exists 0%nat, (prf_candidate mac key data (bit_length max_value) 0). split; [lia|]. split; [reflexivity|].
      split; [reflexivity|]. split; [exact Hlt|lia].
    + rewrite <- of_bytes_value, to_bytes_of_bytes. cbn [bind].
      assert (Hshift : forall j, prf_candidate mac key (strip_zeros (mac key data)) (bit_length max_value) j =
                                 prf_candidate mac key data (bit_length max_value) (S j)).
      { intros j. unfold prf_candidate. do 3 f_equal.
        induction j as [|j IHj]; [reflexivity|]. cbn [prf_message] in *. rewrite IHj. reflexivity. }
      destruct (IH (strip_zeros (mac key data))) as [(k & v & Hkf & E & (Hv & Hlt & Hall))|[E Hall]].
      * left. exists (S k), v. split; [lia|]. split; [exact E|]. split; [rewrite Hv; apply Hshift|]. split; [exact Hlt|].
        intros [|j] Hj; [exact Hge|]. rewrite <- Hshift. apply Hall. lia.
      * right. split; [exact E|]. intros [|j] Hj; [exact Hge|]. rewrite <- Hshift. apply Hall. lia.
Qed.

Lemma prf_first_unique mac key data bits max_value k v k' v' :
  prf_first mac key data bits max_value k v -> prf_first mac key data bits max_value k' v' -> k = k' /\ v = v'.
Proof.
  intros (E & L & A) (E' & L' & A'). assert (k = k').
  { destruct (Nat.lt_trichotomy k k') as [Hl|[Hl|Hl]]; [|exact Hl|].
    - specialize (A' k Hl). lia.
    - specialize (A k' Hl). lia. }
  subst k'. split; [reflexivity|congruence].
Qed.

Lemma prf_complete mac key data max_value k v fuel : 80 <= Z.of_nat (length key) * 8 -> bit_length max_value <= 512 ->
  prf_first mac key data (bit_length max_value) max_value k v -> (k < fuel)%nat -> prf mac fuel key data max_value = Ok v.
Proof.
  intros Hk Hb Hf Hl. destruct (prf_sound mac key max_value Hk Hb fuel data) as [(k' & v' & _ & E & Hf')|[_ A]].
  - destruct (prf_first_unique _ _ _ _ _ _ _ _ _ Hf Hf') as [_ ->]. exact E.
  - destruct Hf as (E & L & _). specialize (A k Hl). lia.
Qed.

Lemma prf_aborts mac fuel key data max_value : (0 < fuel)%nat ->
  (Z.of_nat (length key) * 8 < 80 \/ 512 < bit_length max_value) -> prf mac fuel key data max_value = Crash.
Proof.
  intros Hf H. destruct fuel; [lia|]. cbn [prf]. destruct (Z.ltb_spec (Z.of_nat (length key) * 8) 80); [reflexivity|].
  destruct (Z.ltb_spec 512 (bit_length max_value)); [reflexivity|lia].
Qed.

(** ** CRT *)

Lemma crt_create_ok m1 m2 : 0 < m1 -> 0 < m2 -> Z.gcd m1 m2 = 1 ->
  exists c, crt_create m1 m2 = Ok c /\ crt_product c = m1 * m2 /\
    eqmod m1 (crt_term1 c) 1 /\ eqmod m2 (crt_term1 c) 0 /\ eqmod m1 (crt_term2 c) 0 /\ eqmod m2 (crt_term2 c) 1.
Proof.
  intros H1 H2 Hg. unfold crt_create.
  destruct (bn_mod_inverse_ok m2 m1 H1) as (i1 & E1 & B1 & I1); [rewrite Z.gcd_comm; exact Hg|].
  destruct (bn_mod_inverse_ok m1 m2 H2) as (i2 & E2 & B2 & I2); [exact Hg|].
  rewrite E1. cbn [value_or_crash bind]. rewrite E2. cbn [value_or_crash bind].
  eexists. split; [reflexivity|]. cbn [crt_product crt_term1 crt_term2]. split; [reflexivity|].
  repeat split.
  - apply eq_eqmod. exact I1.
  - apply eqmod_mul_self_l.
  - apply eqmod_mul_self_l.
  - apply eq_eqmod. exact I2.
Qed.

Lemma crt_correct m1 m2 c s1 s2 : 0 < m1 -> 0 < m2 -> Z.gcd m1 m2 = 1 -> crt_create m1 m2 = Ok c ->
  exists r, crt_compute c s1 s2 = Ok r /\ 0 <= r < m1 * m2 /\ r mod m1 = s1 mod m1 /\ r mod m2 = s2 mod m2.
Proof.
  intros H1 H2 Hg Hc. destruct (crt_create_ok m1 m2 H1 H2 Hg) as (c' & E & Ep & A & B & C & D).
  rewrite Hc in E. injection E as <-.
  unfold crt_compute, bn_mod. rewrite Ep. destruct (Z.eqb_spec (m1 * m2) 0); [nia|]. rewrite Z.abs_eq by nia.
  eexists. split; [reflexivity|]. split; [apply Z.mod_pos_bound; nia|].
  split; apply eqmod_eq; try assumption.
  - rewrite (eqmod_divide m1 (m1 * m2) _ _ (Z.divide_factor_l m1 m2) (eqmod_mod (m1 * m2) _)).
    rewrite A, C. rewrite Z.mul_1_r, Z.mul_0_r, Z.add_0_r. reflexivity.
  - rewrite (eqmod_divide m2 (m1 * m2) _ _ (Z.divide_factor_r m2 m1) (eqmod_mod (m1 * m2) _)).
    rewrite B, D. rewrite Z.mul_1_r, Z.mul_0_r, Z.add_0_l. reflexivity.
Qed.

Lemma crt_unique m1 m2 r r' : 0 < m1 -> 0 < m2 -> Z.gcd m1 m2 = 1 -> 0 <= r < m1 * m2 -> 0 <= r' < m1 * m2 ->
  r mod m1 = r' mod m1 -> r mod m2 = r' mod m2 -> r = r'.
Proof.
  intros H1 H2 Hg B B' E1 E2. apply (eqmod_small (m1 * m2)); try assumption.
  apply eqmod_coprime_mul; [exact Hg|apply eq_eqmod; exact E1|apply eq_eqmod; exact E2].
Qed.

Lemma crt_not_coprime m1 m2 : 0 < m1 -> 0 < m2 -> Z.gcd m1 m2 <> 1 -> crt_create m1 m2 = Crash.
Proof.
  intros H1 H2 Hg. unfold crt_create. rewrite (bn_mod_inverse_err m2 m1 H1); [reflexivity|]. rewrite Z.gcd_comm. exact Hg.
Qed.

(** ** Montgomery form *)

Definition mont_valid (c : mont_ctx) : Prop := 0 < mc_modulus c /\ eqmod (mc_modulus c) (mc_R c * mc_Rinv c) 1.
(** [a] is the Montgomery form of [x]. *)
Definition mont_form (c : mont_ctx) (a x : Z) : Prop := a = (x * mc_R c) mod mc_modulus c.

Lemma gcd_pow2_odd m k : 0 <= k -> Z.odd m = true -> Z.gcd (2 ^ k) m = 1.
Proof.
  intros Hk Hm. apply Zgcd_1_rel_prime. apply rel_prime_sym. apply rel_prime_Zpower_r; [exact Hk|].
  apply rel_prime_sym, prime_rel_prime; [exact prime_2|].
  intros [q Hq]. rewrite Hq, Z.odd_mul, andb_false_r in Hm. discriminate.
Qed.

Lemma mont_context_ok m : 0 < m -> Z.odd m = true -> exists c, mont_context m = Ok c /\ mont_valid c /\ mc_modulus c = m.
Proof.
  intros Hm Ho. unfold mont_context. destruct (Z.leb_spec m 0); [lia|].
  rewrite <- Z.negb_odd, Ho. cbn [negb].
  pose proof (bit_length_nonneg m) as Hb.
  assert (Hk : 0 <= 64 * ((bit_length m + 63) / 64)) by (apply Z.mul_nonneg_nonneg; [lia|apply Z.div_pos; lia]).
  destruct (bn_mod_inverse_ok (2 ^ (64 * ((bit_length m + 63) / 64))) m Hm (gcd_pow2_odd m _ Hk Ho)) as (ri & E & _ & I).
  rewrite E. cbn [value_or_crash bind]. eexists. split; [reflexivity|]. unfold mont_valid. cbn [mc_modulus mc_R mc_Rinv].
  split; [|reflexivity]. split; [exact Hm|]. apply eq_eqmod. exact I.
Qed.

Lemma mont_context_bad m : m <= 0 \/ Z.odd m = false -> mont_context m = Crash.
Proof.
  intros H. unfold mont_context. destruct (Z.leb_spec m 0); [reflexivity|]. destruct H as [H|H]; [lia|].
  rewrite <- Z.negb_odd, H. reflexivity.
Qed.

Lemma mont_create_ok c x : 0 <= x < mc_modulus c -> exists a, mont_create c x = Ok a /\ mont_form c a x.
Proof.
  intros H. unfold mont_create. destruct (Z.ltb_spec x (mc_modulus c)); [|lia]. destruct (Z.ltb_spec x 0); [lia|].
  cbn [negb]. eexists. split; [reflexivity|reflexivity].
Qed.

Lemma mont_create_bad c x : ~ 0 <= x < mc_modulus c -> mont_create c x = Crash.
Proof.
  intros H. unfold mont_create. destruct (Z.ltb_spec x (mc_modulus c)); [|reflexivity]. destruct (Z.ltb_spec x 0); [reflexivity|lia].
Qed.

Lemma mont_form_eqmod c a x : mont_form c a x -> eqmod (mc_modulus c) a (x * mc_R c).
Proof. intros ->. apply eqmod_mod. Qed.

Lemma mont_mul_form c a b x y : mont_valid c -> mont_form c a x -> mont_form c b y -> mont_form c (mont_mul c a b) (x * y).
Proof.
  intros [Hm HR] Ha Hb. unfold mont_form, mont_mul. apply eqmod_eq; [exact Hm|].
  rewrite (mont_form_eqmod _ _ _ Ha), (mont_form_eqmod _ _ _ Hb).
  replace (x * mc_R c * (y * mc_R c) * mc_Rinv c) with (x * y * mc_R c * (mc_R c * mc_Rinv c)) by ring.
  rewrite HR. rewrite Z.mul_1_r. reflexivity.
Qed.

Lemma mont_to_bignum_form c a x : mont_valid c -> mont_form c a x -> mont_to_bignum c a = x mod mc_modulus c.
Proof.
  intros [Hm HR] Ha. unfold mont_to_bignum. apply eqmod_eq; [exact Hm|].
  rewrite (mont_form_eqmod _ _ _ Ha). rewrite <- Z.mul_assoc, HR, Z.mul_1_r. reflexivity.
Qed.

Lemma mont_form_inj c a x y : mont_valid c -> mont_form c a x -> mont_form c a y -> x mod mc_modulus c = y mod mc_modulus c.
Proof. intros V Hx Hy. rewrite <- (mont_to_bignum_form c a x V Hx). apply mont_to_bignum_form; assumption. Qed.

(** ** Fixed base exponentiation *)

Lemma tk_fill_nth c g base n : mont_valid c -> mont_form c g base -> forall last e, 0 <= e -> mont_form c last (base ^ e) ->
  forall k, (k < n)%nat -> exists v, nth_error (tk_fill n c g last) k = Some v /\ mont_form c v (base ^ (e + 1 + Z.of_nat k)).
Proof.
  intros V Hg. induction n as [|n IH]; intros last e He Hl k Hk; [lia|]. cbn [tk_fill].
  assert (Hn : mont_form c (mont_mul c last g) (base ^ (e + 1))).
  { rewrite Z.pow_add_r, Z.pow_1_r by lia. apply mont_mul_form; assumption. }
  destruct k as [|k].
  - cbn [nth_error]. eexists. split; [reflexivity|]. rewrite Z.add_0_r. exact Hn.
  - cbn [nth_error]. destruct (IH _ (e + 1) ltac:(lia) Hn k ltac:(lia)) as (v & E & F). exists v. split; [exact E|].
    rewrite Nat2Z.inj_succ. replace (e + 1 + Z.succ (Z.of_nat k)) with (e + 1 + 1 + Z.of_nat k) by lia. exact F.
Qed.

Lemma tk_square_form c n : mont_valid c -> forall z x, mont_form c z x -> mont_form c (tk_square n c z) (x ^ (2 ^ Z.of_nat n)).
Proof.
  intros V. induction n as [|n IH]; intros z x H; cbn [tk_square].
  - rewrite Z.pow_1_r. exact H.
  - rewrite Nat2Z.inj_succ, Z.pow_succ_r by lia. rewrite Z.pow_mul_r by lia. apply IH.
    rewrite Z.pow_2_r. apply mont_mul_form; assumption.
Qed.

Definition tk_valid (t : two_k_ary) (base : Z) : Prop :=
  mont_valid (tk_ctx t) /\
  forall k, 0 <= k < 256 -> exists v, nth_error (tk_cache t) (Z.to_nat k) = Some v /\ mont_form (tk_ctx t) v (base ^ k).

Lemma tk_loop_form t base s : tk_valid t base -> forall z e, 0 <= e -> mont_form (tk_ctx t) z (base ^ e) ->
  exists z', tk_loop t s z = Ok z' /\ mont_form (tk_ctx t) z' (base ^ (e * 256 ^ Z.of_nat (length s) + be_value s)).
Proof.
  intros [V Hc]. induction s as [|b s IH]; intros z e He Hz.
  - cbn [tk_loop length be_value]. exists z. split; [reflexivity|]. change (256 ^ Z.of_nat 0) with 1. rewrite Z.mul_1_r, Z.add_0_r. exact Hz.
  - cbn [tk_loop]. destruct (Hc (bz b) (bz_range b)) as (v & E & F). rewrite E.
    assert (Hn : mont_form (tk_ctx t) (mont_mul (tk_ctx t) (tk_square 8 (tk_ctx t) z) v) (base ^ (e * 256 + bz b))).
    { rewrite Z.pow_add_r by (pose proof (bz_range b); lia). apply mont_mul_form; [exact V| |exact F].
      rewrite Z.pow_mul_r by lia. exact (tk_square_form _ 8 V z (base ^ e) Hz). }
    destruct (IH _ (e * 256 + bz b) ltac:(pose proof (bz_range b); lia) Hn) as (z' & E' & F'). exists z'. split; [exact E'|].
    cbn [be_value length]. rewrite Nat2Z.inj_succ, Z.pow_succ_r by lia.
    replace (e * (256 * 256 ^ Z.of_nat (length s)) + (bz b * 256 ^ Z.of_nat (length s) + be_value s))
      with ((e * 256 + bz b) * 256 ^ Z.of_nat (length s) + be_value s) by ring. exact F'.
Qed.

Lemma tk_create_ok base m : 1 < m -> Z.odd m = true -> 0 <= base < m ->
  exists t, tk_create base m = Ok t /\ tk_valid t base /\ mc_modulus (tk_ctx t) = m /\ length (tk_cache t) = 258%nat.
Proof.
  intros Hm Ho Hb. unfold tk_create. destruct (mont_context_ok m ltac:(lia) Ho) as (c & E & V & Ec). rewrite E. cbn [bind].
  destruct (mont_create_ok c 1 ltac:(lia)) as (one & E1 & F1). rewrite E1. cbn [bind].
  destruct (mont_create_ok c base ltac:(lia)) as (g & Eg & Fg). rewrite Eg. cbn [bind].
  eexists. split; [reflexivity|]. cbn [tk_ctx tk_cache]. split; [|split; [exact Ec|]].
  - split; [exact V|]. cbn [tk_cache tk_ctx]. intros k Hk.
    destruct (Z.eq_dec k 0) as [->|]; [exists one; split; [reflexivity|exact F1]|].
    destruct (Z.eq_dec k 1) as [->|]; [exists g; split; [reflexivity|rewrite Z.pow_1_r; exact Fg]|].
    assert (Fg1 : mont_form c g (base ^ 1)) by (rewrite Z.pow_1_r; exact Fg).
    destruct (tk_fill_nth c g base (Z.to_nat 256) V Fg g 1 ltac:(lia) Fg1 (Z.to_nat (k - 2)) ltac:(lia)) as (v & Ev & Fv).
    exists v. split.
    + replace (Z.to_nat k) with (S (S (Z.to_nat (k - 2)))) by lia. exact Ev.
    + replace k with (1 + 1 + Z.of_nat (Z.to_nat (k - 2))) by lia. exact Fv.
  - cbn [length]. assert (H : forall n last, length (tk_fill n c g last) = n) by (induction n; intros; cbn [tk_fill length]; [reflexivity|f_equal; apply IHn]).
    rewrite H. reflexivity.
Qed.

Lemma tk_mod_exp_ok t base e : tk_valid t base -> 0 <= e -> tk_mod_exp t e = Ok (base ^ e mod mc_modulus (tk_ctx t)).
Proof.
  intros Ht He. unfold tk_mod_exp. pose proof Ht as [V Hc]. destruct (Hc 0 ltac:(lia)) as (one & E1 & F1).
  change (Z.to_nat 0) with 0%nat in E1. rewrite E1. destruct (to_bytes_of e He) as (s & Es & Vs). rewrite Es. cbn [bind].
  destruct (tk_loop_form t base s Ht one 0 ltac:(lia) F1) as (z & Ez & Fz). rewrite Ez. cbn [bind]. f_equal.
  rewrite (mont_to_bignum_form _ _ _ V Fz). rewrite Z.mul_0_l, Z.add_0_l, <- of_bytes_value, Vs. reflexivity.
Qed.

(** ** Random numbers *)

Lemma relatively_prime_random_spec raws num r : 0 < num -> relatively_prime_random raws num = Ok r -> 0 <= r < num /\ Z.gcd r num <= 1.
Proof.
  intros Hn. induction raws as [|raw raws IH]; cbn [relatively_prime_random]; [discriminate|].
  unfold generate_rand_less_than. destruct (Z.leb_spec num 0); [lia|]. cbn [bind]. unfold bn_gcd.
  destruct (Z.ltb_spec 1 (Z.gcd (raw mod num) num)) as [Hc|Hc]; [exact IH|].
  intros E. injection E as <-. split; [apply Z.mod_pos_bound, Hn|exact Hc].
Qed.
