(** Lemmas about whole Paillier keys: encryption, decryption and homomorphic operations. *)
From Coq Require Import Znumtheory.
From Verif Require Import Base M_BigNum L_BigNum M_Num L_Mod L_Num L_NT M_DJ L_DJ M_Paillier S_Paillier L_Paillier.

Lemma eqmod_split_pow p q k a b : 0 <= k -> eqmod ((p * q) ^ k) a b -> eqmod (p ^ k) a b /\ eqmod (q ^ k) a b.
Proof.
  intros Hk H. rewrite Z.pow_mul_l in H. split; (eapply eqmod_divide; [|exact H]); [apply Z.divide_factor_l|apply Z.divide_factor_r].
Qed.
Lemma eqmod_join_pow p q k a b : 0 <= k -> Z.gcd p q = 1 -> eqmod (p ^ k) a b -> eqmod (q ^ k) a b -> eqmod ((p * q) ^ k) a b.
Proof. intros Hk G A B. rewrite Z.pow_mul_l. apply eqmod_coprime_mul; try assumption. apply gcd_pow_l, gcd_pow_r; assumption. Qed.

Lemma gcd_mul_inv_r a p q : Z.gcd a (p * q) = 1 -> Z.gcd a p = 1 /\ Z.gcd a q = 1.
Proof. intros H. split; (eapply gcd_divide_r; [|exact H]); [apply Z.divide_factor_l|apply Z.divide_factor_r]. Qed.
Lemma gcd_mul_r a p q : Z.gcd a p = 1 -> Z.gcd a q = 1 -> Z.gcd a (p * q) = 1.
Proof. intros. rewrite Z.gcd_comm. apply gcd_mul_l; rewrite Z.gcd_comm; assumption. Qed.

(** r^(n^s) modulo p^(s+1) depends on r modulo p only. *)
Lemma mask_mod_p p o s a b : 0 < p -> 0 <= o -> eqmod p a b ->
  eqmod (p ^ (Z.of_nat s + 1)) (a ^ ((p * o) ^ Z.of_nat s)) (b ^ ((p * o) ^ Z.of_nat s)).
Proof.
  intros Hp Ho H. rewrite Z.pow_mul_l. rewrite !Z.pow_mul_r by (apply Z.pow_nonneg; lia).
  rewrite (lift p s a b Hp H). reflexivity.
Qed.

Section Key.
Variable is_safe_prime : Z -> bool.
Variable flag : bool.

Record priv_valid (p q : Z) (s : nat) (sk : private_paillier) : Prop := {
  k_p : pc_valid p q s (priv_p sk); k_q : pc_valid q p s (priv_q sk);
  k_ns : priv_n_to_s sk = (p * q) ^ Z.of_nat s; k_ns1 : priv_n_to_s1 sk = (p * q) ^ (Z.of_nat s + 1);
  k_enc : crt_create (p ^ (Z.of_nat s + 1)) (q ^ (Z.of_nat s + 1)) = Ok (priv_crt_enc sk);
  k_dec : crt_create (p ^ Z.of_nat s) (q ^ Z.of_nat s) = Ok (priv_crt_dec sk)
}.

Lemma private_inv p q s sk : safe_prime p -> safe_prime q -> (1 <= s)%nat -> private_create is_safe_prime flag p q s = Ok sk -> priv_valid p q s sk.
Proof.
  intros Hp Hq Hs E. destruct (safe_prime_facts p Hp) as (_ & Hp5 & _). destruct (safe_prime_facts q Hq) as (_ & Hq5 & _). unfold private_create in E.
  apply bind_ok in E. destruct E as (pc & Epc & E). apply (prime_crypto_inv is_safe_prime flag) in Epc; [|exact Hp|lia|exact Hs].
  apply bind_ok in E. destruct E as (qc & Eqc & E). apply (prime_crypto_inv is_safe_prime flag) in Eqc; [|exact Hq|lia|exact Hs].
  rewrite (v_pow _ _ _ _ Epc), (v_pow _ _ _ _ Eqc) in E. rewrite !get_powers_at in E by lia. cbn [bind] in E.
  replace (Z.of_nat (s + 1)) with (Z.of_nat s + 1) in E by lia.
  apply bind_ok in E. destruct E as (enc & Eenc & E).
  apply bind_ok in E. destruct E as (dec & Edec & E). injection E as <-.
  constructor; cbn; try assumption.
  - unfold bn_exp. rewrite Z.abs_eq by lia. reflexivity.
  - unfold bn_exp. rewrite Z.abs_eq by lia. rewrite Z.pow_add_r, Z.pow_1_r by lia. ring.
Qed.

Section Priv.
Variables (p q : Z) (s : nat) (sk : private_paillier).
Hypothesis K : priv_valid p q s sk.
Let n := p * q.

Lemma priv_coprime : Z.gcd p q = 1.
Proof. rewrite Z.gcd_comm. apply (v_cop _ _ _ _ (k_p _ _ _ _ K)). Qed.
Lemma priv_ge : 5 <= p /\ 5 <= q.
Proof. split; [apply (v_ge _ _ _ _ (k_p _ _ _ _ K))|apply (v_ge _ _ _ _ (k_q _ _ _ _ K))]. Qed.
Lemma priv_gcd_pow k : 0 <= k -> Z.gcd (p ^ k) (q ^ k) = 1.
Proof. intros Hk. apply gcd_pow_l; [exact Hk|]. apply gcd_pow_r; [exact Hk|]. apply priv_coprime. Qed.
Lemma priv_n_qp : q * p = n.
Proof. unfold n. ring. Qed.

(** [d] is the plaintext of [c]. *)
Definition plain_of (c d : Z) : Prop :=
  eqmod (p ^ (Z.of_nat s + 1)) (c ^ (p - 1)) ((1 + n) ^ (d * (p - 1))) /\
  eqmod (q ^ (Z.of_nat s + 1)) (c ^ (q - 1)) ((1 + n) ^ (d * (q - 1))).

Lemma priv_decrypt_is c d : in_range n s c -> 0 <= d -> plain_of c d -> priv_decrypt sk c = Ok (d mod n ^ Z.of_nat s).
Proof.
  intros [Hc0 Hc1] Hd [Ep Eq]. destruct priv_ge as [Hp Hq]. unfold priv_decrypt, is_non_negative. destruct (Z.ltb_spec c 0); [lia|]. cbn [negb].
  rewrite (k_ns1 _ _ _ _ K). fold n. destruct (Z.leb_spec (n ^ (Z.of_nat s + 1)) c); [lia|].
  rewrite (pc_decrypt_is p q s _ (k_p _ _ _ _ K) c d Hd Ep). cbn [bind].
  rewrite <- priv_n_qp in Eq. rewrite (pc_decrypt_is q p s _ (k_q _ _ _ _ K) c d Hd Eq). cbn [bind].
  assert (HP : 0 < p ^ Z.of_nat s) by (apply Z.pow_pos_nonneg; lia). assert (HQ : 0 < q ^ Z.of_nat s) by (apply Z.pow_pos_nonneg; lia).
  assert (G : Z.gcd (p ^ Z.of_nat s) (q ^ Z.of_nat s) = 1) by (apply priv_gcd_pow; lia).
  destruct (crt_correct _ _ _ (d mod p ^ Z.of_nat s) (d mod q ^ Z.of_nat s) HP HQ G (k_dec _ _ _ _ K)) as (r & Er & Br & R1 & R2). rewrite Er. f_equal.
  unfold n. rewrite Z.pow_mul_l. apply (crt_unique _ _ _ _ HP HQ G Br); [apply Z.mod_pos_bound, Z.mul_pos_pos; assumption| |].
  - rewrite R1, Z.mod_mod by lia. apply eqmod_eq; [exact HP|]. symmetry. apply (eqmod_divide _ _ _ _ (Z.divide_factor_l _ _) (eqmod_mod _ _)).
  - rewrite R2, Z.mod_mod by lia. apply eqmod_eq; [exact HQ|]. symmetry. apply (eqmod_divide _ _ _ _ (Z.divide_factor_r _ _) (eqmod_mod _ _)).
Qed.

Lemma unit_plain c : Z.gcd c n = 1 -> exists d, 0 <= d < n ^ Z.of_nat s /\ plain_of c d.
Proof.
  intros G. destruct (gcd_mul_inv_r _ _ _ G) as [Gp Gq]. destruct priv_ge as [Hp Hq].
  pose proof (v_prime _ _ _ _ (k_p _ _ _ _ K)) as Pp. pose proof (v_prime _ _ _ _ (k_q _ _ _ _ K)) as Pq.
  destruct (pc_decrypt_unit p q s _ (k_p _ _ _ _ K) c (unit_not_divides p c Pp Gp)) as (dp & _ & Bp & Ep).
  destruct (pc_decrypt_unit q p s _ (k_q _ _ _ _ K) c (unit_not_divides q c Pq Gq)) as (dq & _ & Bq & Eq).
  assert (HP : 0 < p ^ Z.of_nat s) by (apply Z.pow_pos_nonneg; lia). assert (HQ : 0 < q ^ Z.of_nat s) by (apply Z.pow_pos_nonneg; lia).
  assert (Gc : Z.gcd (p ^ Z.of_nat s) (q ^ Z.of_nat s) = 1) by (apply priv_gcd_pow; lia).
  destruct (crt_correct _ _ _ dp dq HP HQ Gc (k_dec _ _ _ _ K)) as (d & _ & Bd & R1 & R2). apply eq_eqmod in R1, R2.
  exists d. split; [unfold n; rewrite Z.pow_mul_l; exact Bd|]. split.
  - rewrite Ep. symmetry. apply (pc_period p q s _ (k_p _ _ _ _ K)); [apply Z.mul_nonneg_nonneg; [exact (proj1 Bd)|clear - Hp; lia]|apply Z.mul_nonneg_nonneg; [exact (proj1 Bp)|clear - Hp; lia]|]. rewrite R1. reflexivity.
  - rewrite Eq. rewrite <- priv_n_qp. symmetry. apply (pc_period q p s _ (k_q _ _ _ _ K)); [apply Z.mul_nonneg_nonneg; [exact (proj1 Bd)|clear - Hq; lia]|apply Z.mul_nonneg_nonneg; [exact (proj1 Bq)|clear - Hq; lia]|]. rewrite R2. reflexivity.
Qed.

Lemma plain_of_mod c d : 0 <= d -> plain_of c d -> plain_of c (d mod n ^ Z.of_nat s).
Proof.
  intros Hd [A B]. destruct priv_ge as [Hp Hq]. assert (Hn : 0 < n ^ Z.of_nat s) by (apply Z.pow_pos_nonneg; [apply Z.mul_pos_pos; clear - Hp Hq; lia|apply Nat2Z.is_nonneg]). pose proof (Z.mod_pos_bound d _ Hn) as Bdm.
  assert (Hm : eqmod (n ^ Z.of_nat s) (d mod n ^ Z.of_nat s) d) by apply eqmod_mod. apply eqmod_split_pow in Hm; [|lia]. destruct Hm as [Hmp Hmq].
  set (dm := d mod n ^ Z.of_nat s) in *. clearbody dm. split.
  - rewrite A. apply (pc_period p q s _ (k_p _ _ _ _ K)); [apply Z.mul_nonneg_nonneg; [exact Hd|clear - Hp; lia]|apply Z.mul_nonneg_nonneg; [exact (proj1 Bdm)|clear - Hp; lia]|]. rewrite Hmp. reflexivity.
  - rewrite B. rewrite <- priv_n_qp. apply (pc_period q p s _ (k_q _ _ _ _ K)); [apply Z.mul_nonneg_nonneg; [exact Hd|clear - Hq; lia]|apply Z.mul_nonneg_nonneg; [exact (proj1 Bdm)|clear - Hq; lia]|]. rewrite Hmq. reflexivity.
Qed.

Lemma plain_of_reduce c c' d : eqmod (n ^ (Z.of_nat s + 1)) c c' -> plain_of c' d -> plain_of c d.
Proof. intros E [A B]. apply eqmod_split_pow in E; [|lia]. destruct E as [E1 E2]. split; [rewrite E1; exact A|rewrite E2; exact B]. Qed.
Lemma plain_of_mul c1 d1 c2 d2 : 0 <= d1 -> 0 <= d2 -> plain_of c1 d1 -> plain_of c2 d2 -> plain_of (c1 * c2) (d1 + d2).
Proof.
  intros H1 H2 [A1 B1] [A2 B2]. destruct priv_ge. split; rewrite Z.pow_mul_l, Z.mul_add_distr_r, (Z.pow_add_r (1 + n)) by (apply Z.mul_nonneg_nonneg; lia).
  - rewrite A1, A2. reflexivity.
  - rewrite B1, B2. reflexivity.
Qed.
Lemma plain_of_pow c d k : 0 <= d -> 0 <= k -> plain_of c d -> plain_of (c ^ k) (d * k).
Proof.
  intros Hd Hk [A B]. destruct priv_ge. split.
  - replace (d * k * (p - 1)) with (d * (p - 1) * k) by ring. rewrite <- Z.pow_mul_r by lia. rewrite (Z.mul_comm k).
    rewrite (Z.pow_mul_r c), (Z.pow_mul_r (1 + n) (d * (p - 1))) by (try apply Z.mul_nonneg_nonneg; lia). rewrite A. reflexivity.
  - replace (d * k * (q - 1)) with (d * (q - 1) * k) by ring. rewrite <- Z.pow_mul_r by lia. rewrite (Z.mul_comm k).
    rewrite (Z.pow_mul_r c), (Z.pow_mul_r (1 + n) (d * (q - 1))) by (try apply Z.mul_nonneg_nonneg; lia). rewrite B. reflexivity.
Qed.

Lemma encrypts_plain c m : 0 <= m -> encrypts n s c m -> plain_of c m.
Proof.
  intros Hm (r & G & D). destruct (gcd_mul_inv_r _ _ _ G) as [Gp Gq]. destruct priv_ge as [Hp Hq].
  pose proof (v_prime _ _ _ _ (k_p _ _ _ _ K)) as Pp. pose proof (v_prime _ _ _ _ (k_q _ _ _ _ K)) as Pq.
  assert (D' : eqmod (n ^ (Z.of_nat s + 1)) c ((1 + n) ^ m * r ^ n ^ Z.of_nat s)) by exact D. apply eqmod_split_pow in D'; [|lia]. destruct D' as [Dp Dq]. split.
  - rewrite Dp, Z.pow_mul_l. unfold n. rewrite (mask_vanishes p q s _ (k_p _ _ _ _ K) r (unit_not_divides p r Pp Gp)), Z.mul_1_r, <- Z.pow_mul_r by lia. reflexivity.
  - rewrite Dq, Z.pow_mul_l. rewrite <- priv_n_qp. rewrite (mask_vanishes q p s _ (k_q _ _ _ _ K) r (unit_not_divides q r Pq Gq)), Z.mul_1_r, <- Z.pow_mul_r by lia. reflexivity.
Qed.

Lemma decrypt_encrypts c m : in_range n s c -> 0 <= m -> encrypts n s c m -> priv_decrypt sk c = Ok (m mod n ^ Z.of_nat s).
Proof. intros Hr Hm E. apply priv_decrypt_is; [exact Hr|exact Hm|]. apply encrypts_plain; assumption. Qed.

Lemma decrypt_nonunit c : in_range n s c -> Z.gcd c n <> 1 -> priv_decrypt sk c = Crash.
Proof.
  intros [Hc0 Hc1] G. pose proof (v_prime _ _ _ _ (k_p _ _ _ _ K)) as Pp. pose proof (v_prime _ _ _ _ (k_q _ _ _ _ K)) as Pq.
  unfold priv_decrypt, is_non_negative. destruct (Z.ltb_spec c 0); [lia|]. cbn [negb].
  rewrite (k_ns1 _ _ _ _ K). fold n. destruct (Z.leb_spec (n ^ (Z.of_nat s + 1)) c); [lia|].
  destruct (Zdivide_dec p c) as [Dp|Np]; [rewrite (pc_decrypt_nonunit p q s _ (k_p _ _ _ _ K) c Dp); reflexivity|].
  destruct (pc_decrypt_unit p q s _ (k_p _ _ _ _ K) c Np) as (d & Ed & _). rewrite Ed. cbn [bind].
  destruct (Zdivide_dec q c) as [Dq|Nq]; [rewrite (pc_decrypt_nonunit q p s _ (k_q _ _ _ _ K) c Dq); reflexivity|].
  exfalso. apply G. apply gcd_mul_r; apply prime_gcd; assumption.
Qed.

(** ** Private-key encryption *)

(** The two per-prime ciphertexts combine into one with randomness r = g_p^rp mod p, g_q^rq mod q. *)
Lemma combine_encrypts m cp cq rp rq c r : 0 <= m < n ^ Z.of_nat s -> 0 <= rp -> 0 <= rq ->
  eqmod (p ^ (Z.of_nat s + 1)) cp ((1 + n) ^ (m mod p ^ Z.of_nat s) * (pc_g (priv_p sk) ^ rp) ^ (n ^ Z.of_nat s)) ->
  eqmod (q ^ (Z.of_nat s + 1)) cq ((1 + n) ^ (m mod q ^ Z.of_nat s) * (pc_g (priv_q sk) ^ rq) ^ (n ^ Z.of_nat s)) ->
  eqmod (p ^ (Z.of_nat s + 1)) c cp -> eqmod (q ^ (Z.of_nat s + 1)) c cq ->
  eqmod p r (pc_g (priv_p sk) ^ rp) -> eqmod q r (pc_g (priv_q sk) ^ rq) ->
  encrypts_with n s c m r.
Proof.
  intros Hm Hrp Hrq Ep Eq Ecp Ecq Er1 Er2. destruct priv_ge as [Hp Hq].
  pose proof (v_prime _ _ _ _ (k_p _ _ _ _ K)) as Pp. pose proof (v_prime _ _ _ _ (k_q _ _ _ _ K)) as Pq.
  assert (HP : 0 < p ^ Z.of_nat s) by (apply Z.pow_pos_nonneg; lia). assert (HQ : 0 < q ^ Z.of_nat s) by (apply Z.pow_pos_nonneg; lia). split.
  - apply gcd_mul_r.
    + apply (gcd_eqmod _ _ _ Er1). apply gcd_pow_l; [exact Hrp|]. apply prime_gcd; [exact Pp|]. apply (v_g _ _ _ _ (k_p _ _ _ _ K)).
    + apply (gcd_eqmod _ _ _ Er2). apply gcd_pow_l; [exact Hrq|]. apply prime_gcd; [exact Pq|]. apply (v_g _ _ _ _ (k_q _ _ _ _ K)).
  - change (eqmod (n ^ (Z.of_nat s + 1)) c ((1 + n) ^ m * r ^ n ^ Z.of_nat s)). apply eqmod_join_pow; [lia|apply priv_coprime| |].
    + rewrite Ecp, Ep. apply eqmod_mul.
      * apply (pc_period p q s _ (k_p _ _ _ _ K)); [apply Z.mod_pos_bound; exact HP|lia|apply eqmod_mod].
      * symmetry. apply mask_mod_p; [lia|lia|exact Er1].
    + rewrite Ecq, Eq. rewrite <- priv_n_qp. apply eqmod_mul.
      * apply (pc_period q p s _ (k_q _ _ _ _ K)); [apply Z.mod_pos_bound; exact HQ|lia|apply eqmod_mod].
      * symmetry. apply mask_mod_p; [lia|lia|exact Er2].
Qed.

Lemma rand_between_ok b raw : 1 < b -> exists r, generate_rand_between 1 b raw = Ok r /\ 1 <= r < b.
Proof.
  intros Hb. unfold generate_rand_between. destruct (Z.ltb_spec 1 b); [|lia]. unfold generate_rand_less_than. destruct (Z.leb_spec (b - 1) 0); [lia|]. cbn [bind].
  eexists. split; [reflexivity|]. pose proof (Z.mod_pos_bound raw (b - 1) ltac:(lia)). lia.
Qed.

Lemma priv_encrypt_ok m raw_p raw_q : 0 <= m < n ^ Z.of_nat s -> exists c, priv_encrypt flag sk m raw_p raw_q = Ok c /\ in_range n s c /\ encrypts n s c m.
Proof.
  intros Hm. destruct priv_ge as [Hp Hq]. unfold priv_encrypt, is_non_negative. destruct (Z.ltb_spec m 0); [lia|]. cbn [negb].
  rewrite (k_ns _ _ _ _ K). fold n. destruct (Z.leb_spec (n ^ Z.of_nat s) m); [lia|].
  unfold pc_encrypt. rewrite (v_p _ _ _ _ (k_p _ _ _ _ K)), (v_p _ _ _ _ (k_q _ _ _ _ K)).
  destruct (rand_between_ok p raw_p ltac:(lia)) as (rp & Erp & Brp). destruct (rand_between_ok q raw_q ltac:(lia)) as (rq & Erq & Brq). rewrite Erp, Erq. cbn [bind].
  destruct (pc_encrypt_with_rand_ok flag p q s _ (k_p _ _ _ _ K) m rp ltac:(lia)) as (cp & Ecp & Bcp & Hcp). rewrite Ecp. cbn [bind].
  destruct (pc_encrypt_with_rand_ok flag q p s _ (k_q _ _ _ _ K) m rq ltac:(lia)) as (cq & Ecq & Bcq & Hcq). rewrite Ecq. cbn [bind].
  assert (HP : 0 < p ^ (Z.of_nat s + 1)) by (apply Z.pow_pos_nonneg; lia). assert (HQ : 0 < q ^ (Z.of_nat s + 1)) by (apply Z.pow_pos_nonneg; lia).
  assert (G : Z.gcd (p ^ (Z.of_nat s + 1)) (q ^ (Z.of_nat s + 1)) = 1) by (apply priv_gcd_pow; lia).
  destruct (crt_correct _ _ _ cp cq HP HQ G (k_enc _ _ _ _ K)) as (c & Ec & Bc & R1 & R2). rewrite Ec. exists c. split; [reflexivity|].
  split; [unfold in_range, n; rewrite Z.pow_mul_l; exact Bc|].
  (* the randomness that explains the ciphertext *)
  destruct (crt_create_ok p q ltac:(lia) ltac:(lia) priv_coprime) as (cr & Ecr & _).
  destruct (crt_correct p q cr (pc_g (priv_p sk) ^ rp) (pc_g (priv_q sk) ^ rq) ltac:(lia) ltac:(lia) priv_coprime Ecr) as (r & _ & _ & S1 & S2).
  exists r. apply eq_eqmod in R1, R2, S1, S2. rewrite priv_n_qp in Hcq.
  apply (combine_encrypts m cp cq rp rq c r Hm); try assumption; [clear - Brp; lia|clear - Brq; lia].
Qed.

Lemma priv_encrypt_bad m raw_p raw_q : ~ (0 <= m < n ^ Z.of_nat s) -> priv_encrypt flag sk m raw_p raw_q = Err InvalidArgument.
Proof.
  intros Hm. unfold priv_encrypt, is_non_negative. destruct (Z.ltb_spec m 0); [reflexivity|]. cbn [negb]. rewrite (k_ns _ _ _ _ K). fold n.
  destruct (Z.leb_spec (n ^ Z.of_nat s) m); [reflexivity|lia].
Qed.
Lemma priv_decrypt_bad c : ~ in_range n s c -> priv_decrypt sk c = Err InvalidArgument.
Proof.
  intros Hc. unfold in_range in Hc. unfold priv_decrypt, is_non_negative. destruct (Z.ltb_spec c 0); [reflexivity|]. cbn [negb]. rewrite (k_ns1 _ _ _ _ K). fold n.
  destruct (Z.leb_spec (n ^ (Z.of_nat s + 1)) c); [reflexivity|lia].
Qed.

Lemma p_sq_le_modulus p' o pc : pc_valid p' o s pc -> p' * p' <= p' ^ (Z.of_nat s + 1).
Proof.
  intros V. pose proof (v_ge _ _ _ _ V). pose proof (v_s _ _ _ _ V). replace (p' * p') with (p' ^ 2) by ring. apply Z.pow_le_mono_r; lia.
Qed.

Lemma pwr_encrypt_ok k m raw_p raw_q : private_with_rand_create flag sk = Ok k -> 0 <= m < n ^ Z.of_nat s ->
  exists c r, pwr_encrypt_and_get_rand flag k m raw_p raw_q = Ok (c, r) /\ in_range n s c /\ 0 <= r < n /\ encrypts_with n s c m r.
Proof.
  intros Ek Hm. destruct priv_ge as [Hp Hq]. pose proof (v_s _ _ _ _ (k_p _ _ _ _ K)) as Hs. unfold private_with_rand_create in Ek.
  rewrite (v_pow _ _ _ _ (k_p _ _ _ _ K)), (v_pow _ _ _ _ (k_q _ _ _ _ K)), !get_powers_at in Ek by lia. cbn [bind] in Ek. change (Z.of_nat 1) with 1 in Ek. rewrite !Z.pow_1_r in Ek.
  apply bind_ok in Ek. destruct Ek as (cr & Ecr & Ek). apply bind_ok in Ek. destruct Ek as (? & _ & Ek). apply bind_ok in Ek. destruct Ek as (? & _ & Ek). 
  apply bind_ok in Ek. destruct Ek as (? & _ & Ek). apply bind_ok in Ek. destruct Ek as (? & _ & Ek). injection Ek as <-.
  unfold pwr_encrypt_and_get_rand, is_non_negative. cbn [pwr_key pwr_crt]. destruct (Z.ltb_spec m 0); [lia|]. cbn [negb].
  rewrite (k_ns _ _ _ _ K). fold n. destruct (Z.leb_spec (n ^ Z.of_nat s) m); [lia|].
  unfold pc_encrypt_and_get_rand. rewrite (v_p _ _ _ _ (k_p _ _ _ _ K)), (v_p _ _ _ _ (k_q _ _ _ _ K)).
  destruct (rand_between_ok p raw_p ltac:(lia)) as (rp & Erp & Brp). destruct (rand_between_ok q raw_q ltac:(lia)) as (rq & Erq & Brq). rewrite Erp, Erq. cbn [bind].
  destruct (pc_encrypt_with_rand_ok flag p q s _ (k_p _ _ _ _ K) m rp ltac:(lia)) as (cp & Ecp & Bcp & Hcp). rewrite Ecp. cbn [bind].
  destruct (pc_encrypt_with_rand_ok flag q p s _ (k_q _ _ _ _ K) m rq ltac:(lia)) as (cq & Ecq & Bcq & Hcq). rewrite Ecq. cbn [bind].
  rewrite (v_pow _ _ _ _ (k_p _ _ _ _ K)), (v_pow _ _ _ _ (k_q _ _ _ _ K)), (v_ss _ _ _ _ (k_p _ _ _ _ K)), (v_ss _ _ _ _ (k_q _ _ _ _ K)), !get_powers_at by lia. cbn [bind].
  replace (Z.of_nat (s + 1)) with (Z.of_nat s + 1) by lia.
  pose proof (v_g_range _ _ _ _ (k_p _ _ _ _ K)). pose proof (v_g_range _ _ _ _ (k_q _ _ _ _ K)).
  pose proof (p_sq_le_modulus _ _ _ (k_p _ _ _ _ K)). pose proof (p_sq_le_modulus _ _ _ (k_q _ _ _ _ K)).
  rewrite (fixed_base_exp_ok flag (pc_g (priv_p sk)) _ _ (M_pos p q s _ (k_p _ _ _ _ K)) (M_odd p q s _ (k_p _ _ _ _ K))) by (first [clear - Brp; lia | match goal with H1 : _ <= pc_g (priv_p sk) < _, H2 : p * p <= _ |- _ => clear - H1 H2; lia end]).
  rewrite (fixed_base_exp_ok flag (pc_g (priv_q sk)) _ _ (M_pos q p s _ (k_q _ _ _ _ K)) (M_odd q p s _ (k_q _ _ _ _ K))) by (first [clear - Brq; lia | match goal with H1 : _ <= pc_g (priv_q sk) < _, H2 : q * q <= _ |- _ => clear - H1 H2; lia end]). cbn [bind].
  assert (HP : 0 < p ^ (Z.of_nat s + 1)) by (apply Z.pow_pos_nonneg; lia). assert (HQ : 0 < q ^ (Z.of_nat s + 1)) by (apply Z.pow_pos_nonneg; lia).
  assert (G : Z.gcd (p ^ (Z.of_nat s + 1)) (q ^ (Z.of_nat s + 1)) = 1) by (apply priv_gcd_pow; lia).
  destruct (crt_correct _ _ _ cp cq HP HQ G (k_enc _ _ _ _ K)) as (c & Ec & Bc & R1 & R2). rewrite Ec. cbn [bind].
  destruct (crt_correct p q cr (pc_g (priv_p sk) ^ rp mod p ^ (Z.of_nat s + 1)) (pc_g (priv_q sk) ^ rq mod q ^ (Z.of_nat s + 1)) ltac:(lia) ltac:(lia) priv_coprime Ecr) as (r & Er & Br & S1 & S2).
  rewrite Er. cbn [bind]. exists c, r. split; [reflexivity|]. split; [unfold in_range, n; rewrite Z.pow_mul_l; exact Bc|]. split; [exact Br|].
  apply eq_eqmod in R1, R2, S1, S2. rewrite priv_n_qp in Hcq.
  apply (combine_encrypts m cp cq rp rq c r Hm); try assumption; [clear - Brp; lia|clear - Brq; lia| |].
  - rewrite S1. apply (eqmod_divide _ _ _ _ (p_divides_M p 0 s) (eqmod_mod _ _)).
  - rewrite S2. apply (eqmod_divide _ _ _ _ (p_divides_M q 0 s) (eqmod_mod _ _)).
Qed.
End Priv.

(** ** Public keys *)

Record pub_valid (n : Z) (s : nat) (pk : public_paillier) : Prop := {
  u_gt : 1 < n; u_odd : Z.odd n = true;
  u_n : pub_n pk = n; u_s : pub_s pk = s; u_pow : pub_powers pk = get_powers n s; u_mod : pub_modulus pk = n ^ (Z.of_nat s + 1);
  u_base : exists g, Z.gcd g n = 1 /\ pub_base pk = g ^ (n ^ Z.of_nat s) mod n ^ (Z.of_nat s + 1);
  u_pre : pre_spec n n s (pub_precomp pk); u_fact : fact_coprime n s
}.

Lemma relprime_draw raws n x : 1 < n -> relatively_prime_random raws n = Ok x -> 0 <= x < n /\ Z.gcd x n = 1.
Proof.
  intros Hn E. apply relatively_prime_random_spec in E; [|lia]. destruct E as [B G]. split; [exact B|].
  pose proof (Z.gcd_nonneg x n). destruct (Z.eq_dec (Z.gcd x n) 0) as [E0|]; [|lia]. apply Z.gcd_eq_0 in E0. lia.
Qed.

Lemma public_inv n s raws pk : 1 < n -> Z.odd n = true -> public_create flag n s raws = Ok pk -> pub_valid n s pk.
Proof.
  intros Hn Ho E. unfold public_create in E. rewrite get_powers_length in E. replace (S (s + 1) - 1)%nat with (s + 1)%nat in E by lia.
  rewrite get_powers_at in E by lia. cbn [bind] in E. replace (Z.of_nat (s + 1)) with (Z.of_nat s + 1) in E by lia.
  apply bind_ok in E. destruct E as (g & Eg & E). rewrite get_powers_at in E by lia. cbn [bind] in E.
  assert (HM : 0 < n ^ (Z.of_nat s + 1)) by (apply Z.pow_pos_nonneg; lia).
  rewrite bn_mod_exp_ok in E by (try exact HM; apply Z.pow_nonneg; lia). cbn [bind] in E.
  apply bind_ok in E. destruct E as (? & _ & E). apply bind_ok in E. destruct E as (pre & Epre & E). injection E as <-.
  apply get_precomp_inv in Epre; [|exact Hn]. destruct Epre as [Hpre Hf].
  constructor; cbn; try assumption; try reflexivity. exists g. split; [|reflexivity].
  unfold generator_for_safe_modulus in Eg. apply bind_ok in Eg. destruct Eg as (y & Ex & Eg). apply relprime_draw in Ex; [|exact Hn]. destruct Ex as [_ Gx].
  unfold bn_mod_sqr in Eg. rewrite bn_mod_ok in Eg by lia. cbn [bind] in Eg. assert (Eg' : g = n - (y * y) mod n) by congruence. subst g.
  apply (gcd_eqmod _ (- (y * y))).
  - assert (H : eqmod n ((y * y) mod n) (y * y)) by apply eqmod_mod. destruct H as [w Hw]. exists (1 - w). lia.
  - rewrite Z.gcd_opp_l. apply gcd_mul_l; exact Gx.
Qed.

Section Pub.
Variables (n : Z) (s : nat) (pk : public_paillier).
Hypothesis U : pub_valid n s pk.
Let M := n ^ (Z.of_nat s + 1).

Lemma pub_M_pos : 1 < M.
Proof. unfold M. pose proof (u_gt _ _ _ U). apply Z.pow_gt_1; lia. Qed.
Lemma pub_M_odd : Z.odd M = true.
Proof. apply odd_pow; [lia|]. apply (u_odd _ _ _ U). Qed.

Lemma pub_expansion m : exists c, binomial_expansion (pub_precomp pk) (pub_powers pk) m = Ok c /\ eqmod M c ((1 + n) ^ (m mod n ^ Z.of_nat s)).
Proof.
  rewrite (u_pow _ _ _ U). apply (binomial_expansion_ok n n s); [apply (u_gt _ _ _ U)|apply Z.divide_refl|apply (u_pre _ _ _ U)|apply (u_fact _ _ _ U)].
Qed.

Lemma pub_encrypt_gen_ok m r : 0 <= r <= n -> exists c, pub_encrypt_using_generator_and_rand flag pk m r = Ok c /\ in_range n s c /\ encrypts n s c (m mod n ^ Z.of_nat s).
Proof.
  intros Hr. unfold pub_encrypt_using_generator_and_rand. rewrite (u_n _ _ _ U). destruct (Z.ltb_spec n r); [lia|].
  destruct (pub_expansion m) as (c & E & Hc). rewrite E. cbn [bind]. rewrite (u_mod _ _ _ U). fold M. pose proof pub_M_pos.
  destruct (u_base _ _ _ U) as (g & Gg & Eb). fold M in Eb. rewrite (fixed_base_exp_ok flag (pub_base pk) M r); [|lia|apply pub_M_odd| |lia].
  2: { rewrite Eb. apply Z.mod_pos_bound. lia. }
  cbn [bind]. rewrite bn_mod_mul_ok by lia. eexists. split; [reflexivity|]. split; [apply Z.mod_pos_bound; lia|].
  exists (g ^ r). split; [apply gcd_pow_l; [lia|exact Gg]|]. apply eqmod_intro; fold M. rewrite Eb, !(eqmod_mod M), Hc.
  rewrite <- !Z.pow_mul_r by (try apply Z.pow_nonneg; pose proof (u_gt _ _ _ U); lia). rewrite (Z.mul_comm r). reflexivity.
Qed.

Lemma pub_encrypt_ok m raw : 0 <= m < n ^ Z.of_nat s -> exists c, pub_encrypt flag pk m raw = Ok c /\ in_range n s c /\ encrypts n s c m.
Proof.
  intros Hm. unfold pub_encrypt, is_non_negative. destruct (Z.ltb_spec m 0); [lia|]. cbn [negb]. rewrite (u_pow _ _ _ U), (u_s _ _ _ U), get_powers_at by lia. cbn [bind].
  destruct (Z.leb_spec (n ^ Z.of_nat s) m); [lia|]. rewrite (u_n _ _ _ U). pose proof (u_gt _ _ _ U). unfold generate_rand_less_than. destruct (Z.leb_spec n 0); [lia|]. cbn [bind].
  pose proof (Z.mod_pos_bound raw n ltac:(lia)). destruct (pub_encrypt_gen_ok m (raw mod n) ltac:(lia)) as (c & E & B & Hc). exists c. rewrite Z.mod_small in Hc by lia. tauto.
Qed.
Lemma pub_encrypt_bad m raw : ~ (0 <= m < n ^ Z.of_nat s) -> pub_encrypt flag pk m raw = Err InvalidArgument.
Proof.
  intros Hm. unfold pub_encrypt, is_non_negative. destruct (Z.ltb_spec m 0); [reflexivity|]. cbn [negb]. rewrite (u_pow _ _ _ U), (u_s _ _ _ U), get_powers_at by lia. cbn [bind].
  destruct (Z.leb_spec (n ^ Z.of_nat s) m); [reflexivity|lia].
Qed.

Lemma pub_encrypt_with_rand_ok m r : Z.gcd r n = 1 -> exists c, pub_encrypt_with_rand pk m r = Ok c /\ in_range n s c /\ encrypts_with n s c (m mod n ^ Z.of_nat s) r.
Proof.
  intros G. unfold pub_encrypt_with_rand, bn_gcd. rewrite (u_n _ _ _ U), G. cbn [Z.eqb Pos.eqb negb].
  destruct (pub_expansion m) as (c & E & Hc). rewrite E. cbn [bind]. rewrite (u_pow _ _ _ U), (u_s _ _ _ U), get_powers_at by lia. cbn [bind].
  rewrite (u_mod _ _ _ U). fold M. pose proof pub_M_pos. rewrite bn_mod_exp_ok by (try apply Z.pow_nonneg; pose proof (u_gt _ _ _ U); lia). cbn [bind].
  rewrite bn_mod_mul_ok by lia. eexists. split; [reflexivity|]. split; [apply Z.mod_pos_bound; lia|]. split; [exact G|].
  apply eqmod_intro; fold M. rewrite !(eqmod_mod M), Hc. reflexivity.
Qed.
Lemma pub_encrypt_with_rand_bad m r : Z.gcd r n <> 1 -> pub_encrypt_with_rand pk m r = Err InvalidArgument.
Proof. intros G. unfold pub_encrypt_with_rand, bn_gcd. rewrite (u_n _ _ _ U). destruct (Z.eqb_spec (Z.gcd r n) 1); [contradiction|reflexivity]. Qed.

Lemma pub_encrypt_and_get_rand_ok m raws c r : pub_encrypt_and_get_rand pk m raws = Ok (c, r) ->
  in_range n s c /\ 0 <= r < n /\ encrypts_with n s c (m mod n ^ Z.of_nat s) r.
Proof.
  intros E. unfold pub_encrypt_and_get_rand in E. apply bind_ok in E. destruct E as (r' & Er & E). rewrite (u_n _ _ _ U) in Er. apply relprime_draw in Er; [|apply (u_gt _ _ _ U)]. destruct Er as [Br Gr].
  destruct (pub_encrypt_with_rand_ok m r' Gr) as (c' & Ec & Bc & Hc). rewrite Ec in E. cbn [bind] in E. injection E as <- <-. tauto.
Qed.

Lemma pub_add_ok c1 c2 : exists c, pub_add pk c1 c2 = Ok c /\ in_range n s c /\ eqmod M c (c1 * c2).
Proof.
  unfold pub_add. rewrite (u_mod _ _ _ U). fold M. pose proof pub_M_pos. rewrite bn_mod_mul_ok by lia. eexists. split; [reflexivity|]. split; [apply Z.mod_pos_bound; lia|apply eqmod_mod].
Qed.
Lemma pub_multiply_ok c k : 0 <= k -> exists c', pub_multiply pk c k = Ok c' /\ in_range n s c' /\ eqmod M c' (c ^ k).
Proof.
  intros Hk. unfold pub_multiply. rewrite (u_mod _ _ _ U). fold M. pose proof pub_M_pos. rewrite bn_mod_exp_ok by lia. eexists. split; [reflexivity|]. split; [apply Z.mod_pos_bound; lia|apply eqmod_mod].
Qed.
Lemma pub_left_shift_ok c k : 0 <= k -> exists c', pub_left_shift pk c k = Ok c' /\ in_range n s c' /\ eqmod M c' (c ^ (2 ^ k)).
Proof.
  intros Hk. unfold pub_left_shift, bn_lshift. destruct (Z.ltb_spec k 0); [lia|]. cbn [bind]. rewrite Z.mul_1_l. apply pub_multiply_ok. apply Z.pow_nonneg. lia.
Qed.
End Pub.

(** ** Expressions *)

Fixpoint cipher_eval (pk : public_paillier) (env : nat -> Z) (e : pexpr) : outcome Z :=
  match e with
  | PLeaf i => Ok (env i)
  | PAdd a b => let* x := cipher_eval pk env a in let* y := cipher_eval pk env b in pub_add pk x y
  | PMul a k => let* x := cipher_eval pk env a in pub_multiply pk x k
  | PShl a k => let* x := cipher_eval pk env a in pub_left_shift pk x k
  end.

Lemma plain_eval_nonneg env e : (forall i, 0 <= env i) -> scalars_ok e -> 0 <= plain_eval env e.
Proof.
  intros H. induction e as [i|a IHa b IHb|a IH k|a IH k]; cbn [plain_eval scalars_ok]; intros S.
  - apply H.
  - destruct S as [S1 S2]. specialize (IHa S1). specialize (IHb S2). lia.
  - destruct S as [S1 S2]. specialize (IH S1). nia.
  - destruct S as [S1 S2]. specialize (IH S1). pose proof (Z.pow_nonneg 2 k). nia.
Qed.

Lemma cipher_eval_plain p q s sk pk env ms e : priv_valid p q s sk -> pub_valid (p * q) s pk ->
  (forall i, in_range (p * q) s (env i)) -> (forall i, 0 <= ms i) -> (forall i, plain_of p q s (env i) (ms i)) -> scalars_ok e ->
  exists c, cipher_eval pk env e = Ok c /\ in_range (p * q) s c /\ plain_of p q s c (plain_eval ms e).
Proof.
  intros K U Hr Hm Hp. induction e as [i|a IHa b IHb|a IH k|a IH k]; cbn [cipher_eval plain_eval scalars_ok]; intros S.
  - exists (env i). split; [reflexivity|]. split; [apply Hr|apply Hp].
  - destruct S as [S1 S2]. destruct (IHa S1) as (x & Ex & _ & Px). destruct (IHb S2) as (y & Ey & _ & Py). rewrite Ex, Ey. cbn [bind].
    destruct (pub_add_ok _ _ _ U x y) as (c & Ec & Bc & Hc). exists c. split; [exact Ec|]. split; [exact Bc|].
    apply (plain_of_reduce p q s c (x * y) _ Hc). apply (plain_of_mul p q s sk K); try assumption; apply plain_eval_nonneg; assumption.
  - destruct S as [S1 S2]. destruct (IH S1) as (x & Ex & _ & Px). rewrite Ex. cbn [bind]. destruct (pub_multiply_ok _ _ _ U x k S2) as (c & Ec & Bc & Hc).
    exists c. split; [exact Ec|]. split; [exact Bc|]. apply (plain_of_reduce p q s c (x ^ k) _ Hc). apply (plain_of_pow p q s sk K); try assumption; apply plain_eval_nonneg; assumption.
  - destruct S as [S1 S2]. destruct (IH S1) as (x & Ex & _ & Px). rewrite Ex. cbn [bind]. destruct (pub_left_shift_ok _ _ _ U x k S2) as (c & Ec & Bc & Hc).
    exists c. split; [exact Ec|]. split; [exact Bc|]. apply (plain_of_reduce p q s c (x ^ 2 ^ k) _ Hc). apply (plain_of_pow p q s sk K); try assumption; [apply plain_eval_nonneg; assumption|apply Z.pow_nonneg; lia].
Qed.

(** A decryptable ciphertext has the decrypted value as its plaintext. *)
Lemma decrypt_plain p q s sk c m : priv_valid p q s sk -> priv_decrypt sk c = Ok m -> in_range (p * q) s c /\ 0 <= m < (p * q) ^ Z.of_nat s /\ plain_of p q s c m.
Proof.
  intros K E. assert (Hr : in_range (p * q) s c).
  { destruct (Z.lt_ge_cases c 0) as [H|H]; [rewrite (priv_decrypt_bad p q s sk K) in E; [discriminate|unfold in_range; lia]|].
    destruct (Z.lt_ge_cases c ((p * q) ^ (Z.of_nat s + 1))) as [H1|H1]; [split; assumption|]. rewrite (priv_decrypt_bad p q s sk K) in E; [discriminate|unfold in_range; lia]. }
  split; [exact Hr|]. destruct (Z.eq_dec (Z.gcd c (p * q)) 1) as [G|G].
  - destruct (unit_plain p q s sk K c G) as (d & Bd & Pd). rewrite (priv_decrypt_is p q s sk K c d Hr (proj1 Bd) Pd) in E. rewrite Z.mod_small in E by exact Bd. injection E as <-. split; assumption.
  - rewrite (decrypt_nonunit p q s sk K c Hr G) in E. discriminate.
Qed.

(** ** Creation succeeds *)

Lemma generator_of_prime_powers_ok p : safe_prime p -> is_safe_prime p = true ->
  (exists x, 2 <= x <= 1001 /\ x < p - 1 /\ x ^ ((p - 1) / 2) mod p <> 1) -> exists g, generator_of_prime_powers is_safe_prime p = Ok g.
Proof.
  intros Hs Hi (x & Hx & Hxp & Hne). destruct (safe_prime_facts p Hs) as (Hp & H5 & _). destruct Hs as [_ (q & Hq & Epq)]. pose proof (prime_ge_2 q Hq).
  unfold generator_of_prime_powers, generator_for_safe_prime. rewrite Hi. cbn [negb].
  assert (Ed : bn_div (p - 1) 2 = Ok q).
  { destruct (bn_div_exact (p - 1) 2 ltac:(lia)) as [E1 E2]; [exists q; lia|]. rewrite E1. f_equal. lia. }
  rewrite Ed. cbn [bind]. assert (Eq : (p - 1) / 2 = q) by (rewrite Epq; replace (2 * q + 1 - 1) with (q * 2) by ring; apply Z.div_mul; lia). rewrite Eq in Hne.
  destruct (generator_loop_ok q p generator_try_count ltac:(lia) ltac:(lia) 2 x) as (g & Eg).
  - unfold generator_try_count. rewrite Z2Nat.id by lia. lia.
  - intros [R|R]; [|contradiction]. (* x^2 = 1 mod p forces x = 1 or x = p - 1 *)
    assert (D : (p | (x - 1) * (x + 1))).
    { assert (E1 : eqmod p (x * x) 1) by (apply eq_eqmod; rewrite R, Z.mod_small by lia; reflexivity). destruct E1 as [w Hw]. exists w. lia. }
    apply prime_mult in D; [|exact Hp]. destruct D as [D|D]; apply Z.divide_pos_le in D; lia.
  - rewrite Eg. cbn [bind]. rewrite bn_mod_exp_ok by nia. cbn [bind]. destruct (_ =? 1); eexists; reflexivity.
Qed.

Lemma prime_fact_coprime p s : prime p -> Z.of_nat s < p -> fact_coprime p s.
Proof. intros Hp Hs i Hi. apply prime_gcd; [exact Hp|]. apply prime_ndiv_small; [exact Hp|lia]. Qed.

Lemma prime_crypto_ok p o s : safe_prime p -> is_safe_prime p = true -> 0 <= o -> Z.gcd o p = 1 -> Z.of_nat s < p ->
  (exists x, 2 <= x <= 1001 /\ x < p - 1 /\ x ^ ((p - 1) / 2) mod p <> 1) -> exists pc, prime_crypto_create is_safe_prime flag p o s = Ok pc.
Proof.
  intros Hs Hi Ho G Hsp Hx. destruct (safe_prime_facts p Hs) as (Hp & H5 & Hodd). unfold prime_crypto_create.
  rewrite !get_powers_at by lia. cbn [bind]. replace (Z.of_nat (s + 1)) with (Z.of_nat s + 1) by lia.
  pose proof (prime_fact_coprime p s Hp Hsp) as Hf. destruct (get_precomp_ok p (p * o) s ltac:(lia) Hf) as (pre & Epre). rewrite Epre. cbn [bind].
  destruct (get_precomp_inv p (p * o) s pre ltac:(lia) Epre) as [Hpre _].
  assert (HP : 0 < p ^ Z.of_nat s) by (apply Z.pow_pos_nonneg; lia). assert (HM : 1 < p ^ (Z.of_nat s + 1)) by (apply Z.pow_gt_1; lia).
  destruct (bn_mod_inverse_ok (p - 1) _ HP) as (li & Eli & _).
  { apply gcd_pow_r; [lia|]. apply (gcd_eqmod _ (-1)); [exists 1; lia|]. change (-1) with (- (1)). rewrite Z.gcd_opp_l. apply Z.gcd_1_l. }
  rewrite Eli. cbn [value_or_crash bind]. destruct (bn_mod_inverse_ok o _ HP) as (oi & Eoi & _); [apply gcd_pow_r; [lia|exact G]|]. rewrite Eoi. cbn [value_or_crash bind].
  destruct (get_decrypt_precomp_ok p (p * o) s pre ltac:(lia) Hpre Hf) as (t & Et & _). rewrite Et. cbn [bind].
  destruct (generator_of_prime_powers_ok p Hs Hi Hx) as (g & Eg). rewrite Eg. cbn [bind].
  rewrite bn_mod_exp_ok by (try lia; unfold bn_exp; apply Z.pow_nonneg; nia). cbn [bind].
  rewrite fbe_create_ok; [cbn [bind]; eexists; reflexivity|exact HM|apply odd_pow; [lia|exact Hodd]|apply Z.mod_pos_bound; lia].
Qed.

Lemma private_create_ok p q s : safe_prime p -> safe_prime q -> is_safe_prime p = true -> is_safe_prime q = true -> p <> q -> (1 <= s)%nat -> Z.of_nat s < p -> Z.of_nat s < q ->
  (exists x, 2 <= x <= 1001 /\ x < p - 1 /\ x ^ ((p - 1) / 2) mod p <> 1) -> (exists x, 2 <= x <= 1001 /\ x < q - 1 /\ x ^ ((q - 1) / 2) mod q <> 1) ->
  exists sk, private_create is_safe_prime flag p q s = Ok sk.
Proof.
  intros Hp Hq Ip Iq Hne Hs Hsp Hsq Xp Xq. destruct (safe_prime_facts p Hp) as (Pp & Hp5 & _). destruct (safe_prime_facts q Hq) as (Pq & Hq5 & _).
  pose proof (distinct_primes_coprime p q Pp Pq Hne) as G. assert (G' : Z.gcd q p = 1) by (rewrite Z.gcd_comm; exact G).
  unfold private_create. destruct (prime_crypto_ok p q s Hp Ip ltac:(lia) G' Hsp Xp) as (pc & Epc). rewrite Epc. cbn [bind].
  destruct (prime_crypto_ok q p s Hq Iq ltac:(lia) G Hsq Xq) as (qc & Eqc). rewrite Eqc. cbn [bind].
  apply (prime_crypto_inv is_safe_prime flag) in Epc, Eqc; try assumption; try lia.
  rewrite (v_pow _ _ _ _ Epc), (v_pow _ _ _ _ Eqc), !get_powers_at by lia. cbn [bind].
  assert (Hpow : forall k, 0 <= k -> 0 < p ^ k /\ 0 < q ^ k /\ Z.gcd (p ^ k) (q ^ k) = 1).
  { intros k Hk. split; [apply Z.pow_pos_nonneg; lia|]. split; [apply Z.pow_pos_nonneg; lia|]. apply gcd_pow_l, gcd_pow_r; assumption. }
  destruct (Hpow (Z.of_nat (s + 1)) ltac:(lia)) as (A & B & C). destruct (crt_create_ok _ _ A B C) as (e & Ee & _). rewrite Ee. cbn [bind].
  destruct (Hpow (Z.of_nat s) ltac:(lia)) as (A' & B' & C'). destruct (crt_create_ok _ _ A' B' C') as (d & Ed & _). rewrite Ed. cbn [bind]. eexists. reflexivity.
Qed.

Lemma precomp_loop_cases M num n : 0 < M -> forall i last, (exists pre, precomp_loop n i last num M = Ok pre) \/ precomp_loop n i last num M = Crash.
Proof.
  intros HM. induction n as [|n IH]; intros i last; cbn [precomp_loop]; [left; eexists; reflexivity|].
  destruct (Z.eq_dec (Z.gcd i M) 1) as [G|G].
  - destruct (bn_mod_inverse_ok i M HM G) as (r & E & _). rewrite E. cbn [value_or_crash bind]. rewrite bn_mod_mul_ok by exact HM. cbn [bind].
    rewrite bn_mod_mul_ok by exact HM. cbn [bind]. destruct (IH (i + 1) ((last * ((r * num) mod M)) mod M)) as [[pre E1]|E1]; rewrite E1; cbn [bind]; [left; eexists; reflexivity|right; reflexivity].
  - rewrite (bn_mod_inverse_err i M HM G). right. reflexivity.
Qed.

(** The same prime twice aborts in the constructor. *)
Lemma private_create_same p s : 1 < p -> (1 <= s)%nat -> private_create is_safe_prime flag p p s = Crash.
Proof.
  intros Hp Hs. unfold private_create, prime_crypto_create. rewrite !get_powers_at by lia. cbn [bind]. unfold get_precomp.
  destruct (precomp_loop_cases (p ^ Z.of_nat (s + 1)) (p * p) s ltac:(apply Z.pow_pos_nonneg; lia) 1 1) as [[pre E]|E]; rewrite E; cbn [bind]; [|reflexivity].
  destruct (Z.eq_dec (Z.gcd (p - 1) (p ^ Z.of_nat s)) 1) as [G|G].
  - destruct (bn_mod_inverse_ok (p - 1) (p ^ Z.of_nat s) ltac:(apply Z.pow_pos_nonneg; lia) G) as (li & El & _). rewrite El. cbn [value_or_crash bind].
    rewrite bn_mod_inverse_err; [reflexivity|apply Z.pow_pos_nonneg; lia|]. intros G'. apply gcd_pow_inv_r in G'; [|lia]. rewrite Z.gcd_diag in G'. lia.
  - rewrite bn_mod_inverse_err; [reflexivity|apply Z.pow_pos_nonneg; lia|exact G].
Qed.

Lemma relprime_random_ok raws n : 1 < n -> (exists i, In i raws /\ Z.gcd (i mod n) n = 1) -> exists x, relatively_prime_random raws n = Ok x.
Proof.
  intros Hn. induction raws as [|r rest IH]; intros (i & Hin & G); [destruct Hin|]. cbn [relatively_prime_random]. unfold generate_rand_less_than.
  destruct (Z.leb_spec n 0); [lia|]. cbn [bind]. unfold bn_gcd. destruct (Z.ltb_spec 1 (Z.gcd (r mod n) n)) as [H1|H1]; [|eexists; reflexivity].
  apply IH. destruct Hin as [->|Hin]; [lia|]. exists i. tauto.
Qed.

Lemma public_create_ok n s raws : 1 < n -> Z.odd n = true -> fact_coprime n s -> (exists i, In i raws /\ Z.gcd (i mod n) n = 1) -> exists pk, public_create flag n s raws = Ok pk.
Proof.
  intros Hn Ho Hf Hd. unfold public_create. rewrite get_powers_length. replace (S (s + 1) - 1)%nat with (s + 1)%nat by lia. rewrite get_powers_at by lia. cbn [bind].
  destruct (relprime_random_ok raws n Hn Hd) as (x & Ex). unfold generator_for_safe_modulus. rewrite Ex. cbn [bind]. unfold bn_mod_sqr. rewrite bn_mod_ok by lia. cbn [bind].
  rewrite get_powers_at by lia. cbn [bind]. assert (HM : 1 < n ^ Z.of_nat (s + 1)) by (apply Z.pow_gt_1; lia).
  rewrite bn_mod_exp_ok by (try apply Z.pow_nonneg; lia). cbn [bind]. rewrite fbe_create_ok; [|exact HM|apply odd_pow; [lia|exact Ho]|apply Z.mod_pos_bound; lia]. cbn [bind].
  destruct (get_precomp_ok n n s Hn Hf) as (pre & Epre). replace (Z.of_nat (s + 1)) with (Z.of_nat s + 1) by lia. rewrite Epre. cbn [bind]. eexists. reflexivity.
Qed.
End Key.
