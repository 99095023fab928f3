(** Lemmas about M_Paillier. *)
From Coq Require Import Znumtheory.
From Verif Require Import Base M_BigNum L_BigNum M_Num L_Mod L_Num L_NT M_DJ L_DJ M_Paillier S_Paillier.

Lemma fixed_base_exp_ok flag base m e : 1 < m -> Z.odd m = true -> 0 <= base < m -> 0 <= e -> fixed_base_exp flag base m e = Ok (base ^ e mod m).
Proof.
  intros Hm Ho Hb He. unfold fixed_base_exp, is_non_negative. destruct (Z.ltb_spec e 0); [lia|]. cbn [negb].
  destruct flag.
  - destruct (tk_create_ok base m Hm Ho Hb) as (t & E & V & Em & _). rewrite E. cbn [bind]. rewrite (tk_mod_exp_ok t base e V He), Em. reflexivity.
  - unfold simple_mod_exp. apply bn_mod_exp_ok; lia.
Qed.
Lemma fbe_create_ok flag base m : 1 < m -> Z.odd m = true -> 0 <= base < m -> fbe_create flag base m = Ok tt.
Proof.
  intros Hm Ho Hb. unfold fbe_create. destruct flag; [|reflexivity]. destruct (tk_create_ok base m Hm Ho Hb) as (t & E & _). rewrite E. reflexivity.
Qed.

Lemma odd_pow a k : 0 <= k -> Z.odd a = true -> Z.odd (a ^ k) = true.
Proof.
  intros Hk Ha. revert k Hk. apply natlike_ind; [reflexivity|]. intros x Hx IH. rewrite Z.pow_succ_r by lia. rewrite Z.odd_mul, Ha, IH. reflexivity.
Qed.

Lemma safe_prime_facts p : safe_prime p -> prime p /\ 5 <= p /\ Z.odd p = true.
Proof.
  intros [Hp (q & Hq & E)]. pose proof (prime_ge_2 q Hq). split; [exact Hp|]. split; [lia|]. rewrite E, Z.add_comm, Z.mul_comm. rewrite Z.odd_add, Z.odd_mul, Bool.andb_false_r. reflexivity.
Qed.

Lemma distinct_primes_coprime p q : prime p -> prime q -> p <> q -> Z.gcd p q = 1.
Proof.
  intros Hp Hq Hne. apply (prime_gcd q p Hq). intros D. destruct (prime_divisors p Hp q D) as [?|[?|[?|?]]]; pose proof (prime_ge_2 q Hq); pose proof (prime_ge_2 p Hp); lia.
Qed.
Lemma unit_not_divides p a : prime p -> Z.gcd a p = 1 -> ~ (p | a).
Proof.
  intros Hp G D. pose proof (prime_ge_2 p Hp). assert (D1 : (p | 1)) by (rewrite <- G; apply Z.gcd_greatest; [exact D|apply Z.divide_refl]).
  apply Z.divide_pos_le in D1; lia.
Qed.

(** ** The generator search *)

Definition gen_rejects (q p x : Z) : Prop := (x * x) mod p = 1 \/ x ^ q mod p = 1.

Lemma generator_loop_inv q p n : 0 <= q -> 0 < p -> forall g g', generator_loop n g q p = Ok g' ->
  g <= g' /\ ~ gen_rejects q p g' /\ forall x, g <= x < g' -> gen_rejects q p x.
Proof.
  intros Hq Hp. induction n as [|n IH]; intros g g' E; cbn [generator_loop] in E; [discriminate|].
  unfold bn_mod_sqr in E. rewrite bn_mod_ok in E by exact Hp. cbn [bind] in E.
  destruct (Z.eqb_spec ((g * g) mod p) 1) as [E1|N1].
  - destruct (IH _ _ E) as (A & B & C). split; [lia|]. split; [exact B|]. intros x Hx.
    destruct (Z.eq_dec x g) as [->|]; [left; exact E1|apply C; lia].
  - rewrite bn_mod_exp_ok in E by assumption. cbn [bind] in E. destruct (Z.eqb_spec (g ^ q mod p) 1) as [E2|N2].
    + destruct (IH _ _ E) as (A & B & C). split; [lia|]. split; [exact B|]. intros x Hx.
      destruct (Z.eq_dec x g) as [->|]; [right; exact E2|apply C; lia].
    + injection E as <-. split; [lia|]. split; [|intros; lia]. intros [?|?]; contradiction.
Qed.
Lemma generator_loop_ok q p n : 0 <= q -> 0 < p -> forall g x, g <= x < g + Z.of_nat n -> ~ gen_rejects q p x -> exists g', generator_loop n g q p = Ok g'.
Proof.
  intros Hq Hp. induction n as [|n IH]; intros g x Hx Hr; cbn [generator_loop]; [lia|].
  unfold bn_mod_sqr. rewrite bn_mod_ok by exact Hp. cbn [bind]. rewrite bn_mod_exp_ok by assumption. cbn [bind].
  destruct (Z.eqb_spec ((g * g) mod p) 1) as [E1|N1]; [|destruct (Z.eqb_spec (g ^ q mod p) 1) as [E2|N2]; [|eexists; reflexivity]].
  - destruct (Z.eq_dec x g) as [->|]; [exfalso; apply Hr; left; exact E1|]. apply (IH (g + 1) x); [lia|exact Hr].
  - destruct (Z.eq_dec x g) as [->|]; [exfalso; apply Hr; right; exact E2|]. apply (IH (g + 1) x); [lia|exact Hr].
Qed.

Lemma four_not_one p x : 5 <= p -> eqmod p (x * x) 4 -> (x * x) mod p <> 1.
Proof.
  intros Hp E H. apply (eqmod_eq p) in E; [|lia]. rewrite E in H. rewrite Z.mod_small in H by lia. lia.
Qed.

Lemma generator_exists p q : prime p -> prime q -> p = 2 * q + 1 -> exists x, 2 <= x <= p - 2 /\ ~ gen_rejects q p x.
Proof.
  intros Hp Hq E. pose proof (prime_ge_2 q Hq). destruct (Z.eq_dec (2 ^ q mod p) 1) as [E2|N2].
  - assert (Hq2 : q <> 2).
    { intros ->. assert (Ep : p = 5) by lia. rewrite Ep in E2. vm_compute in E2. discriminate. }
    assert (Ho : Z.odd q = true).
    { rewrite <- Z.negb_even. destruct (Z.even q) eqn:Ee; [|reflexivity]. exfalso. apply Z.even_spec in Ee. destruct Ee as [h Eh].
      destruct (prime_divisors q Hq 2) as [D|[D|[D|D]]]; [exists h; lia|lia|lia|lia|lia]. }
    exists (p - 2). split; [lia|]. intros [R|R].
    + revert R. apply four_not_one; [lia|]. exists (p - 4). ring.
    + assert (Em : eqmod p ((p - 2) ^ q) (-1)).
      { assert (E3 : eqmod p (2 ^ q) 1) by (apply eq_eqmod; rewrite E2, Z.mod_small by lia; reflexivity).
        assert (E4 : eqmod p (p - 2) (- (2))) by (exists 1; lia). rewrite E4. rewrite Z.pow_opp_odd by (apply Z.odd_spec; exact Ho). rewrite E3.
        reflexivity. }
      apply (eqmod_eq p) in Em; [|lia]. rewrite R in Em. replace (-1) with (p - 1 + (-1) * p) in Em by ring. rewrite Z_mod_plus_full, Z.mod_small in Em by lia. lia.
  - exists 2. split; [lia|]. intros [R|R]; [|contradiction]. revert R. apply four_not_one; [lia|reflexivity].
Qed.

Section Crypto.
Variable is_safe_prime : Z -> bool.
Variable flag : bool.

Lemma generator_of_prime_powers_inv p g : safe_prime p -> generator_of_prime_powers is_safe_prime p = Ok g -> ~ (p | g) /\ 0 <= g < p * p.
Proof.
  intros Hs E. destruct (safe_prime_facts p Hs) as (Hp & H5 & _). destruct Hs as [_ (q & Hq & Epq)]. pose proof (prime_ge_2 q Hq).
  unfold generator_of_prime_powers, generator_for_safe_prime in E. destruct (is_safe_prime p); cbn [negb] in E; [|discriminate].
  assert (Ed : bn_div (p - 1) 2 = Ok q).
  { destruct (bn_div_exact (p - 1) 2 ltac:(lia)) as [E1 E2]; [exists q; lia|]. rewrite E1. f_equal. lia. }
  rewrite Ed in E. cbn [bind] in E. apply bind_ok in E. destruct E as (g0 & E0 & E).
  apply generator_loop_inv in E0; [|lia|lia]. destruct E0 as (A & B & C).
  destruct (generator_exists p q Hp Hq Epq) as (x & Hx & Rx).
  assert (Hg0 : g0 <= x). { destruct (Z.le_gt_cases g0 x); [assumption|]. exfalso. apply Rx, C. lia. }
  assert (N0 : ~ (p | g0)) by (apply prime_ndiv_small; [exact Hp|lia]).
  rewrite bn_mod_exp_ok in E by nia. cbn [bind] in E. destruct (_ =? 1).
  - injection E as <-. split; [|nia]. intros D. apply N0. replace g0 with (g0 + p - p) by lia. apply Z.divide_sub_r; [exact D|apply Z.divide_refl].
  - injection E as <-. split; [exact N0|nia].
Qed.

(** ** One prime *)

Record pc_valid (p o : Z) (s : nat) (pc : prime_crypto) : Prop := {
  v_prime : prime p; v_ge : 5 <= p; v_odd : Z.odd p = true; v_s : (1 <= s)%nat;
  v_p : pc_p pc = p; v_phi : pc_phi pc = p - 1; v_n : pc_n pc = p * o; v_ss : pc_s pc = s; v_pow : pc_powers pc = get_powers p s;
  v_pre : pre_spec p (p * o) s (pc_precomp pc); v_fact : fact_coprime p s;
  v_lam : eqmod (p ^ Z.of_nat s) ((p - 1) * pc_lambda_inv pc) 1;
  v_oinv : eqmod (p ^ Z.of_nat s) (o * pc_other_inv pc) 1;
  v_cop : Z.gcd o p = 1;
  v_table : forall x j, (2 <= x)%nat -> (x <= j <= s)%nat -> exists v, table_get (s + 1) (pc_table pc) x j = Ok v /\ entry_ok p (p * o) x j v;
  v_g : ~ (p | pc_g pc); v_g_range : 0 <= pc_g pc < p * p;
  v_base : pc_base pc = pc_g pc ^ ((p * o) ^ Z.of_nat s) mod p ^ (Z.of_nat s + 1);
  v_o : 0 <= o
}.

Lemma prime_crypto_inv p o s pc : safe_prime p -> 0 <= o -> (1 <= s)%nat -> prime_crypto_create is_safe_prime flag p o s = Ok pc -> pc_valid p o s pc.
Proof.
  intros Hs Hop Hs1 E. destruct (safe_prime_facts p Hs) as (Hp & H5 & Ho). unfold prime_crypto_create in E.
  rewrite get_powers_at in E by lia. cbn [bind] in E. rewrite get_powers_at in E by lia. cbn [bind] in E.
  replace (Z.of_nat (s + 1)) with (Z.of_nat s + 1) in E by lia.
  apply bind_ok in E. destruct E as (pre & Epre & E). apply get_precomp_inv in Epre; [|lia]. destruct Epre as [Hpre Hf].
  apply bind_ok in E. destruct E as (li & Eli & E). apply value_or_crash_ok, bn_mod_inverse_inv in Eli. destruct Eli as (_ & _ & _ & Hli). apply eq_eqmod in Hli.
  apply bind_ok in E. destruct E as (oi & Eoi & E). apply value_or_crash_ok, bn_mod_inverse_inv in Eoi. destruct Eoi as (_ & Hcop & _ & Hoi). apply eq_eqmod in Hoi.
  destruct (get_decrypt_precomp_ok p (p * o) s pre ltac:(lia) Hpre Hf) as (t & Et & Ht). rewrite Et in E. cbn [bind] in E.
  apply bind_ok in E. destruct E as (g & Eg & E). apply (generator_of_prime_powers_inv p g Hs) in Eg. destruct Eg as [Hg Hgr].
  assert (HM : 0 < p ^ (Z.of_nat s + 1)) by (apply Z.pow_pos_nonneg; lia).
  unfold bn_exp in E. rewrite Z.abs_eq in E by lia. rewrite bn_mod_exp_ok in E by (try exact HM; apply Z.pow_nonneg; nia). cbn [bind] in E.
  apply bind_ok in E. destruct E as (u & _ & E). injection E as <-.
  constructor; cbn; try assumption; try reflexivity. apply gcd_pow_inv_r with (Z.of_nat s); [lia|exact Hcop].
Qed.

Section Valid.
Variables (p o : Z) (s : nat) (pc : prime_crypto).
Hypothesis V : pc_valid p o s pc.
Let n := p * o.
Let M := p ^ (Z.of_nat s + 1).
Let P := p ^ Z.of_nat s.

Lemma M_pos : 1 < M.
Proof. unfold M. pose proof (v_ge _ _ _ _ V). apply Z.pow_gt_1; lia. Qed.
Lemma P_pos : 1 < P.
Proof. unfold P. pose proof (v_ge _ _ _ _ V). pose proof (v_s _ _ _ _ V). apply Z.pow_gt_1; lia. Qed.
Lemma M_odd : Z.odd M = true.
Proof. apply odd_pow; [lia|]. apply (v_odd _ _ _ _ V). Qed.
Lemma s_lt_p : Z.of_nat s < p.
Proof.
  destruct (Z.lt_ge_cases (Z.of_nat s) p) as [?|Hge]; [assumption|exfalso]. pose proof (v_ge _ _ _ _ V).
  pose proof (v_fact _ _ _ _ V (Z.to_nat p) ltac:(lia)) as G. rewrite Z2Nat.id, Z.gcd_diag in G by lia. lia.
Qed.
Lemma P_divides_M : (P | M).
Proof. apply pow_divide_pow. lia. Qed.
Lemma p_divides_M : (p | M).
Proof. rewrite <- (Z.pow_1_r p) at 1. apply pow_divide_pow. lia. Qed.
Lemma p_divides_n : (p | n).
Proof. exists o. unfold n. ring. Qed.

Lemma pc_period i i' : 0 <= i -> 0 <= i' -> eqmod P i i' -> eqmod M ((1 + n) ^ i) ((1 + n) ^ i').
Proof.
  intros Hi Hi' E. pose proof (v_ge _ _ _ _ V). pose proof P_pos.
  pose proof (one_plus_period p n s ltac:(lia) p_divides_n i Hi) as A. pose proof (one_plus_period p n s ltac:(lia) p_divides_n i' Hi') as B.
  cbv zeta in A, B. fold M P in A, B. rewrite A, B. apply (eqmod_eq P) in E; [|lia]. rewrite E. reflexivity.
Qed.

Lemma pc_encrypt_with_rand_ok m r : 0 <= r -> exists c, pc_encrypt_with_rand flag pc m r = Ok c /\ 0 <= c < M /\
  eqmod M c ((1 + n) ^ (m mod P) * (pc_g pc ^ r) ^ (n ^ Z.of_nat s)).
Proof.
  intros Hr. pose proof (v_ge _ _ _ _ V) as H5. unfold pc_encrypt_with_rand. rewrite (v_pow _ _ _ _ V), (v_ss _ _ _ _ V).
  destruct (binomial_expansion_ok p n s (pc_precomp pc) ltac:(lia) p_divides_n (v_pre _ _ _ _ V) (v_fact _ _ _ _ V) m) as (c & E & Hc).
  rewrite E. cbn [bind]. rewrite get_powers_at by lia. cbn [bind]. replace (Z.of_nat (s + 1)) with (Z.of_nat s + 1) by lia. fold M.
  pose proof M_pos. rewrite (fixed_base_exp_ok flag (pc_base pc) M r); [|lia|apply M_odd| |exact Hr].
  2: { rewrite (v_base _ _ _ _ V). apply Z.mod_pos_bound. lia. }
  cbn [bind]. rewrite bn_mod_mul_ok by lia. eexists. split; [reflexivity|]. split; [apply Z.mod_pos_bound; lia|].
  rewrite !eqmod_mod. rewrite (v_base _ _ _ _ V). fold M n. rewrite (eqmod_mod M). fold M P in Hc. rewrite Hc.
  assert (Hns : 0 <= n ^ Z.of_nat s) by (apply Z.pow_nonneg; unfold n; pose proof (v_o _ _ _ _ V); nia).
  rewrite <- !Z.pow_mul_r by assumption. rewrite (Z.mul_comm r). reflexivity.
Qed.

(** ** Decryption *)

Lemma pc_inner_ok i j : 0 <= i -> (1 <= j <= s)%nat -> forall cnt k m t1 t2, (k + cnt = j + 1)%nat -> (2 <= k)%nat ->
  eqmod (p ^ Z.of_nat (j - 1)) m (i - Z.of_nat (k - 2)) -> eqmod (p ^ Z.of_nat (j - 1)) t2 (ff i (k - 1)) ->
  exists r, pc_inner cnt k j pc m t1 t2 = Ok r /\
    eqmod (p ^ Z.of_nat j) r (t1 - (zsum (fun x => binom (Z.to_nat i) (S (S x)) * n ^ Z.of_nat (S x)) (j - 1) - zsum (fun x => binom (Z.to_nat i) (S (S x)) * n ^ Z.of_nat (S x)) (k - 2))).
Proof.
  intros Hi Hj. pose proof (v_ge _ _ _ _ V) as H5. induction cnt as [|cnt IH]; intros k m t1 t2 Hk H2 Hm Ht; cbn [pc_inner].
  - exists t1. split; [reflexivity|]. replace (k - 2)%nat with (j - 1)%nat by lia. rewrite Z.sub_diag, Z.sub_0_r. reflexivity.
  - rewrite (v_pow _ _ _ _ V), get_powers_at by lia. cbn [bind]. rewrite bn_mod_mul_ok by (apply Z.pow_pos_nonneg; lia). cbn [bind].
    rewrite (v_ss _ _ _ _ V). destruct (v_table _ _ _ _ V k j H2 ltac:(lia)) as (v & Ev & Hv). rewrite Ev. cbn [bind].
    set (t2' := (t2 * (m - 1)) mod p ^ Z.of_nat j).
    assert (Ht' : eqmod (p ^ Z.of_nat (j - 1)) t2' (ff i k)).
    { unfold t2'. rewrite (eqmod_divide _ _ _ _ (pow_divide_pow p (Z.of_nat (j - 1)) (Z.of_nat j) ltac:(lia)) (eqmod_mod _ _)).
      rewrite Ht, Hm. replace k with (S (k - 1)) at 3 by lia. cbn [ff]. replace (i - Z.of_nat (k - 2) - 1) with (i - Z.of_nat (k - 1)) by lia. reflexivity. }
    destruct (IH (k + 1)%nat (m - 1) (t1 - t2' * v) t2') as (r & Er & Hr); [lia|lia| | |].
    + rewrite Hm. replace (i - Z.of_nat (k - 2) - 1) with (i - Z.of_nat (k + 1 - 2)) by lia. reflexivity.
    + replace (k + 1 - 1)%nat with k by lia. exact Ht'.
    + rewrite Er. exists r. split; [reflexivity|]. rewrite Hr.
      pose proof (extract_term p n s k j i t2' v ltac:(lia) p_divides_n (v_fact _ _ _ _ V) ltac:(lia) ltac:(lia) Hi Hv Ht') as Hx. rewrite Hx.
      replace (k + 1 - 2)%nat with (S (k - 2)) by lia. cbn [zsum]. replace (S (S (k - 2))) with k by lia. replace (S (k - 2)) with (k - 1)%nat by lia.
      set (A := zsum _ (j - 1)). set (B := zsum _ (k - 2)). set (T := binom (Z.to_nat i) k * n ^ Z.of_nat (k - 1)).
      assert (E : t1 - T - (A - (B + T)) = t1 - (A - B)) by ring. rewrite E. reflexivity.
Qed.

Lemma pc_outer_ok i l_u : 0 <= i -> eqmod P l_u (lsum n i s) -> forall cnt j m, (j + cnt = s + 1)%nat -> (1 <= j)%nat ->
  eqmod (p ^ Z.of_nat (j - 1)) m i -> exists r, pc_outer cnt j pc l_u m = Ok r /\ eqmod P r i.
Proof.
  intros Hi Hl. pose proof (v_ge _ _ _ _ V) as H5. induction cnt as [|cnt IH]; intros j m Hj H1 Hm; cbn [pc_outer].
  - exists m. split; [reflexivity|]. unfold P. replace s with (j - 1)%nat by lia. exact Hm.
  - rewrite (v_pow _ _ _ _ V), get_powers_at by lia. cbn [bind]. rewrite bn_mod_ok by (apply Z.pow_pos_nonneg; lia). cbn [bind].
    destruct (pc_inner_ok i j Hi ltac:(lia) (j - 1) 2 m (l_u mod p ^ Z.of_nat j) m) as (r & Er & Hr); [lia|lia| | |].
    + rewrite Hm. change (Z.of_nat (2 - 2)) with 0. rewrite Z.sub_0_r. reflexivity.
    + cbn [Nat.sub ff]. rewrite Hm. change (Z.of_nat 0) with 0. rewrite Z.sub_0_r, Z.mul_1_l. reflexivity.
    + rewrite Er. cbn [bind]. apply IH; [lia|lia|]. replace (j + 1 - 1)%nat with j by lia. rewrite Hr, eqmod_mod.
      assert (Hl' : eqmod (p ^ Z.of_nat j) l_u (lsum n i j)).
      { rewrite <- (lsum_mod p n i s j p_divides_n ltac:(lia)). apply (eqmod_divide _ _ _ _ (pow_divide_pow p (Z.of_nat j) (Z.of_nat s) ltac:(lia)) Hl). }
      rewrite Hl', lsum_first by lia. cbn [Nat.sub zsum]. set (A := zsum _ _). assert (E : i + A - (A - 0) = i) by ring. rewrite E. reflexivity.
Qed.

Lemma pc_decrypt_exponent c i : 0 <= i -> eqmod M (c ^ (p - 1)) ((1 + n) ^ i) -> pc_decrypt pc c = Ok ((i * pc_lambda_inv pc) mod P).
Proof.
  intros Hi Hc. pose proof (v_ge _ _ _ _ V) as H5. pose proof M_pos. pose proof P_pos. pose proof (v_s _ _ _ _ V).
  unfold pc_decrypt. rewrite (v_pow _ _ _ _ V), (v_ss _ _ _ _ V), get_powers_at by lia. cbn [bind].
  replace (Z.of_nat (s + 1)) with (Z.of_nat s + 1) by lia. fold M. rewrite (v_phi _ _ _ _ V). rewrite bn_mod_exp_ok by lia. cbn [bind].
  set (u := c ^ (p - 1) mod M).
  assert (Hu : eqmod M u (1 + n * lsum n i s)).
  { unfold u. rewrite eqmod_mod, Hc. apply (eqmod_divide M (n ^ Z.of_nat (S s))); [|apply one_plus_lsum, Hi]. unfold M. replace (Z.of_nat s + 1) with (Z.of_nat (S s)) by lia.
    apply divide_pow, p_divides_n. }
  destruct Hu as [w Hw].
  assert (Eu : u - 1 = (o * lsum n i s + w * P) * p).
  { unfold M in Hw. rewrite Z.pow_add_r, Z.pow_1_r in Hw by lia. fold P in Hw. unfold n in Hw at 1. nia. }
  unfold pc_lfunc. rewrite (v_p _ _ _ _ V). destruct (bn_div_exact (u - 1) p ltac:(lia)) as [Ed Eq]; [eexists; exact Eu|]. rewrite Ed. cbn [bind].
  assert (Eq' : Z.quot (u - 1) p = o * lsum n i s + w * P) by nia. rewrite Eq'.
  rewrite (v_pow _ _ _ _ V), (v_ss _ _ _ _ V), get_powers_at by lia. cbn [bind]. fold P. rewrite bn_mod_mul_ok by lia. cbn [bind].
  destruct (pc_outer_ok i (((o * lsum n i s + w * P) * pc_other_inv pc) mod P) Hi) with (cnt := s) (j := 1%nat) (m := 0) as (r & Er & Hr).
  - rewrite eqmod_mod. rewrite (eqmod_mul_self_r P w), Z.add_0_r.
    replace (o * lsum n i s * pc_other_inv pc) with (o * pc_other_inv pc * lsum n i s) by ring. pose proof (v_oinv _ _ _ _ V) as Ho. fold P in Ho. rewrite Ho, Z.mul_1_l. reflexivity.
  - lia.
  - lia.
  - cbn [Nat.sub]. change (Z.of_nat 0) with 0. rewrite Z.pow_0_r. exists (0 - i). lia.
  - rewrite Er. cbn [bind]. rewrite bn_mod_mul_ok by lia. f_equal. apply eqmod_eq; [lia|]. rewrite Hr. reflexivity.
Qed.

Lemma unit_power_log c : ~ (p | c) -> exists i, 0 <= i /\ eqmod M (c ^ (p - 1)) ((1 + n) ^ i).
Proof.
  intros Hc. pose proof (v_prime _ _ _ _ V) as Hp.
  destruct (one_plus_generates p o s (c ^ (p - 1)) Hp s_lt_p) as (i & Hi & E).
  - apply unit_not_divides; [exact Hp|]. apply (v_cop _ _ _ _ V).
  - apply fermat; assumption.
  - exists i. split; [exact Hi|]. symmetry. exact E.
Qed.

(** A unit decrypts to the unique d with (1+n)^(d (p-1)) = c^(p-1). *)
Lemma pc_decrypt_unit c : ~ (p | c) -> exists d, pc_decrypt pc c = Ok d /\ 0 <= d < P /\ eqmod M (c ^ (p - 1)) ((1 + n) ^ (d * (p - 1))).
Proof.
  intros Hc. destruct (unit_power_log c Hc) as (i & Hi & E). pose proof P_pos. pose proof (v_ge _ _ _ _ V).
  eexists. split; [apply pc_decrypt_exponent; eassumption|]. pose proof (Z.mod_pos_bound (i * pc_lambda_inv pc) P ltac:(lia)). split; [lia|].
  rewrite E. apply pc_period; [exact Hi|nia|]. rewrite eqmod_mod. pose proof (v_lam _ _ _ _ V) as Hl. fold P in Hl.
  replace (i * pc_lambda_inv pc * (p - 1)) with (i * ((p - 1) * pc_lambda_inv pc)) by ring. rewrite Hl, Z.mul_1_r. reflexivity.
Qed.
Lemma pc_decrypt_is c m : 0 <= m -> eqmod M (c ^ (p - 1)) ((1 + n) ^ (m * (p - 1))) -> pc_decrypt pc c = Ok (m mod P).
Proof.
  intros Hm E. pose proof P_pos. pose proof (v_ge _ _ _ _ V). rewrite (pc_decrypt_exponent c (m * (p - 1))) by (try exact E; nia). f_equal.
  apply eqmod_eq; [lia|]. pose proof (v_lam _ _ _ _ V) as Hl. fold P in Hl. rewrite <- Z.mul_assoc, Hl, Z.mul_1_r. reflexivity.
Qed.
Lemma pc_decrypt_nonunit c : (p | c) -> pc_decrypt pc c = Crash.
Proof.
  intros D. pose proof (v_ge _ _ _ _ V) as H5. pose proof M_pos.
  unfold pc_decrypt. rewrite (v_pow _ _ _ _ V), (v_ss _ _ _ _ V), get_powers_at by lia. cbn [bind].
  replace (Z.of_nat (s + 1)) with (Z.of_nat s + 1) by lia. fold M. rewrite (v_phi _ _ _ _ V), bn_mod_exp_ok by lia. cbn [bind].
  unfold pc_lfunc. rewrite (v_p _ _ _ _ V). rewrite bn_div_inexact; [reflexivity|]. intros q Eq.
  assert (Hu : (p | c ^ (p - 1) mod M)).
  { apply eqmod_0. rewrite (eqmod_divide _ _ _ _ p_divides_M (eqmod_mod M _)). apply eqmod_0. apply Z.divide_trans with c; [exact D|].
    exists (c ^ (p - 2)). rewrite Z.mul_comm, <- Z.pow_succ_r by lia. f_equal. lia. }
  destruct Hu as [w Hw]. assert (D1 : (p | 1)) by (exists (w - q); nia). apply Z.divide_pos_le in D1; lia.
Qed.

(** (1+n)^m r^(n^s) raised to p-1 loses r. *)
Lemma mask_vanishes r : ~ (p | r) -> eqmod M ((r ^ (n ^ Z.of_nat s)) ^ (p - 1)) 1.
Proof.
  intros Hr. pose proof (v_ge _ _ _ _ V). pose proof (v_o _ _ _ _ V). unfold n.
  assert (0 <= (p * o) ^ Z.of_nat s) by (apply Z.pow_nonneg; nia). assert (0 <= p ^ Z.of_nat s) by (apply Z.pow_nonneg; lia). assert (0 <= o ^ Z.of_nat s) by (apply Z.pow_nonneg; lia).
  rewrite <- Z.pow_mul_r by lia. rewrite Z.pow_mul_l.
  replace (p ^ Z.of_nat s * o ^ Z.of_nat s * (p - 1)) with ((p - 1) * p ^ Z.of_nat s * o ^ Z.of_nat s) by ring. rewrite Z.pow_mul_r by nia.
  unfold M. rewrite (unit_pow_one p s r (v_prime _ _ _ _ V) Hr). rewrite Z.pow_1_l by assumption. reflexivity.
Qed.
End Valid.
End Crypto.
