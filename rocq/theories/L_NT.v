(** Elementary number theory: binomial expansion, Fermat's little theorem, lifting of congruences to prime powers and
    the subgroup generated by 1 + n modulo p^(s+1). *)
From Coq Require Import Znumtheory.
From Verif Require Import Base L_Mod.

(** ** Binomial coefficients *)

Fixpoint binom (n k : nat) : Z :=
  match n, k with
  | _, O => 1
  | O, S _ => 0
  | S n', S k' => binom n' k' + binom n' k
  end.

(** Falling factorial x (x-1) ... (x-k+1). *)
Fixpoint ff (x : Z) (k : nat) : Z := match k with O => 1 | S j => ff x j * (x - Z.of_nat j) end.
Definition zfact (k : nat) : Z := ff (Z.of_nat k) k.

Lemma binom_0_r n : binom n 0 = 1.
Proof. destruct n; reflexivity. Qed.
Lemma binom_S n k : binom (S n) (S k) = binom n k + binom n (S k).
Proof. reflexivity. Qed.
Lemma binom_big n : forall k, (n < k)%nat -> binom n k = 0.
Proof. induction n as [|n IH]; intros [|k] H; try lia; cbn [binom]; [reflexivity|]. rewrite !IH by lia. reflexivity. Qed.

Lemma ff_shift x k : ff (x + 1) (S k) = (x + 1) * ff x k.
Proof.
  induction k as [|k IH]; [cbn [ff Z.of_nat]; lia|]. change (ff (x + 1) (S (S k))) with (ff (x + 1) (S k) * (x + 1 - Z.of_nat (S k))).
  rewrite IH. cbn [ff]. rewrite Nat2Z.inj_succ. ring.
Qed.
Lemma zfact_S k : zfact (S k) = (Z.of_nat k + 1) * zfact k.
Proof. unfold zfact. rewrite Nat2Z.inj_succ. apply ff_shift. Qed.
Lemma zfact_pos k : 0 < zfact k.
Proof. induction k as [|k IH]; [reflexivity|]. rewrite zfact_S. nia. Qed.

Lemma binom_ff n : forall k, binom n k * zfact k = ff (Z.of_nat n) k.
Proof.
  induction n as [|n IH]; intros k.
  - destruct k as [|k]; [reflexivity|]. cbn [binom]. rewrite Z.mul_0_l.
    clear. induction k as [|k IH]; [reflexivity|]. change (ff (Z.of_nat 0) (S (S k))) with (ff (Z.of_nat 0) (S k) * (Z.of_nat 0 - Z.of_nat (S k))). rewrite <- IH. reflexivity.
  - destruct k as [|k]; [reflexivity|]. rewrite binom_S, Z.mul_add_distr_r, IH, zfact_S.
    rewrite (Z.mul_assoc (binom n k)), (Z.mul_comm (binom n k)), <- Z.mul_assoc, IH. rewrite Nat2Z.inj_succ, <- Z.add_1_r, ff_shift.
    cbn [ff]. ring.
Qed.

Fixpoint zsum (f : nat -> Z) (n : nat) : Z := match n with O => 0 | S k => zsum f k + f k end.
Lemma zsum_ext f g n : (forall k, (k < n)%nat -> f k = g k) -> zsum f n = zsum g n.
Proof. intros H. induction n as [|n IH]; [reflexivity|]. cbn [zsum]. rewrite IH, H by (intros; try apply H; lia). reflexivity. Qed.
Lemma zsum_eqmod m f g n : (forall k, (k < n)%nat -> eqmod m (f k) (g k)) -> eqmod m (zsum f n) (zsum g n).
Proof.
  intros H. induction n as [|n IH]; [reflexivity|]. cbn [zsum]. apply eqmod_add; [apply IH; intros; apply H; lia|apply H; lia].
Qed.
Lemma zsum_0 n : zsum (fun _ => 0) n = 0.
Proof. induction n as [|n IH]; [reflexivity|]. cbn [zsum]. rewrite IH. reflexivity. Qed.

Definition bin_sum (x : Z) (n K : nat) : Z := zsum (fun k => binom n k * x ^ Z.of_nat k) K.

Lemma bin_sum_step x n K : (1 + x) * bin_sum x n (S K) = bin_sum x (S n) (S K) + binom n K * x ^ Z.of_nat (S K).
Proof.
  unfold bin_sum. induction K as [|K IH].
  - cbn [zsum]. rewrite !binom_0_r. change (Z.of_nat 0) with 0. change (Z.of_nat 1) with 1. rewrite Z.pow_0_r, Z.pow_1_r. ring.
  - cbn [zsum] in IH |- *. rewrite Z.mul_add_distr_l, IH. rewrite (binom_S n K), !Nat2Z.inj_succ, !Z.pow_succ_r by lia. ring.
Qed.

(** (1+x)^n agrees with its expansion up to degree K modulo x^(K+1). *)
Lemma binomial_trunc x n K : eqmod (x ^ Z.of_nat (S K)) ((1 + x) ^ Z.of_nat n) (bin_sum x n (S K)).
Proof.
  induction n as [|n IH].
  - assert (E : bin_sum x 0 (S K) = 1); [|rewrite E; reflexivity].
    unfold bin_sum. clear. induction K as [|K IH]; [reflexivity|]. cbn [zsum] in IH |- *. rewrite IH. cbn [binom]. lia.
  - rewrite (Nat2Z.inj_succ n), (Z.pow_succ_r _ (Z.of_nat n)) by lia. rewrite IH, bin_sum_step. rewrite (eqmod_mul_self_r (x ^ Z.of_nat (S K))), Z.add_0_r. reflexivity.
Qed.
(** Exact when all terms are taken. *)
Lemma binomial_exact x n : (1 + x) ^ Z.of_nat n = bin_sum x n (S n).
Proof.
  induction n as [|n IH]; [reflexivity|]. rewrite Nat2Z.inj_succ, Z.pow_succ_r by lia. rewrite IH.
  rewrite bin_sum_step. change (bin_sum x (S n) (S (S n))) with (bin_sum x (S n) (S n) + binom (S n) (S n) * x ^ Z.of_nat (S n)).
  f_equal. f_equal. rewrite binom_S, (binom_big n (S n)) by lia. lia.
Qed.

(** ** Primes *)

Lemma prime_ndiv_small p k : prime p -> 0 < k < p -> ~ (p | k).
Proof. intros Hp Hk D. apply Z.divide_pos_le in D; lia. Qed.
Lemma prime_zfact p k : prime p -> Z.of_nat k < p -> ~ (p | zfact k).
Proof.
  intros Hp. induction k as [|k IH]; intros Hk D.
  - change (zfact 0) with 1 in D. apply Z.divide_1_r in D. pose proof (prime_ge_2 p Hp). lia.
  - rewrite zfact_S in D. apply prime_mult in D; [|exact Hp]. destruct D as [D|D]; [apply (prime_ndiv_small p (Z.of_nat k + 1) Hp) in D; lia|].
    apply IH; [lia|exact D].
Qed.
Lemma prime_gcd p a : prime p -> ~ (p | a) -> Z.gcd a p = 1.
Proof. intros Hp H. rewrite Z.gcd_comm. apply Zgcd_1_rel_prime. apply prime_rel_prime; assumption. Qed.
Lemma prime_divides_binom p k : prime p -> 0 < Z.of_nat k < p -> (p | binom (Z.to_nat p) k).
Proof.
  intros Hp Hk. pose proof (prime_ge_2 p Hp). pose proof (binom_ff (Z.to_nat p) k) as E. rewrite Z2Nat.id in E by lia.
  assert (D : (p | binom (Z.to_nat p) k * zfact k)).
  { rewrite E. destruct k as [|k]; [lia|]. clear E Hk. induction k as [|k IH]; [cbn [ff Z.of_nat]; exists 1; lia|].
    change (ff p (S (S k))) with (ff p (S k) * (p - Z.of_nat (S k))). apply Z.divide_mul_l, IH. }
  apply prime_mult in D; [|exact Hp]. destruct D as [D|D]; [exact D|]. apply prime_zfact in D; [contradiction|exact Hp|lia].
Qed.

Lemma fermat_step p x : prime p -> eqmod p ((1 + x) ^ p) (1 + x ^ p).
Proof.
  intros Hp. pose proof (prime_ge_2 p Hp). rewrite <- (Z2Nat.id p) at 2 3 by lia. rewrite binomial_exact. unfold bin_sum.
  destruct (Z.to_nat p) as [|n] eqn:En; [lia|]. cbn [zsum].
  assert (E : forall k, (k <= n)%nat -> eqmod p (zsum (fun k => binom (S n) k * x ^ Z.of_nat k) (S k)) 1).
  { induction k as [|k IH]; intros Hk; [cbn; reflexivity|]. cbn [zsum] in IH |- *. rewrite IH by lia.
    assert (D : (p | binom (S n) (S k))) by (rewrite <- En; apply prime_divides_binom; [exact Hp|lia]).
    apply eqmod_0 in D. rewrite D, Z.mul_0_l. reflexivity. }
  specialize (E n (le_n n)). cbn [zsum] in E. rewrite E.
  assert (Eb : binom (S n) (S n) = 1).
  { clear. induction (S n) as [|m IH]; [reflexivity|]. rewrite binom_S, IH, binom_big by lia. reflexivity. }
  rewrite Eb, Z.mul_1_l. reflexivity.
Qed.

Lemma fermat_pow p a : prime p -> eqmod p (a ^ p) a.
Proof.
  intros Hp. pose proof (prime_ge_2 p Hp). rewrite <- (eqmod_mod p a).
  pose proof (Z.mod_pos_bound a p ltac:(lia)) as Hb. destruct Hb as [Hb _]. revert Hb. generalize (a mod p). apply natlike_ind.
  - rewrite Z.pow_0_l by lia. reflexivity.
  - intros x Hx IH. unfold Z.succ. rewrite Z.add_comm, fermat_step by exact Hp. rewrite IH. reflexivity.
Qed.
Theorem fermat p a : prime p -> ~ (p | a) -> eqmod p (a ^ (p - 1)) 1.
Proof.
  intros Hp Ha. pose proof (prime_ge_2 p Hp). apply (eqmod_cancel p a); [apply prime_gcd; assumption|].
  rewrite Z.mul_1_r, <- Z.pow_succ_r by lia. replace (Z.succ (p - 1)) with p by lia. apply fermat_pow, Hp.
Qed.

(** ** Lifting *)

(** a^n - b^n = (a - b) * geo a b n *)
Fixpoint geo (a b : Z) (n : nat) : Z := match n with O => 0 | S k => a * geo a b k + b ^ Z.of_nat k end.
Lemma geo_spec a b n : a ^ Z.of_nat n - b ^ Z.of_nat n = (a - b) * geo a b n.
Proof.
  induction n as [|n IH]; [cbn; lia|]. rewrite !Nat2Z.inj_succ, !Z.pow_succ_r by lia. cbn [geo].
  replace (a * a ^ Z.of_nat n - b * b ^ Z.of_nat n) with (a * (a ^ Z.of_nat n - b ^ Z.of_nat n) + (a - b) * b ^ Z.of_nat n) by ring.
  rewrite IH. ring.
Qed.
Lemma geo_mod m a b n : eqmod m a b -> eqmod m (geo a b (S n)) (Z.of_nat (S n) * b ^ Z.of_nat n).
Proof.
  intros H. induction n as [|n IH].
  - cbn. rewrite Z.mul_0_r. reflexivity.
  - change (geo a b (S (S n))) with (a * geo a b (S n) + b ^ Z.of_nat (S n)). rewrite IH, H.
    rewrite !Nat2Z.inj_succ, Z.pow_succ_r by lia.
    replace (b * (Z.succ (Z.of_nat n) * b ^ Z.of_nat n) + b * b ^ Z.of_nat n) with (Z.succ (Z.succ (Z.of_nat n)) * (b * b ^ Z.of_nat n)) by ring.
    reflexivity.
Qed.

(** Raising to the power m lifts a congruence modulo m^j to m^(j+1). *)
Lemma lift_one m j a b : 0 < m -> 1 <= j -> eqmod (m ^ j) a b -> eqmod (m ^ (j + 1)) (a ^ m) (b ^ m).
Proof.
  intros Hm Hj H. unfold eqmod in *. replace (a ^ m - b ^ m) with (a ^ Z.of_nat (Z.to_nat m) - b ^ Z.of_nat (Z.to_nat m)) by (rewrite Z2Nat.id by (apply Z.lt_le_incl, Hm); reflexivity). rewrite geo_spec. rewrite Z.pow_add_r, Z.pow_1_r by (clear - Hj; lia).
  apply Z.divide_trans with ((a - b) * m).
  - apply Z.mul_divide_mono_r. exact H.
  - apply Z.mul_divide_mono_l. destruct (Z.to_nat m) as [|n] eqn:En; [lia|].
    apply eqmod_0. rewrite (geo_mod m a b n).
    + rewrite <- En, Z2Nat.id by lia. apply eqmod_mul_self_l.
    + apply (eqmod_divide m (m ^ j)); [|exact H]. exists (m ^ (j - 1)). rewrite Z.mul_comm, <- Z.pow_succ_r by lia. f_equal. lia.
Qed.
Lemma lift m s a b : 0 < m -> eqmod m a b -> eqmod (m ^ (Z.of_nat s + 1)) (a ^ (m ^ Z.of_nat s)) (b ^ (m ^ Z.of_nat s)).
Proof.
  intros Hm H. induction s as [|s IH].
  - cbn [Z.of_nat]. rewrite Z.add_0_l, Z.pow_0_r, !Z.pow_1_r. exact H.
  - rewrite Nat2Z.inj_succ. unfold Z.succ. rewrite (Z.pow_add_r m (Z.of_nat s) 1), Z.pow_1_r by lia.
    rewrite !Z.pow_mul_r by (try apply Z.pow_nonneg; lia). apply lift_one; [exact Hm|lia|]. exact IH.
Qed.

(** ** Euler for prime powers *)
Lemma unit_pow_one p s a : prime p -> ~ (p | a) -> eqmod (p ^ (Z.of_nat s + 1)) (a ^ ((p - 1) * p ^ Z.of_nat s)) 1.
Proof.
  intros Hp Ha. pose proof (prime_ge_2 p Hp). rewrite Z.pow_mul_r by (try apply Z.pow_nonneg; lia).
  rewrite (lift p s (a ^ (p - 1)) 1) by (try apply fermat; (assumption || lia)).
  rewrite Z.pow_1_l by (apply Z.pow_nonneg; lia). reflexivity.
Qed.

(** ** The subgroup generated by 1 + n *)

Lemma one_plus_pow p n j : 2 < p -> Z.odd p = true -> (p | n) -> eqmod (p ^ (Z.of_nat j + 2)) ((1 + n) ^ (p ^ Z.of_nat j)) (1 + p ^ Z.of_nat j * n).
Proof.
  intros Hp Ho Hn. induction j as [|j IH].
  - cbn [Z.of_nat]. rewrite Z.pow_0_r, Z.pow_1_r, Z.mul_1_l. reflexivity.
  - set (y := p ^ Z.of_nat j * n) in *.
    assert (Hpj : 0 < p ^ Z.of_nat j) by (apply Z.pow_pos_nonneg; lia).
    assert (Hy : (p ^ (Z.of_nat j + 1) | y)).
    { unfold y. rewrite Z.pow_add_r, Z.pow_1_r by lia. apply Z.mul_divide_mono_l. exact Hn. }
    rewrite Nat2Z.inj_succ. unfold Z.succ. replace (Z.of_nat j + 1 + 2) with ((Z.of_nat j + 2) + 1) by lia.
    rewrite (Z.pow_add_r p (Z.of_nat j) 1), Z.pow_1_r by lia. rewrite Z.pow_mul_r by lia.
    rewrite (lift_one p (Z.of_nat j + 2) _ _ ltac:(lia) ltac:(lia) IH).
    (* (1+y)^p = 1 + p y + p (p-1)/2 y^2 modulo y^3 *)
    assert (E : eqmod (y ^ 3) ((1 + y) ^ p) (1 + p * y + p * ((p - 1) / 2) * y ^ 2)).
    { rewrite <- (Z2Nat.id p) at 1 by lia. change 3 with (Z.of_nat 3). rewrite (binomial_trunc y (Z.to_nat p) 2).
      assert (E2 : bin_sum y (Z.to_nat p) 3 = 1 + p * y + p * ((p - 1) / 2) * y ^ 2); [|rewrite E2; reflexivity].
      unfold bin_sum. cbn [zsum]. change (Z.of_nat 0) with 0. change (Z.of_nat 1) with 1. change (Z.of_nat 2) with 2.
      assert (B1 : binom (Z.to_nat p) 1 = p).
      { pose proof (binom_ff (Z.to_nat p) 1) as B. change (zfact 1) with 1 in B. cbn [ff] in B. rewrite Z2Nat.id in B by lia.
        change (Z.of_nat 0) with 0 in B. lia. }
      assert (B2 : binom (Z.to_nat p) 2 = p * ((p - 1) / 2)).
      { pose proof (binom_ff (Z.to_nat p) 2) as B. change (zfact 2) with 2 in B. cbn [ff] in B. rewrite Z2Nat.id in B by lia.
        change (Z.of_nat 0) with 0 in B. change (Z.of_nat 1) with 1 in B.
        assert (Hev : p - 1 = 2 * ((p - 1) / 2)).
        { apply Z.div_exact; [lia|]. rewrite Zmod_odd. rewrite Z.odd_sub, Ho. reflexivity. }
        nia. }
      rewrite binom_0_r, B1, B2, Z.pow_0_r, Z.pow_1_r. ring. }
    assert (D3 : (p ^ (Z.of_nat j + 2 + 1) | y ^ 3)).
    { apply Z.divide_trans with ((p ^ (Z.of_nat j + 1)) ^ 3).
      - rewrite <- Z.pow_mul_r by lia. exists (p ^ ((Z.of_nat j + 1) * 3 - (Z.of_nat j + 2 + 1))). rewrite <- Z.pow_add_r by lia. f_equal. lia.
      - destruct Hy as [w ->]. rewrite Z.pow_mul_l. exists (w ^ 3). ring. }
    apply (eqmod_divide _ _ _ _ D3) in E. rewrite E. clear E D3.
    assert (D2 : (p ^ (Z.of_nat j + 2 + 1) | p * ((p - 1) / 2) * y ^ 2)).
    { apply Z.divide_trans with (p * (p ^ (Z.of_nat j + 1)) ^ 2).
      - rewrite <- Z.pow_mul_r by lia. rewrite <- Z.pow_succ_r by lia.
        exists (p ^ (Z.succ ((Z.of_nat j + 1) * 2) - (Z.of_nat j + 2 + 1))). rewrite <- Z.pow_add_r by lia. f_equal. lia.
      - destruct Hy as [w ->]. rewrite Z.pow_mul_l. exists (((p - 1) / 2) * w ^ 2). ring. }
    apply eqmod_0 in D2. rewrite D2, Z.add_0_r. unfold y. rewrite Z.pow_add_r, Z.pow_1_r by lia.
    assert (E : 1 + p * (p ^ Z.of_nat j * n) = 1 + p ^ Z.of_nat j * p * n) by ring. rewrite E. reflexivity.
Qed.

(** Every u = 1 mod p is a power of 1 + n modulo p^(s+1), when p divides n exactly once. *)
Lemma one_plus_generates p o s u : prime p -> Z.of_nat s < p -> ~ (p | o) -> eqmod p u 1 ->
  exists i, 0 <= i /\ eqmod (p ^ (Z.of_nat s + 1)) ((1 + p * o) ^ i) u.
Proof.
  intros Hp Hs Ho Hu. pose proof (prime_ge_2 p Hp) as Hp2.
  assert (Hone : forall i, 0 <= i -> eqmod p ((1 + p * o) ^ i) 1).
  { intros i Hi. rewrite (eqmod_mul_self_l p o), Z.add_0_r, Z.pow_1_l by exact Hi. reflexivity. }
  assert (Hex : forall j, (j <= s)%nat -> exists i, 0 <= i /\ eqmod (p ^ (Z.of_nat j + 1)) ((1 + p * o) ^ i) u); [|apply (Hex s); lia].
  induction j as [|j IH]; intros Hj.
  - exists 0. split; [lia|]. cbn [Z.of_nat]. rewrite Z.add_0_l, Z.pow_1_r, Z.pow_0_r. symmetry. exact Hu.
  - destruct (IH ltac:(lia)) as (i & Hi & [w Hw]).
    assert (Hpow : eqmod (p ^ (Z.of_nat j + 2)) ((1 + p * o) ^ (p ^ Z.of_nat j)) (1 + p ^ Z.of_nat j * (p * o))).
    { destruct j as [|j]; [cbn [Z.of_nat]; rewrite Z.pow_0_r, Z.pow_1_r, Z.mul_1_l; reflexivity|].
      apply one_plus_pow; [lia| |exists o; lia].
      rewrite <- Z.negb_even. destruct (Z.even p) eqn:Ee; [|reflexivity]. exfalso. apply Z.even_spec in Ee. destruct Ee as [h Eh].
      destruct (prime_divisors p Hp 2) as [D|[D|[D|D]]]; [exists h; lia|lia|lia|lia|lia]. }
    (* pick t with o * t = - w mod p *)
    destruct (rel_prime_bezout _ _ (prime_rel_prime p Hp o Ho)) as [a b E].
    set (t := ((- b) * w) mod p). assert (Ht : 0 <= t < p) by (apply Z.mod_pos_bound; lia).
    assert (Hpp : 0 < p ^ Z.of_nat j) by (apply Z.pow_pos_nonneg; lia).
    exists (i + p ^ Z.of_nat j * t). split; [nia|].
    rewrite Nat2Z.inj_succ. replace (Z.succ (Z.of_nat j) + 1) with (Z.of_nat j + 2) by lia.
    rewrite (Z.pow_add_r (1 + p * o)) by nia. rewrite (Z.pow_mul_r (1 + p * o)) by lia. rewrite Hpow.
    set (P := p ^ (Z.of_nat j + 1)) in *.
    assert (EP : p ^ Z.of_nat j * (p * o) = P * o) by (unfold P; rewrite Z.pow_add_r, Z.pow_1_r by lia; ring). rewrite EP.
    assert (EPP : p ^ (Z.of_nat j + 2) = P * p).
    { unfold P. replace (Z.of_nat j + 2) with (Z.of_nat j + 1 + 1) by lia. rewrite (Z.pow_add_r p (Z.of_nat j + 1) 1), Z.pow_1_r by lia. reflexivity. }
    rewrite EPP.
    assert (HPP : (P * p | (P * o) ^ 2)).
    { exists (p ^ Z.of_nat j * o ^ 2). rewrite Z.pow_mul_l, Z.pow_2_r.
      replace P with (p ^ Z.of_nat j * p) at 2 by (unfold P; rewrite Z.pow_add_r, Z.pow_1_r by lia; reflexivity). ring. }
    assert (Et : eqmod (P * p) ((1 + P * o) ^ t) (1 + t * (P * o))).
    { rewrite <- (Z2Nat.id t) at 1 by lia. apply (eqmod_divide _ _ _ _ HPP). change 2 with (Z.of_nat 2).
      rewrite (binomial_trunc (P * o) (Z.to_nat t) 1). unfold bin_sum. cbn [zsum].
      assert (B1 : binom (Z.to_nat t) 1 = t).
      { pose proof (binom_ff (Z.to_nat t) 1) as B. change (zfact 1) with 1 in B. cbn [ff] in B. rewrite Z2Nat.id in B by lia.
        change (Z.of_nat 0) with 0 in B. lia. }
      rewrite binom_0_r, B1. change (Z.of_nat 0) with 0. change (Z.of_nat 1) with 1. rewrite Z.pow_0_r, Z.pow_1_r, Z.add_0_l, Z.mul_1_l. reflexivity. }
    rewrite Et. replace ((1 + p * o) ^ i) with (u + w * P) by lia.
    (* u (1 + t P o) + w P (1 + t P o) = u + P (u t o + w) + P^2 ...; u = 1 mod p *)
    destruct Hu as [v Hv]. replace u with (1 + v * p) at 1 by lia.
    assert (Eto : eqmod p (t * o) (- w)).
    { unfold t. rewrite (eqmod_mod p). exists (a * w). replace (- b * w * o - - w) with (w * (1 - b * o)) by ring.
      rewrite <- E. ring. }
    destruct Eto as [z Hz].
    exists (z + v * (t * o) + p ^ Z.of_nat j * w * t * o).
    assert (EP1 : P = p ^ Z.of_nat j * p) by (unfold P; rewrite Z.pow_add_r, Z.pow_1_r by lia; reflexivity).
    replace (t * (P * o)) with (P * (t * o)) by ring.
    replace (p ^ Z.of_nat j * w * t * o) with (p ^ Z.of_nat j * w * (t * o)) by ring.
    set (to := t * o) in *. replace to with (z * p - w) by lia.
    replace u with (1 + v * p) by lia. rewrite EP1. ring.
Qed.
