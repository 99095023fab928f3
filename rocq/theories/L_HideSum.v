(** Encryptions of zero made with the public key: which ciphertexts they can turn into each other. *)
From Coq Require Import Znumtheory.
From Verif Require Import Base M_BigNum M_Num M_DJ M_Paillier S_Paillier S_HideSum L_BigNum L_Num L_Mod L_NT L_DJ L_Paillier L_PaillierKey L_Jacobi.

Lemma pow_minus_one p s : 0 < p -> exists j, 0 <= j /\ p ^ Z.of_nat s = 1 + (p - 1) * j.
Proof.
  intros Hp. induction s as [|s (j & Hj & IH)]; [exists 0; split; [lia|change (Z.of_nat 0) with 0; rewrite Z.pow_0_r; lia]|]. exists (p * j + 1). split; [nia|].
  replace (Z.of_nat (S s)) with (Z.succ (Z.of_nat s)) by lia. rewrite Z.pow_succ_r, IH by lia. ring.
Qed.
(** Elements of order dividing p - 1 modulo p^(s+1) are determined modulo p. *)
Lemma root_of_unity_unique p s u v : prime p -> eqmod p u v -> eqmod (p ^ (Z.of_nat s + 1)) (u ^ (p - 1)) 1 -> eqmod (p ^ (Z.of_nat s + 1)) (v ^ (p - 1)) 1 ->
  eqmod (p ^ (Z.of_nat s + 1)) u v.
Proof.
  intros Pp E Hu Hv. pose proof (prime_ge_2 _ Pp). set (M := p ^ (Z.of_nat s + 1)) in *.
  destruct (pow_minus_one p s ltac:(lia)) as (j & Hj & Ej). pose proof (lift p s u v ltac:(lia) E) as L. fold M in L.
  assert (W : forall w, eqmod M (w ^ (p - 1)) 1 -> eqmod M (w ^ p ^ Z.of_nat s) w).
  { intros w Hw. rewrite Ej. rewrite Z.pow_add_r, Z.pow_1_r, Z.pow_mul_r by nia. rewrite Hw, Z.pow_1_l, Z.mul_1_r by lia. reflexivity. }
  rewrite <- (W u Hu), <- (W v Hv). exact L.
Qed.

(** Chinese remainders for three pairwise coprime moduli. *)
Lemma crt_two m1 m2 a1 a2 : 0 < m1 -> 0 < m2 -> Z.gcd m1 m2 = 1 -> exists k, 0 <= k /\ eqmod m1 k a1 /\ eqmod m2 k a2.
Proof.
  intros H1 H2 G. destruct (crt_create_ok m1 m2 H1 H2 G) as (c & Ec & _). destruct (crt_correct m1 m2 c a1 a2 H1 H2 G Ec) as (k & _ & Bk & R1 & R2).
  exists k. split; [lia|]. split; apply mod_eqmod_iff; assumption.
Qed.
Lemma pow_eqmod_exponent p g E i j : 0 <= i -> 0 <= j -> 0 < E -> eqmod p (g ^ E) 1 -> eqmod E i j -> eqmod p (g ^ i) (g ^ j).
Proof.
  intros Hi Hj HE H1 Hij.
  assert (Per : forall x, 0 <= x -> eqmod p (g ^ x) (g ^ (x mod E))).
  { intros x Hx. pose proof (Z.div_mod x E ltac:(lia)) as D. pose proof (Z.mod_pos_bound x E HE). pose proof (Z.div_pos x E Hx HE).
    rewrite D at 1. rewrite Z.pow_add_r, Z.pow_mul_r by nia. rewrite H1, Z.pow_1_l by lia. exists 0. ring. }
  rewrite (Per i Hi), (Per j Hj). apply eqmod_eq in Hij; [|exact HE]. rewrite Hij. reflexivity.
Qed.
Lemma minus_one_even k : 0 <= k -> (-1) ^ k = if Z.even k then 1 else -1.
Proof.
  intros Hk. pattern k. apply natlike_ind; [reflexivity| |exact Hk]. intros y Hy IH. rewrite Z.pow_succ_r, IH, Z.even_succ, <- Z.negb_even by exact Hy. destruct (Z.even y); reflexivity.
Qed.

Section Two.
Variables p q a b : Z.
Hypothesis Pp : prime p.
Hypothesis Pq : prime q.
Hypothesis Ep : p = 2 * a + 1.
Hypothesis Eq : q = 2 * b + 1.
Hypothesis Pa : prime a.
Hypothesis Pb : prime b.
Hypothesis Oa : Z.odd a = true.
Hypothesis Ob : Z.odd b = true.
Hypothesis Hab : a <> b.
Let n := p * q.
Variable x : Z.
Hypothesis Gx : Z.gcd x n = 1.
Hypothesis Gx1 : Z.gcd (x * x - 1) n = 1.

Lemma a_pos : 1 < a. Proof. pose proof (prime_ge_2 _ Pa). lia. Qed.
Lemma b_pos : 1 < b. Proof. pose proof (prime_ge_2 _ Pb). lia. Qed.
Lemma coprime_ndiv r y : prime r -> (r | n) -> Z.gcd y n = 1 -> ~ (r | y).
Proof. intros Pr Hr G D. assert (D1 : (r | 1)) by (rewrite <- G; apply Z.gcd_greatest; assumption). pose proof (prime_ge_2 _ Pr). apply Z.divide_1_r_nonneg in D1; lia. Qed.
Lemma p_n : (p | n). Proof. apply Z.divide_factor_l. Qed.
Lemma q_n : (q | n). Proof. apply Z.divide_factor_r. Qed.
Lemma gcd_ab : Z.gcd a b = 1.
Proof. apply Zgcd_1_rel_prime, rel_prime_sym, prime_rel_prime; [exact Pb|]. intros D. apply prime_div_prime in D; [congruence|assumption|assumption]. Qed.
Lemma gcd_ab2 : Z.gcd (a * b) 2 = 1.
Proof.
  rewrite Z.gcd_comm. apply Zgcd_1_rel_prime, prime_rel_prime; [exact prime_2|]. intros D. apply Zdivide_mod in D. rewrite Zmod_odd, Z.odd_mul, Oa, Ob in D. discriminate.
Qed.

(** -x^2 generates everything whose Jacobi symbol is 1. *)
Lemma minus_square_generates u : ~ (p | u) -> ~ (q | u) -> residue p u = residue q u -> exists k, 0 <= k /\ eqmod p ((- (x * x)) ^ k) u /\ eqmod q ((- (x * x)) ^ k) u.
Proof.
  intros Hup Huq Hr. pose proof a_pos as A1. pose proof b_pos as B1.
  pose proof (coprime_ndiv p x Pp p_n Gx) as Xp. pose proof (coprime_ndiv q x Pq q_n Gx) as Xq.
  pose proof (coprime_ndiv p _ Pp p_n Gx1) as X1p. pose proof (coprime_ndiv q _ Pq q_n Gx1) as X1q.
  set (v := if residue p u then u else - u).
  assert (Hvp : ~ (p | v)) by (unfold v; destruct (residue p u); [exact Hup|rewrite Z.divide_opp_r; exact Hup]).
  assert (Hvq : ~ (q | v)) by (unfold v; destruct (residue p u); [exact Huq|rewrite Z.divide_opp_r; exact Huq]).
  assert (N1 : forall r, prime r -> 3 < r -> ~ (r | -1)) by (intros r Pr Hr3 D; change (-1) with (- (1)) in D; apply Z.divide_opp_r, Z.divide_1_r_nonneg in D; lia).
  assert (Rvp : residue p v = true).
  { unfold v. destruct (residue p u) eqn:E; [exact E|]. replace (- u) with (-1 * u) by ring. rewrite (residue_mul p a Pp Ep A1 (-1) u) by (try apply N1; (assumption || lia)).
    rewrite (residue_minus_one p a Pp Ep A1 Oa), E. reflexivity. }
  assert (Rvq : residue q v = true).
  { unfold v. destruct (residue p u) eqn:E; [rewrite <- Hr; reflexivity|]. replace (- u) with (-1 * u) by ring. rewrite (residue_mul q b Pq Eq B1 (-1) u) by (try apply N1; (assumption || lia)).
    rewrite (residue_minus_one q b Pq Eq B1 Ob), <- Hr. reflexivity. }
  destruct (squares_are_powers p a Pp Ep A1 Pa (x * x) (residue_square p a Pp Ep A1 x Xp) X1p (ndiv_mul p Pp x x Xp Xp) Oa v Hvp Rvp) as (k1 & Hk1 & E1).
  destruct (squares_are_powers q b Pq Eq B1 Pb (x * x) (residue_square q b Pq Eq B1 x Xq) X1q (ndiv_mul q Pq x x Xq Xq) Ob v Hvq Rvq) as (k2 & Hk2 & E2).
  destruct (crt_two a b k1 k2 ltac:(lia) ltac:(lia) gcd_ab) as (k3 & Hk3 & C1 & C2).
  destruct (crt_two (a * b) 2 k3 (if residue p u then 0 else 1) ltac:(nia) ltac:(lia) gcd_ab2) as (k & Hk & C3 & C4).
  assert (Ek : Z.even k = residue p u).
  { apply eqmod_eq in C4; [|lia]. rewrite Zmod_even in C4. destruct (residue p u), (Z.even k); cbn in C4; congruence. }
  assert (S1 : eqmod p ((x * x) ^ k) v).
  { rewrite <- E1. apply (pow_eqmod_exponent p (x * x) a); [lia|lia|lia|apply (residue_true p a Pp Ep A1), (residue_square p a Pp Ep A1 x Xp)|].
    rewrite <- C1. apply (eqmod_divide a (a * b)); [apply Z.divide_factor_l|exact C3]. }
  assert (S2 : eqmod q ((x * x) ^ k) v).
  { rewrite <- E2. apply (pow_eqmod_exponent q (x * x) b); [lia|lia|lia|apply (residue_true q b Pq Eq B1), (residue_square q b Pq Eq B1 x Xq)|].
    rewrite <- C2. apply (eqmod_divide b (a * b)); [apply Z.divide_factor_r|exact C3]. }
  exists k. split; [exact Hk|]. replace (- (x * x)) with (-1 * (x * x)) by ring. rewrite Z.pow_mul_l, minus_one_even, Ek by exact Hk.
  split; [rewrite S1|rewrite S2]; unfold v; destruct (residue p u); exists 0; ring.
Qed.

(** The same for encryptions of zero: every u whose decryption is 0 and whose Jacobi symbol is 1 is a power of the base -x^2 raised to n^s. *)
Variable s : nat.
Let M := n ^ (Z.of_nat s + 1).
Hypothesis Gn : Z.gcd n ((p - 1) * (q - 1)) = 1.
Variable base : Z.
Hypothesis Hbase : eqmod M base ((- (x * x)) ^ (n ^ Z.of_nat s)).

Lemma n_pos : 1 < n. Proof. unfold n. pose proof (prime_ge_2 _ Pp). pose proof (prime_ge_2 _ Pq). nia. Qed.
Lemma gcd_pq : Z.gcd p q = 1.
Proof. apply Zgcd_1_rel_prime, rel_prime_sym, prime_rel_prime; [exact Pq|]. intros D. apply prime_div_prime in D; [lia|assumption|assumption]. Qed.
Lemma split_p u v : eqmod M u v -> eqmod (p ^ (Z.of_nat s + 1)) u v.
Proof. intros H. apply (eqmod_split_pow p q _ u v); [lia|exact H]. Qed.
Lemma split_q u v : eqmod M u v -> eqmod (q ^ (Z.of_nat s + 1)) u v.
Proof. intros H. apply (eqmod_split_pow p q _ u v); [lia|exact H]. Qed.
Lemma mask_root r o g : prime r -> ~ (r | g) -> 0 <= o -> eqmod (r ^ (Z.of_nat s + 1)) ((g ^ ((r * o) ^ Z.of_nat s)) ^ (r - 1)) 1.
Proof.
  intros Pr Hg Ho. pose proof (prime_ge_2 _ Pr). assert (0 <= r ^ Z.of_nat s) by (apply Z.pow_nonneg; lia). assert (0 <= o ^ Z.of_nat s) by (apply Z.pow_nonneg; lia).
  assert (Hro : 0 <= r * o) by (clear - H Ho; nia). assert (Hr1 : 0 <= r - 1) by (clear - H; lia). rewrite <- Z.pow_mul_r by (try apply Z.pow_nonneg; assumption). rewrite Z.pow_mul_l.
  replace (r ^ Z.of_nat s * o ^ Z.of_nat s * (r - 1)) with ((r - 1) * r ^ Z.of_nat s * o ^ Z.of_nat s) by ring. rewrite Z.pow_mul_r by (try apply Z.mul_nonneg_nonneg; assumption).
  rewrite (unit_pow_one r s g Pr Hg). rewrite Z.pow_1_l by assumption. reflexivity.
Qed.
Lemma base_root_p : eqmod (p ^ (Z.of_nat s + 1)) (base ^ (p - 1)) 1.
Proof.
  pose proof (coprime_ndiv p x Pp p_n Gx) as Xp. rewrite (split_p _ _ Hbase). apply mask_root; [exact Pp| |pose proof (prime_ge_2 _ Pq); lia].
  rewrite Z.divide_opp_r. apply ndiv_mul; assumption.
Qed.
Lemma base_root_q : eqmod (q ^ (Z.of_nat s + 1)) (base ^ (q - 1)) 1.
Proof.
  pose proof (coprime_ndiv q x Pq q_n Gx) as Xq. rewrite (split_q _ _ Hbase). unfold n. rewrite (Z.mul_comm p q). apply mask_root; [exact Pq| |pose proof (prime_ge_2 _ Pp); lia].
  rewrite Z.divide_opp_r. apply ndiv_mul; assumption.
Qed.
Lemma base_period : eqmod M (base ^ (2 * (a * b))) 1.
Proof.
  pose proof a_pos. pose proof b_pos. apply eqmod_join_pow; [lia|exact gcd_pq| |].
  - replace (2 * (a * b)) with ((p - 1) * b) by lia. rewrite Z.pow_mul_r by lia. rewrite base_root_p, Z.pow_1_l by lia. reflexivity.
  - replace (2 * (a * b)) with ((q - 1) * a) by lia. rewrite Z.pow_mul_r by lia. rewrite base_root_q, Z.pow_1_l by lia. reflexivity.
Qed.
Lemma base_mod_p : eqmod p base ((- (x * x)) ^ (n ^ Z.of_nat s)).
Proof. apply (eqmod_divide p (p ^ (Z.of_nat s + 1))); [|apply split_p, Hbase]. exists (p ^ Z.of_nat s). rewrite Z.pow_add_r, Z.pow_1_r by lia. ring. Qed.
Lemma base_mod_q : eqmod q base ((- (x * x)) ^ (n ^ Z.of_nat s)).
Proof. apply (eqmod_divide q (q ^ (Z.of_nat s + 1))); [|apply split_q, Hbase]. exists (q ^ Z.of_nat s). rewrite Z.pow_add_r, Z.pow_1_r by lia. ring. Qed.

Lemma zero_encryptions u : ~ (p | u) -> ~ (q | u) -> residue p u = residue q u ->
  eqmod (p ^ (Z.of_nat s + 1)) (u ^ (p - 1)) 1 -> eqmod (q ^ (Z.of_nat s + 1)) (u ^ (q - 1)) 1 -> exists k, 0 <= k /\ eqmod M (base ^ k) u.
Proof.
  intros Hup Huq Hr Tp Tq. pose proof a_pos as A1. pose proof b_pos as B1. pose proof n_pos as N1.
  destruct (minus_square_generates u Hup Huq Hr) as (k & Hk & K1 & K2).
  set (e := n ^ Z.of_nat s) in *. assert (He : 0 <= e) by (apply Z.pow_nonneg; lia).
  assert (Ge : Z.gcd e ((p - 1) * (q - 1)) = 1) by (apply gcd_pow_l; [lia|exact Gn]).
  set (Phi := (p - 1) * (q - 1)) in *. assert (HPhi : 0 < Phi) by (unfold Phi; apply Z.mul_pos_pos; clear - Ep Eq A1 B1; lia).
  assert (Inv : exists e', 0 <= e' /\ eqmod Phi (e * e') 1).
  { apply Zgcd_1_rel_prime, rel_prime_bezout in Ge. destruct Ge as [w z Hwz]. exists (w mod Phi). split; [apply Z.mod_pos_bound; exact HPhi|]. rewrite (eqmod_mod Phi w). exists (- z). clear - Hwz; lia. }
  destruct Inv as (e' & He' & Ee'). assert (Hek : 0 <= e' * k) by (apply Z.mul_nonneg_nonneg; assumption). assert (Heek : 0 <= e * (e' * k)) by (apply Z.mul_nonneg_nonneg; assumption).
  assert (Hp0 : 0 <= p - 1 /\ 0 <= q - 1) by (clear - Ep Eq A1 B1; lia). destruct Hp0 as [Hp0 Hq0]. exists (e' * k). split; [exact Hek|].
  pose proof (coprime_ndiv p x Pp p_n Gx) as Xp. pose proof (coprime_ndiv q x Pq q_n Gx) as Xq.
  assert (Np : ~ (p | - (x * x))) by (rewrite Z.divide_opp_r; apply ndiv_mul; assumption). assert (Nq : ~ (q | - (x * x))) by (rewrite Z.divide_opp_r; apply ndiv_mul; assumption).
  assert (Fp : eqmod p ((- (x * x)) ^ Phi) 1) by (unfold Phi; rewrite Z.pow_mul_r by assumption; rewrite (fermat p _ Pp Np), Z.pow_1_l by assumption; reflexivity).
  assert (Fq : eqmod q ((- (x * x)) ^ Phi) 1) by (unfold Phi; rewrite (Z.mul_comm (p - 1)), Z.pow_mul_r by assumption; rewrite (fermat q _ Pq Nq), Z.pow_1_l by assumption; reflexivity).
  assert (Ex : eqmod Phi (e * (e' * k)) k) by (rewrite Z.mul_assoc, Ee', Z.mul_1_l; reflexivity).
  apply eqmod_join_pow; [clear; lia|exact gcd_pq| |].
  - apply root_of_unity_unique; [exact Pp| | |exact Tp].
    + rewrite base_mod_p. fold e. rewrite <- Z.pow_mul_r by assumption. rewrite (pow_eqmod_exponent p _ Phi (e * (e' * k)) k) by assumption. exact K1.
    + rewrite <- Z.pow_mul_r by assumption. rewrite Z.mul_comm, Z.pow_mul_r by assumption. rewrite base_root_p, Z.pow_1_l by assumption. reflexivity.
  - apply root_of_unity_unique; [exact Pq| | |exact Tq].
    + rewrite base_mod_q. fold e. rewrite <- Z.pow_mul_r by assumption. rewrite (pow_eqmod_exponent q _ Phi (e * (e' * k)) k) by assumption. exact K2.
    + rewrite <- Z.pow_mul_r by assumption. rewrite Z.mul_comm, Z.pow_mul_r by assumption. rewrite base_root_q, Z.pow_1_l by assumption. reflexivity.
Qed.
End Two.
