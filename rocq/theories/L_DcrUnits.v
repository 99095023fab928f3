(** The random numbers of the private-key encryption run through all units modulo n. *)
From Coq Require Import Znumtheory.
From Verif Require Import Base M_BigNum M_Num M_DJ M_Paillier S_Paillier S_HideSum L_BigNum L_Num L_Mod L_NT L_DJ L_Paillier L_PaillierKey L_Jacobi L_HideSum L_HideLeak S_Hide L_Hide L_HideKey S_Dcr.

(** ** Generators modulo a safe prime *)
Section Gen.
Variables p a g : Z.
Hypothesis Pp : prime p.
Hypothesis Pa : prime a.
Hypothesis Ep : p = 2 * a + 1.
Hypothesis Rg : residue p g = false.
Hypothesis Ng : ~ (p | g).
Hypothesis G2 : ~ eqmod p (g * g) 1.
Let Ha : 1 < a. Proof. pose proof (prime_ge_2 _ Pa). lia. Qed.

Lemma gen_parity i : 0 <= i -> residue p (g ^ i) = Z.even i.
Proof. intros Hi. rewrite (residue_pow p a Pp Ep Ha g i Hi Ng), Rg. reflexivity. Qed.
Lemma even_differ i j : 0 <= i < j -> j < p - 1 -> Z.even i = true -> Z.even j = true -> ~ eqmod p (g ^ i) (g ^ j).
Proof.
  intros Hij Hj Ei Ej E. apply Z.even_spec in Ei, Ej. destruct Ei as [i' ->], Ej as [j' ->].
  apply (powers_differ p a Pp Ep Ha Pa (g * g) (residue_square p a Pp Ep Ha g Ng) G2 (ndiv_mul p Pp g g Ng Ng) i' j'); [lia|lia|].
  replace (g * g) with (g ^ 2) by ring. rewrite <- !Z.pow_mul_r by lia. exact E.
Qed.
Lemma gen_differ i j : 0 <= i < j -> j < p - 1 -> ~ eqmod p (g ^ i) (g ^ j).
Proof.
  intros Hij Hj E. assert (Epar : Z.even i = Z.even j) by (rewrite <- !gen_parity by lia; apply (residue_eqmod p a Ep Ha), E).
  destruct (Z.even i) eqn:Ei; [apply (even_differ i j); auto|].
  assert (Oi : Z.odd i = true) by (rewrite <- Z.negb_even, Ei; reflexivity). assert (0 < i) by (destruct (Z.eq_dec i 0) as [->|]; [discriminate Oi|lia]).
  apply (even_differ (i - 1) (j - 1)); [lia|lia|rewrite Z.even_sub, Ei; reflexivity|rewrite Z.even_sub, <- Epar; reflexivity|].
  apply (eqmod_cancel p g); [apply prime_gcd; assumption|]. rewrite <- !Z.pow_succ_r by lia. replace (Z.succ (i - 1)) with i by lia. replace (Z.succ (j - 1)) with j by lia. exact E.
Qed.
Lemma gen_inj i j : 0 <= i < p - 1 -> 0 <= j < p - 1 -> eqmod p (g ^ i) (g ^ j) -> i = j.
Proof. intros Hi Hj E. destruct (Z.lt_trichotomy i j) as [H|[H|H]]; [|exact H|]; exfalso; [apply (gen_differ i j)|apply (gen_differ j i)]; try lia; [exact E|symmetry; exact E]. Qed.
Lemma gen_unit i : 0 <= i -> 0 < g ^ i mod p < p.
Proof.
  intros Hi. pose proof (prime_ge_2 _ Pp). pose proof (Z.mod_pos_bound (g ^ i) p ltac:(lia)) as B. destruct (Z.eq_dec (g ^ i mod p) 0) as [E|]; [|lia].
  exfalso. apply (ndiv_pow p a Pp Ep Ha g i Hi Ng). apply Z.mod_divide; [lia|exact E].
Qed.
(** Summing over the exponents is summing over the units. *)
Lemma gen_sum (f : Z -> Z) : zsum (Z.to_nat (p - 1)) (fun i => f (g ^ (1 + i) mod p)) = zsum (Z.to_nat (p - 1)) (fun i => f (i + 1)).
Proof.
  rewrite <- (zsum_rename (Z.to_nat (p - 1)) (fun i => f (i + 1)) (fun i => g ^ (1 + i) mod p - 1)).
  - apply zsum_ext. intros d _. f_equal. lia.
  - intros d Hd. rewrite Z2Nat.id in * by lia. pose proof (gen_unit (1 + d) ltac:(lia)). lia.
  - intros d e Hd He E. rewrite Z2Nat.id in * by lia. apply gen_inj; [lia|lia|]. assert (E' : g ^ (1 + d) mod p = g ^ (1 + e) mod p) by lia.
    apply mod_eqmod_iff in E'; [|lia]. apply (eqmod_cancel p g); [apply prime_gcd; assumption|]. rewrite !(Z.pow_add_r g 1), Z.pow_1_r in E' by lia. exact E'.
Qed.
End Gen.

Lemma generator_square isp p a g : prime p -> prime a -> p = 2 * a + 1 -> generator_of_prime_powers isp p = Ok g -> ~ eqmod p (g * g) 1.
Proof.
  intros Pp Pa Ea E. pose proof (prime_ge_2 a Pa). unfold generator_of_prime_powers, generator_for_safe_prime in E. destruct (isp p); cbn [negb] in E; [|discriminate].
  assert (Ed : bn_div (p - 1) 2 = Ok a).
  { destruct (bn_div_exact (p - 1) 2 ltac:(lia)) as [E1 E2]; [exists a; lia|]. rewrite E1. f_equal. lia. }
  rewrite Ed in E. cbn [bind] in E. apply bind_ok in E. destruct E as (g0 & E0 & E). apply generator_loop_inv in E0; [|lia|lia]. destruct E0 as (_ & B & _).
  assert (R0 : ~ eqmod p (g0 * g0) 1).
  { intros R. apply B. left. apply eqmod_eq in R; [|lia]. rewrite (Z.mod_small 1) in R by lia. exact R. }
  rewrite bn_mod_exp_ok in E by nia. cbn [bind] in E. destruct (_ =? 1); injection E as <-; [|exact R0].
  intros R. apply R0. rewrite <- R. exists (- (2 * g0 + p)). ring.
Qed.

(** ** Chinese remainders of a sum *)
Lemma zsum_split k m F : zsum (k * m) F = zsum k (fun a => zsum m (fun b => F (a * Z.of_nat m + b))).
Proof.
  induction k as [|k IH]; [reflexivity|]. cbn [zsum]. rewrite <- IH. replace (S k * m)%nat with (k * m + m)%nat by lia. clear IH.
  induction m as [|m IHm]; [cbn [zsum]; rewrite Nat.mul_0_r; cbn; lia|].
  assert (G : forall l j, zsum (l + j) F = zsum l F + zsum j (fun b => F (Z.of_nat l + b))).
  { clear. intros l j. induction j as [|j IH]; [rewrite Nat.add_0_r; cbn [zsum]; lia|]. rewrite Nat.add_succ_r. cbn [zsum]. rewrite IH. replace (Z.of_nat (l + j)) with (Z.of_nat l + Z.of_nat j) by lia. lia. }
  rewrite G. f_equal. apply zsum_ext. intros b _. f_equal. lia.
Qed.
Lemma crt_sum p q (h : Z -> Z -> Z) : 0 < p -> 0 < q -> Z.gcd p q = 1 ->
  zsum (Z.to_nat (p * q)) (fun x => h (x mod p) (x mod q)) = zsum (Z.to_nat p) (fun a => zsum (Z.to_nat q) (fun b => h a b)).
Proof.
  intros Hp Hq G. set (F := fun y => h (y / q) (y mod q)).
  assert (D : forall a b, 0 <= b < q -> (a * q + b) / q = a /\ (a * q + b) mod q = b).
  { intros a b Hb. split; [rewrite Z.add_comm, Z.div_add by lia; rewrite Z.div_small by lia; lia|rewrite Z.add_comm, Z.mod_add by lia; apply Z.mod_small, Hb]. }
  rewrite (zsum_ext _ _ (fun x => F ((x mod p) * q + x mod q))).
  2:{ intros x _. unfold F. destruct (D (x mod p) (x mod q) (Z.mod_pos_bound x q Hq)) as [-> ->]. reflexivity. }
  rewrite (zsum_rename _ F (fun x => (x mod p) * q + x mod q)).
  - rewrite Z2Nat.inj_mul, zsum_split by lia. apply zsum_ext. intros a _. apply zsum_ext. intros b Hb. unfold F. rewrite Z2Nat.id in * by lia. destruct (D a b Hb) as [-> ->]. reflexivity.
  - intros d Hd. pose proof (Z.mod_pos_bound d p Hp). pose proof (Z.mod_pos_bound d q Hq). nia.
  - intros d e Hd He E. rewrite Z2Nat.id in Hd, He by nia. pose proof (Z.mod_pos_bound d q Hq) as B1. pose proof (Z.mod_pos_bound e q Hq) as B2.
    assert (Eq : d mod q = e mod q) by (rewrite <- (proj2 (D (d mod p) (d mod q) B1)), E; apply (D _ _ B2)).
    assert (Epp : d mod p = e mod p) by (rewrite <- (proj1 (D (d mod p) (d mod q) B1)), E; apply (D _ _ B2)).
    apply mod_eqmod_iff in Eq, Epp; try lia. apply (eqmod_small (p * q)); [lia|lia|]. 
    replace (p * q) with ((p * q) ^ 1) by ring. apply eqmod_join_pow; [lia|exact G|rewrite Z.pow_1_r; exact Epp|rewrite Z.pow_1_r; exact Eq].
Qed.
Lemma zsum_skip p (f : Z -> Z) : 0 < p -> zsum (Z.to_nat p) (fun a => if a =? 0 then 0 else f a) = zsum (Z.to_nat (p - 1)) (fun i => f (i + 1)).
Proof.
  intros Hp. set (h := fun a => if a =? 0 then 0 else f a).
  rewrite (zsum_ext (Z.to_nat (p - 1)) (fun i => f (i + 1)) (fun i => h (i + 1))) by (intros d Hd; unfold h; destruct (Z.eqb_spec (d + 1) 0); [lia|reflexivity]).
  rewrite zsum_shift1. replace (Z.to_nat p) with (S (Z.to_nat (p - 1))) by lia. cbn [zsum]. change (h 0) with 0. lia.
Qed.

(** ** The ciphertexts *)
Section Units.
Variable isp : Z -> bool.
Variable flag : bool.
Variables p q : Z.
Variable s : nat.
Variable sk : private_paillier.
Hypothesis Hp : safe_prime p.
Hypothesis Hq : safe_prime q.
Hypothesis Hs : (1 <= s)%nat.
Hypothesis Esk : private_create isp flag p q s = Ok sk.
Notation n := (p * q).
Let K : priv_valid p q s sk := private_inv isp flag p q s sk Hp Hq Hs Esk.

Lemma sealed_depends v x y : eqmod p x y -> eqmod q x y -> sealed n s v x = sealed n s v y.
Proof.
  intros E1 E2. pose proof (safe_prime_facts p Hp) as (_ & Hp5 & _). pose proof (safe_prime_facts q Hq) as (_ & Hq5 & _). unfold sealed. apply eqmod_eq; [apply Z.pow_pos_nonneg; nia|]. apply eqmod_mul; [reflexivity|].
  apply eqmod_join_pow; [lia|apply (priv_coprime p q s sk K)|apply mask_mod_p; [lia|lia|exact E1]|]. rewrite (Z.mul_comm p q). apply mask_mod_p; [lia|lia|exact E2].
Qed.
(** A number with given remainders. *)
Definition join (a b : Z) : Z := a * q ^ (p - 1) + b * p ^ (q - 1).
Lemma join_p a b : eqmod p (join a b) a.
Proof.
  pose proof (safe_prime_facts p Hp) as (Pp & Hp5 & _). pose proof (safe_prime_facts q Hq) as (Pq & Hq5 & _). unfold join.
  assert (F : eqmod p (q ^ (p - 1)) 1). { apply fermat; [exact Pp|]. intros D. pose proof (priv_coprime p q s sk K) as G. apply (Z.gcd_greatest p q p (Z.divide_refl p)) in D. rewrite G in D. apply Z.divide_pos_le in D; lia. }
  rewrite F. exists (b * p ^ (q - 2)). replace (q - 1) with (Z.succ (q - 2)) by lia. rewrite Z.pow_succ_r by lia. ring.
Qed.
Lemma join_q a b : eqmod q (join a b) b.
Proof.
  pose proof (safe_prime_facts p Hp) as (Pp & Hp5 & _). pose proof (safe_prime_facts q Hq) as (Pq & Hq5 & _). unfold join.
  assert (F : eqmod q (p ^ (q - 1)) 1). { apply fermat; [exact Pq|]. intros D. pose proof (priv_coprime p q s sk K) as G. apply (fun d => Z.gcd_greatest p q q d (Z.divide_refl q)) in D. rewrite G in D. apply Z.divide_pos_le in D; lia. }
  rewrite F. exists (a * q ^ (p - 2)). replace (p - 1) with (Z.succ (p - 2)) by lia. rewrite Z.pow_succ_r by lia. ring.
Qed.

Lemma priv_encrypt_sealed m raw_p raw_q : 0 <= m < n ^ Z.of_nat s ->
  priv_encrypt flag sk m raw_p raw_q = Ok (sealed n s m (join (pc_g (priv_p sk) ^ exponent p raw_p mod p) (pc_g (priv_q sk) ^ exponent q raw_q mod q))).
Proof.
  intros Hm. destruct (priv_ge p q s sk K) as [Hp5 Hq5]. unfold priv_encrypt, is_non_negative. destruct (Z.ltb_spec m 0); [lia|]. cbn [negb].
  rewrite (k_ns _ _ _ _ K). destruct (Z.leb_spec (n ^ Z.of_nat s) m); [lia|].
  unfold pc_encrypt. rewrite (v_p _ _ _ _ (k_p _ _ _ _ K)), (v_p _ _ _ _ (k_q _ _ _ _ K)), !rand_between_is by lia. cbn [bind].
  pose proof (exponent_pos p raw_p ltac:(lia)) as Brp. pose proof (exponent_pos q raw_q ltac:(lia)) as Brq. set (rp := exponent p raw_p) in *. set (rq := exponent q raw_q) in *.
  destruct (pc_encrypt_with_rand_ok flag p q s _ (k_p _ _ _ _ K) m rp Brp) as (cp & Ecp & Bcp & Hcp). rewrite Ecp. cbn [bind].
  destruct (pc_encrypt_with_rand_ok flag q p s _ (k_q _ _ _ _ K) m rq Brq) as (cq & Ecq & Bcq & Hcq). rewrite Ecq. cbn [bind].
  assert (HP : 0 < p ^ (Z.of_nat s + 1)) by (apply Z.pow_pos_nonneg; lia). assert (HQ : 0 < q ^ (Z.of_nat s + 1)) by (apply Z.pow_pos_nonneg; lia).
  assert (G : Z.gcd (p ^ (Z.of_nat s + 1)) (q ^ (Z.of_nat s + 1)) = 1) by (apply (priv_gcd_pow p q s sk K); lia).
  destruct (crt_correct _ _ _ cp cq HP HQ G (k_enc _ _ _ _ K)) as (c & Ec & Bc & R1 & R2). rewrite Ec. f_equal.
  apply eq_eqmod in R1, R2. rewrite (priv_n_qp p q) in Hcq. set (r := join _ _).
  destruct (combine_encrypts p q s sk K m cp cq rp rq c r Hm) as [_ E]; try assumption.
  - unfold r. rewrite join_p. apply eqmod_mod.
  - unfold r. rewrite join_q. apply eqmod_mod.
  - assert (B : 0 <= c < n ^ (Z.of_nat s + 1)) by (rewrite Z.pow_mul_l; exact Bc). transitivity (c mod n ^ (Z.of_nat s + 1)); [symmetry; apply Z.mod_small, B|].
    unfold sealed. change (eqmod (n ^ (Z.of_nat s + 1)) c ((1 + n) ^ m * r ^ n ^ Z.of_nat s)) in E. apply (eqmod_eq (n ^ (Z.of_nat s + 1))); [clear - B; lia|exact E].
Qed.

(** Summing over the client's draws is summing over the units modulo n. *)
Lemma units_sum m (f : Z -> Z) : 0 <= m < n ^ Z.of_nat s ->
  zsum (Z.to_nat (p - 1)) (fun rp => zsum (Z.to_nat (q - 1)) (fun rq => match priv_encrypt flag sk m rp rq with Ok c => f c | _ => 0 end)) =
  zsum (Z.to_nat n) (fun x => if Z.gcd x n =? 1 then f (sealed n s m x) else 0).
Proof.
  intros Hm. pose proof (safe_prime_facts p Hp) as (Pp & Hp5 & _). pose proof (safe_prime_facts q Hq) as (Pq & Hq5 & _). destruct (private_generators isp flag p q s sk Esk) as [Gp Gq].
  pose proof Hp as [_ (a & Pa & Ea)]. pose proof Hq as [_ (b & Pb & Eb)].
  set (gp := pc_g (priv_p sk)). set (gq := pc_g (priv_q sk)). set (H := fun a b => f (sealed n s m (join a b))).
  transitivity (zsum (Z.to_nat (p - 1)) (fun rp => zsum (Z.to_nat (q - 1)) (fun rq => H (gp ^ (1 + rp) mod p) (gq ^ (1 + rq) mod q)))).
  { apply zsum_ext. intros rp Hrp. apply zsum_ext. intros rq Hrq. rewrite priv_encrypt_sealed by exact Hm. unfold H, exponent. rewrite (Z.mod_small rp (p - 1)), (Z.mod_small rq (q - 1)) by lia. reflexivity. }
  rewrite (gen_sum p a gp Pp Pa Ea (generator_nonresidue isp p a gp Pp Pa Ea Gp) (v_g _ _ _ _ (k_p _ _ _ _ K)) (generator_square isp p a gp Pp Pa Ea Gp) (fun A => zsum (Z.to_nat (q - 1)) (fun rq => H A (gq ^ (1 + rq) mod q)))).
  rewrite <- (zsum_skip p (fun A => zsum (Z.to_nat (q - 1)) (fun rq => H A (gq ^ (1 + rq) mod q)))) by lia.
  transitivity (zsum (Z.to_nat p) (fun A => zsum (Z.to_nat q) (fun B => if A =? 0 then 0 else if B =? 0 then 0 else H A B))).
  { apply zsum_ext. intros A _. destruct (A =? 0); [symmetry; induction (Z.to_nat q); cbn [zsum]; lia|].
    rewrite (gen_sum q b gq Pq Pb Eb (generator_nonresidue isp q b gq Pq Pb Eb Gq) (v_g _ _ _ _ (k_q _ _ _ _ K)) (generator_square isp q b gq Pq Pb Eb Gq) (H A)).
    symmetry. apply zsum_skip. lia. }
  rewrite <- (crt_sum p q (fun A B => if A =? 0 then 0 else if B =? 0 then 0 else H A B)) by (try lia; apply (priv_coprime p q s sk K)).
  apply zsum_ext. intros x _.
  assert (U : (Z.gcd x n =? 1) = negb (x mod p =? 0) && negb (x mod q =? 0)).
  { apply Bool.eq_iff_eq_true. rewrite Z.eqb_eq, andb_true_iff, !negb_true_iff, !Z.eqb_neq. split.
    - intros G. apply gcd_mul_inv_r in G. destruct G as [G1 G2]. split; intros E; apply Z.mod_divide in E; try lia; [apply (unit_not_divides p x Pp G1 E)|apply (unit_not_divides q x Pq G2 E)].
    - intros [N1 N2]. apply gcd_mul_r; apply prime_gcd; try assumption; intros D; apply Z.mod_divide in D; lia. }
  rewrite U. destruct (x mod p =? 0); [reflexivity|]. destruct (x mod q =? 0); [reflexivity|]. cbn [negb andb]. unfold H. f_equal. apply sealed_depends; [rewrite join_p|rewrite join_q]; apply eqmod_mod.
Qed.
End Units.
