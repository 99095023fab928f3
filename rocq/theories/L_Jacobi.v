(** Quadratic residues modulo safe primes; the subgroup generated by minus a square. *)
From Coq Require Import Znumtheory.
From Verif Require Import Base M_Num S_Paillier S_HideSum L_Mod L_NT L_DJ.

Section One.
Variables p a : Z.
Hypothesis Pp : prime p.
Hypothesis Ep : p = 2 * a + 1.
Hypothesis Ha : 1 < a.

Lemma half_p : (p - 1) / 2 = a.
Proof. subst p. replace (2 * a + 1 - 1) with (a * 2) by lia. apply Z.div_mul. lia. Qed.
Lemma sq_one x : eqmod p (x * x) 1 -> eqmod p x 1 \/ eqmod p x (-1).
Proof.
  intros H. assert (D : (p | (x - 1) * (x - -1))) by (destruct H as [k Hk]; exists k; lia).
  apply prime_mult in D; [|exact Pp]. exact D.
Qed.
Lemma half_power c : ~ (p | c) -> eqmod p (c ^ a) 1 \/ eqmod p (c ^ a) (-1).
Proof.
  intros Hc. apply sq_one. rewrite <- Z.pow_add_r by lia. replace (a + a) with (p - 1) by lia. apply fermat; assumption.
Qed.
Lemma one_not_minus : ~ eqmod p 1 (-1).
Proof. intros [k Hk]. assert (k = 0 \/ k <> 0) as [->|] by lia; [lia|]. nia. Qed.
Lemma residue_true c : residue p c = true <-> eqmod p (c ^ a) 1.
Proof.
  unfold residue. rewrite half_p, Z.eqb_eq. split; intros H.
  - apply mod_eqmod_iff; [lia|]. rewrite H. symmetry. apply Z.mod_small. lia.
  - apply mod_eqmod_iff in H; [|lia]. rewrite H. apply Z.mod_small. lia.
Qed.
Lemma residue_false c : ~ (p | c) -> residue p c = false <-> eqmod p (c ^ a) (-1).
Proof.
  intros Hc. pose proof (residue_true c) as T. destruct (half_power c Hc) as [H|H]; split; intros H0.
  - apply T in H. congruence.
  - exfalso. apply one_not_minus. rewrite <- H. exact H0.
  - exact H.
  - destruct (residue p c); [|reflexivity]. exfalso. apply one_not_minus. rewrite <- H. symmetry. apply T. reflexivity.
Qed.
Lemma ndiv_mul c d : ~ (p | c) -> ~ (p | d) -> ~ (p | c * d).
Proof. intros Hc Hd D. apply prime_mult in D; [tauto|exact Pp]. Qed.
Lemma ndiv_pow c k : 0 <= k -> ~ (p | c) -> ~ (p | c ^ k).
Proof.
  intros Hk Hc. pattern k. apply natlike_ind; [| |exact Hk].
  - cbn. intros D. apply Z.divide_1_r_nonneg in D; lia.
  - intros y Hy IH. rewrite Z.pow_succ_r by exact Hy. apply ndiv_mul; assumption.
Qed.
Lemma residue_mul c d : ~ (p | c) -> ~ (p | d) -> residue p (c * d) = Bool.eqb (residue p c) (residue p d).
Proof.
  intros Hc Hd. pose proof (ndiv_mul c d Hc Hd) as Hcd.
  destruct (residue p c) eqn:Ec; destruct (residue p d) eqn:Ed; cbn [Bool.eqb];
    (apply residue_true in Ec || (apply residue_false in Ec; [|exact Hc])); (apply residue_true in Ed || (apply residue_false in Ed; [|exact Hd]));
    (apply residue_true || (apply residue_false; [exact Hcd|])); rewrite Z.pow_mul_l, Ec, Ed; reflexivity.
Qed.
Lemma residue_eqmod c d : eqmod p c d -> residue p c = residue p d.
Proof. intros H. unfold residue. f_equal. apply eqmod_eq; [lia|]. apply eqmod_pow. exact H. Qed.
Lemma residue_one : residue p 1 = true.
Proof. apply residue_true. rewrite Z.pow_1_l by lia. reflexivity. Qed.
Lemma residue_pow c k : 0 <= k -> ~ (p | c) -> residue p (c ^ k) = (residue p c || Z.even k).
Proof.
  intros Hk Hc. pattern k. apply natlike_ind; [| |exact Hk].
  - change (c ^ 0) with 1. rewrite residue_one. change (Z.even 0) with true. rewrite Bool.orb_true_r. reflexivity.
  - intros y Hy IH. rewrite Z.pow_succ_r by exact Hy. rewrite residue_mul by (try apply ndiv_pow; assumption). rewrite IH, Z.even_succ, <- Z.negb_even.
    destruct (residue p c), (Z.even y); reflexivity.
Qed.
Lemma residue_square c : ~ (p | c) -> residue p (c * c) = true.
Proof. intros Hc. rewrite residue_mul by exact Hc || exact Hc. destruct (residue p c); reflexivity. Qed.
(** -1 is not a square modulo p = 3 (mod 4). *)
Lemma residue_minus_one : Z.odd a = true -> residue p (-1) = false.
Proof.
  intros Ho. apply residue_false; [intros D; destruct D as [k Hk]; nia|].
  replace a with (2 * (a / 2) + 1) by (pose proof (Zodd_div2 a) as Z2; rewrite Zdiv2_div in Z2; symmetry; apply Z2; apply Zodd_bool_iff; exact Ho).
  rewrite Z.pow_add_r, Z.pow_mul_r by (try lia; assert (0 <= a / 2) by (apply Z.div_pos; lia); lia).
  change ((-1) ^ 2) with 1. rewrite Z.pow_1_l by (apply Z.div_pos; lia). reflexivity.
Qed.

(** ** The squares modulo a safe prime are the powers of any square other than 1 *)
Hypothesis Pa : prime a.
Variable g : Z.
Hypothesis Hg : residue p g = true.
Hypothesis Hg1 : ~ eqmod p g 1.
Hypothesis Hgu : ~ (p | g).

Lemma g_order : eqmod p (g ^ a) 1.
Proof. apply residue_true, Hg. Qed.
Lemma powers_differ i j : 0 <= i < j -> j < a -> ~ eqmod p (g ^ i) (g ^ j).
Proof.
  intros Hij Hj E. assert (E1 : eqmod p (g ^ (j - i)) 1).
  { apply (eqmod_cancel p (g ^ i)).
    - apply Zgcd_1_rel_prime, rel_prime_sym, prime_rel_prime; [exact Pp|]. apply ndiv_pow; [lia|exact Hgu].
    - rewrite <- Z.pow_add_r by lia. replace (i + (j - i)) with j by lia. rewrite Z.mul_1_r. symmetry. exact E. }
  assert (R : rel_prime (j - i) a) by (apply rel_prime_sym, prime_rel_prime; [exact Pa|]; apply prime_ndiv_small; [exact Pa|lia]).
  apply rel_prime_bezout in R. destruct R as [u v Huv].
  apply Hg1. (* g = g^(u(j-i) + v a) *)
  set (d := j - i) in *. assert (Hd : 0 < d < a) by lia.
  (* make the multipliers non-negative *)
  assert (Huv' : (u mod a) * d = 1 + a * (((u mod a) * d - 1) / a)).
  { assert (D : (a | (u mod a) * d - 1)).
    { pose proof (eqmod_mod a u) as M. destruct M as [w Hw]. exists (w * d - v). replace (u mod a) with (u + w * a) by lia. nia. }
    destruct D as [z Hz]. rewrite Hz, Z.div_mul by lia. lia. }
  set (w := ((u mod a) * d - 1) / a) in *. pose proof (Z.mod_pos_bound u a ltac:(lia)) as Bu.
  assert (Hw : 0 <= w). { assert (Hpos : 1 <= u mod a * d + 0 \/ u mod a * d <= 0) by lia. destruct Hpos; nia. }
  assert (L : eqmod p (g ^ (u mod a * d)) 1) by (rewrite Z.mul_comm, Z.pow_mul_r by lia; rewrite E1, Z.pow_1_l by lia; reflexivity).
  rewrite Huv' in L. rewrite Z.pow_add_r, Z.pow_mul_r, Z.pow_1_r in L by nia. rewrite g_order, Z.pow_1_l, Z.mul_1_r in L by lia. exact L.
Qed.
Hypothesis Ho : Z.odd a = true.
Definition small_squares : list Z := map (fun k => (Z.of_nat k * Z.of_nat k) mod p) (seq 1 (Z.to_nat a)).
Lemma residue_small y : ~ (p | y) -> residue p y = true -> In (y mod p) small_squares.
Proof.
  intros Hy Ry. apply residue_true in Ry. set (b := (a + 1) / 2).
  assert (Hb : a + 1 = 2 * b).
  { unfold b. pose proof (Z.odd_succ a) as E. rewrite <- Z.negb_odd, Ho in E. cbn [negb] in E. 
    apply Z.div_exact; [lia|]. rewrite Zmod_odd. replace (a + 1) with (Z.succ a) by lia. rewrite E. reflexivity. }
  set (r := y ^ b mod p). pose proof (Z.mod_pos_bound (y ^ b) p ltac:(lia)) as Br. fold r in Br.
  assert (Er : eqmod p (r * r) y).
  { unfold r. rewrite !eqmod_mod. rewrite <- Z.pow_add_r by lia. replace (b + b) with (a + 1) by lia. rewrite Z.pow_add_r, Z.pow_1_r by lia. rewrite Ry, Z.mul_1_l. reflexivity. }
  assert (Nr : r <> 0).
  { intros E0. rewrite E0 in Er. apply Hy. destruct Er as [k Hk]. exists (- k). lia. }
  apply in_map_iff. destruct (Z_le_dec r a) as [Hra|Hra].
  - exists (Z.to_nat r). split; [|apply in_seq; lia]. rewrite Z2Nat.id by lia. apply eqmod_eq; [lia|exact Er].
  - exists (Z.to_nat (p - r)). split; [|apply in_seq; lia]. rewrite Z2Nat.id by lia. apply eqmod_eq; [lia|]. rewrite <- Er. exists (p - 2 * r). ring.
Qed.
Lemma NoDup_map_inj {A B} (f : A -> B) l : (forall x y, In x l -> In y l -> f x = f y -> x = y) -> NoDup l -> NoDup (map f l).
Proof.
  intros Hinj N. induction N as [|x l Hx N IH]; cbn [map]; constructor.
  - intros H. apply in_map_iff in H. destruct H as (y & E & Hy). apply Hx. rewrite (Hinj x y); [exact Hy|left; reflexivity|right; exact Hy|symmetry; exact E].
  - apply IH. intros u v Hu Hv. apply Hinj; right; assumption.
Qed.
Lemma squares_are_powers y : ~ (p | y) -> residue p y = true -> exists k, 0 <= k < a /\ eqmod p (g ^ k) y.
Proof.
  intros Hy Ry. set (l1 := map (fun k => g ^ Z.of_nat k mod p) (seq 0 (Z.to_nat a))).
  assert (N1 : NoDup l1).
  { unfold l1. apply NoDup_map_inj; [|apply seq_NoDup].
    intros i j Hi Hj E. apply in_seq in Hi, Hj. apply mod_eqmod_iff in E; [|lia].
    destruct (Nat.lt_trichotomy i j) as [Hl|[->|Hl]]; [exfalso|reflexivity|exfalso].
    - apply (powers_differ (Z.of_nat i) (Z.of_nat j)); [lia|lia|exact E].
    - apply (powers_differ (Z.of_nat j) (Z.of_nat i)); [lia|lia|symmetry; exact E]. }
  assert (I1 : incl l1 small_squares).
  { intros z Hz. apply in_map_iff in Hz. destruct Hz as (i & <- & _). apply residue_small; [apply ndiv_pow; [lia|exact Hgu]|].
    rewrite residue_pow by (lia || exact Hgu). rewrite Hg. reflexivity. }
  assert (I2 : incl small_squares l1) by (apply NoDup_length_incl; [exact N1|unfold l1, small_squares; rewrite !map_length, !seq_length; lia|exact I1]).
  specialize (I2 _ (residue_small y Hy Ry)). apply in_map_iff in I2. destruct I2 as (k & Ek & Hk). apply in_seq in Hk. exists (Z.of_nat k). split; [lia|].
  apply mod_eqmod_iff; [lia|exact Ek].
Qed.
End One.
