(** Lemmas for C100: what the private key holder draws, counted by the random number it amounts to. *)
From Coq Require Import Znumtheory.
From Verif Require Import Base M_BigNum M_Num M_DJ M_Paillier S_Paillier S_HideSum L_BigNum L_Num L_Mod L_NT L_DJ L_Paillier L_PaillierKey L_Jacobi L_HideSum L_HideLeak S_Hide L_Hide L_HideKey S_Dcr L_DcrUnits.

Section Draws.
Variable isp : Z -> bool.
Variable flag : bool.
Variables p q : Z.
Variable s : nat.
Variable sk : private_paillier.
Hypothesis Hp : safe_prime p.
Hypothesis Hq : safe_prime q.
Hypothesis Hs : (1 <= s)%nat.
Hypothesis Esk : private_create isp flag p q s = Ok sk.
Notation n := (p * q).
Let K : priv_valid p q s sk := private_inv isp flag p q s sk Hp Hq Hs Esk.
Notation gp := (pc_g (priv_p sk)).
Notation gq := (pc_g (priv_q sk)).

(** Summing over both exponents is summing over the units modulo n. *)
Lemma gens_sum (F : Z -> Z) : (forall x y, eqmod p x y -> eqmod q x y -> F x = F y) ->
  zsum (Z.to_nat (p - 1)) (fun rp => zsum (Z.to_nat (q - 1)) (fun rq => F (join p q (gp ^ (1 + rp) mod p) (gq ^ (1 + rq) mod q)))) =
  zsum (Z.to_nat n) (fun x => if Z.gcd x n =? 1 then F x else 0).
Proof.
  intros HF. pose proof (safe_prime_facts p Hp) as (Pp & Hp5 & _). pose proof (safe_prime_facts q Hq) as (Pq & Hq5 & _). destruct (private_generators isp flag p q s sk Esk) as [Gp Gq].
  pose proof Hp as [_ (a & Pa & Ea)]. pose proof Hq as [_ (b & Pb & Eb)]. set (H := fun a b => F (join p q a b)).
  change (zsum (Z.to_nat (p - 1)) (fun rp => zsum (Z.to_nat (q - 1)) (fun rq => H (gp ^ (1 + rp) mod p) (gq ^ (1 + rq) mod q))) = zsum (Z.to_nat n) (fun x => if Z.gcd x n =? 1 then F x else 0)).
  rewrite (gen_sum p a gp Pp Pa Ea (generator_nonresidue isp p a gp Pp Pa Ea Gp) (v_g _ _ _ _ (k_p _ _ _ _ K)) (generator_square isp p a gp Pp Pa Ea Gp) (fun A => zsum (Z.to_nat (q - 1)) (fun rq => H A (gq ^ (1 + rq) mod q)))).
  rewrite <- (zsum_skip p (fun A => zsum (Z.to_nat (q - 1)) (fun rq => H A (gq ^ (1 + rq) mod q)))) by lia.
  transitivity (zsum (Z.to_nat p) (fun A => zsum (Z.to_nat q) (fun B => if A =? 0 then 0 else if B =? 0 then 0 else H A B))).
  { apply zsum_ext. intros A _. destruct (A =? 0); [symmetry; induction (Z.to_nat q); cbn [zsum]; lia|].
    rewrite (gen_sum q b gq Pq Pb Eb (generator_nonresidue isp q b gq Pq Pb Eb Gq) (v_g _ _ _ _ (k_q _ _ _ _ K)) (generator_square isp q b gq Pq Pb Eb Gq) (H A)).
    symmetry. apply zsum_skip. lia. }
  rewrite <- (crt_sum p q (fun A B => if A =? 0 then 0 else if B =? 0 then 0 else H A B)) by (try lia; apply (priv_coprime p q s sk K)).
  apply zsum_ext. intros x _.
  assert (U : (Z.gcd x n =? 1) = negb (x mod p =? 0) && negb (x mod q =? 0)).
  { apply Bool.eq_iff_eq_true. rewrite Z.eqb_eq, andb_true_iff, !negb_true_iff, !Z.eqb_neq. split.
    - intros G. apply gcd_mul_inv_r in G. destruct G as [G1 G2]. split; intros E; apply Z.mod_divide in E; try lia; [apply (unit_not_divides p x Pp G1 E)|apply (unit_not_divides q x Pq G2 E)].
    - intros [N1 N2]. apply gcd_mul_r; apply prime_gcd; try assumption; intros D; apply Z.mod_divide in D; lia. }
  rewrite U. destruct (x mod p =? 0); [reflexivity|]. destruct (x mod q =? 0); [reflexivity|]. cbn [negb andb]. unfold H.
  apply HF; [rewrite (join_p isp flag p q s sk Hp Hq Hs Esk)|rewrite (join_q isp flag p q s sk Hp Hq Hs Esk)]; apply eqmod_mod.
Qed.

Lemma sealed_is c m r : in_range n s c -> encrypts_with n s c m r -> c = sealed n s m r.
Proof.
  intros B [_ E]. unfold in_range in B. transitivity (c mod n ^ (Z.of_nat s + 1)); [symmetry; apply Z.mod_small, B|]. unfold sealed.
  change (eqmod (n ^ (Z.of_nat s + 1)) c ((1 + n) ^ m * r ^ n ^ Z.of_nat s)) in E. apply (eqmod_eq (n ^ (Z.of_nat s + 1))); [clear - B; lia|exact E].
Qed.

(** The reported number is the one the exponents stand for. *)
Lemma pwr_reported k m raw_p raw_q : private_with_rand_create flag sk = Ok k -> 0 <= m < n ^ Z.of_nat s ->
  let r := join p q (gp ^ exponent p raw_p mod p) (gq ^ exponent q raw_q mod q) mod n in
  pwr_encrypt_and_get_rand flag k m raw_p raw_q = Ok (sealed n s m r, r).
Proof.
  intros Ek Hm r. pose proof (pwr_encrypt_ok flag p q s sk K k m raw_p raw_q Ek Hm) as (c & r' & E & Bc & Br & Hc).
  rewrite E, (sealed_is c m r' Bc Hc). assert (Er : r' = r); [|rewrite Er; reflexivity]. clear Bc Hc.
  destruct (priv_ge p q s sk K) as [Hp5 Hq5]. pose proof (v_s _ _ _ _ (k_p _ _ _ _ K)) as Hs'. unfold private_with_rand_create in Ek.
  rewrite (v_pow _ _ _ _ (k_p _ _ _ _ K)), (v_pow _ _ _ _ (k_q _ _ _ _ K)), !get_powers_at in Ek by lia. cbn [bind] in Ek. change (Z.of_nat 1) with 1 in Ek. rewrite !Z.pow_1_r in Ek.
  apply bind_ok in Ek. destruct Ek as (cr & Ecr & Ek). apply bind_ok in Ek. destruct Ek as (? & _ & Ek). apply bind_ok in Ek. destruct Ek as (? & _ & Ek).
  apply bind_ok in Ek. destruct Ek as (? & _ & Ek). apply bind_ok in Ek. destruct Ek as (? & _ & Ek). injection Ek as <-.
  unfold pwr_encrypt_and_get_rand in E. cbn [pwr_key pwr_crt] in E. destruct (negb (is_non_negative m)); [discriminate|]. destruct (priv_n_to_s sk <=? m); [discriminate|].
  apply bind_ok in E. destruct E as ([cp rp] & Ep & E). apply bind_ok in E. destruct E as ([cq rq] & Eq & E). apply bind_ok in E. destruct E as (c0 & _ & E). apply bind_ok in E. destruct E as (r0 & E0 & E). injection E as _ ->.
  assert (G : forall x o pc raw c1 r1, pc_valid x o s pc -> pc_encrypt_and_get_rand flag pc m raw = Ok (c1, r1) -> r1 = pc_g pc ^ exponent x raw mod x ^ (Z.of_nat s + 1)).
  { clear - Hs. intros x o pc raw c1 r1 V H. pose proof (v_ge _ _ _ _ V) as Hx. unfold pc_encrypt_and_get_rand in H. rewrite (v_p _ _ _ _ V), rand_between_is in H by lia. cbn [bind] in H. apply bind_ok in H. destruct H as (? & _ & H).
    rewrite (v_pow _ _ _ _ V), (v_ss _ _ _ _ V), !get_powers_at in H by lia. cbn [bind] in H. replace (Z.of_nat (s + 1)) with (Z.of_nat s + 1) in H by lia.
    pose proof (v_g_range _ _ _ _ V) as R1. assert (R2 : x * x <= x ^ (Z.of_nat s + 1)) by (replace (x * x) with (x ^ 2) by ring; apply Z.pow_le_mono_r; lia). pose proof (exponent_pos x raw ltac:(lia)) as R3.
    rewrite (fixed_base_exp_ok flag (pc_g pc) _ _ (M_pos x o s _ V) (M_odd x o s _ V)) in H by lia. cbn [bind] in H. congruence. }
  apply (G p q) in Ep; [|apply (k_p _ _ _ _ K)]. apply (G q p) in Eq; [|apply (k_q _ _ _ _ K)].
  destruct (crt_correct p q cr rp rq ltac:(lia) ltac:(lia) (priv_coprime p q s sk K) Ecr) as (r1 & Er1 & Br1 & S1 & S2). rewrite E0 in Er1. injection Er1 as <-.
  apply eq_eqmod in S1, S2. apply (eqmod_small n); [exact Br|apply Z.mod_pos_bound; clear - Hp5 Hq5; nia|]. unfold r. rewrite (eqmod_mod n).
  replace n with (n ^ 1) by ring. apply eqmod_join_pow; [lia|apply (priv_coprime p q s sk K)| |]; rewrite Z.pow_1_r.
  - rewrite (join_p isp flag p q s sk Hp Hq Hs Esk), (eqmod_mod p), S1, Ep. apply (eqmod_divide _ _ _ _ (p_divides_M p 0 s) (eqmod_mod _ _)).
  - rewrite (join_q isp flag p q s sk Hp Hq Hs Esk), (eqmod_mod q), S2, Eq. apply (eqmod_divide _ _ _ _ (p_divides_M q 0 s) (eqmod_mod _ _)).
Qed.
End Draws.
