(** Lemmas about hashing to the curve and padding. *)
From Coq Require Import Znumtheory.
From Verif Require Import Base M_BigNum L_BigNum M_Num L_Mod L_Num L_NT M_EC L_EC L_DJ M_Group S_Group L_Euler.

Section G.
Variable C : ec.
Hypothesis L : ec_laws C.
Variable sqrt_p : Z -> Z.
Hypothesis Hs : sqrt_ok (ec_p C) sqrt_p.
Notation p := (ec_p C).

Lemma p_gt : 3 < p. Proof. apply (p_odd C L). Qed.
Lemma p_is_prime : prime p. Proof. apply (p_prime C L). Qed.
Lemma p_even : Z.even p = false.
Proof.
  destruct (Z.even p) eqn:E; [exfalso|reflexivity]. apply Z.even_spec in E. destruct E as [k E]. pose proof p_gt as G. assert (D : (2 | p)) by (exists k; lia). apply prime_divisors in D; [lia|exact p_is_prime].
Qed.
Lemma p_half : bn_div (p - 1) 2 = Ok ((p - 1) / 2) /\ 2 * ((p - 1) / 2) = p - 1.
Proof.
  pose proof p_gt. pose proof p_even as Ev. assert (D : exists k, p = 2 * k + 1) by (apply Z.odd_spec; rewrite <- Z.negb_even, Ev; reflexivity). destruct D as [k D].
  assert (E : p - 1 = k * 2) by lia. destruct (bn_div_exact (p - 1) 2 ltac:(lia) (ex_intro _ _ E)) as [A B].
  rewrite E in *. rewrite Z.quot_mul in A by lia. rewrite Z.div_mul by lia. split; [exact A|lia].
Qed.

Lemma unit_iff y : Z.gcd y p = 1 <-> y mod p <> 0.
Proof.
  pose proof p_gt. split.
  - intros G E. apply Z.mod_divide in E; [|lia]. assert (D : (p | Z.gcd y p)) by (apply Z.gcd_greatest; [exact E|apply Z.divide_refl]). rewrite G in D. apply Z.divide_1_r_nonneg in D; lia.
  - intros E. apply Zgcd_1_rel_prime. apply rel_prime_sym. apply prime_rel_prime; [apply p_is_prime|]. intros D. apply E. apply Z.mod_divide; [lia|exact D].
Qed.
Lemma fermat_unit y : y mod p <> 0 -> eqmod p (y ^ (p - 1)) 1.
Proof.
  intros Hy. pose proof p_gt. apply (eqmod_cancel p y); [apply unit_iff, Hy|]. rewrite Z.mul_1_r.
  assert (E : y * y ^ (p - 1) = y ^ p) by (rewrite <- Z.pow_succ_r by lia; f_equal; lia). rewrite E. apply fermat_pow, p_is_prime.
Qed.

Definition nz_square (a : Z) : Prop := exists y, y mod p <> 0 /\ eqmod p (y * y) a.
(** Euler's criterion. *)
Lemma euler a : eqmod p (a ^ ((p - 1) / 2)) 1 <-> nz_square a.
Proof.
  pose proof p_gt as G. destruct p_half as [_ Hh]. set (h := (p - 1) / 2) in *. split.
  - intros E. destruct (half_power_square p h a p_is_prime Hh ltac:(lia) E) as (y & By & Ey). exists y. split; [rewrite Z.mod_small; lia|exact Ey].
  - intros (y & Hy & Ey). rewrite <- Ey. rewrite <- Z.pow_2_r, <- Z.pow_mul_r by lia. rewrite Hh. apply fermat_unit, Hy.
Qed.
Lemma is_square_ok a : exists b, is_square C a = Ok b /\ (b = true <-> nz_square a).
Proof.
  pose proof p_gt as G. unfold is_square. destruct p_half as [E Hh]. rewrite E. cbn [bind]. rewrite bn_mod_exp_ok by lia. cbn [bind]. eexists. split; [reflexivity|].
  rewrite Z.eqb_eq, <- euler. split.
  - intros E1. apply mod_eqmod_iff; [lia|]. rewrite E1. symmetry. apply Z.mod_small. lia.
  - intros E1. apply mod_eqmod_iff in E1; [|lia]. rewrite E1. apply Z.mod_small. lia.
Qed.

Definition rhs (x : Z) : Z := x * x * x + ec_a C * x + ec_b C.
Lemma has_point_square x : has_point C x <-> nz_square (rhs x).
Proof.
  pose proof p_gt as G. unfold has_point, nz_square. fold (rhs x). split.
  - intros (y & By & D). exists y. split; [rewrite Z.mod_small; lia|exact D].
  - intros (y & Hy & D). exists (y mod p). pose proof (Z.mod_pos_bound y p ltac:(lia)). split; [lia|].
    apply eqmod_intro. rewrite (eqmod_mod p). exact D.
Qed.
Lemma nz_square_eqmod a b : eqmod p a b -> nz_square a -> nz_square b.
Proof. intros E (y & Hy & D). exists y. split; [exact Hy|]. rewrite D. exact E. Qed.
Lemma rhs_eqmod x x' : eqmod p x x' -> eqmod p (rhs x) (rhs x').
Proof. intros E. unfold rhs. rewrite E. reflexivity. Qed.

Lemma map_x_total x : (has_point C x /\ exists P, map_x C sqrt_p x = Ok P /\ even_lift C x P) \/ (~ has_point C x /\ map_x C sqrt_p x = Err Internal).
Proof.
  pose proof p_gt as G. unfold map_x. rewrite bn_mod_ok by lia. cbn [bind]. set (mx := x mod p). pose proof (Z.mod_pos_bound x p ltac:(lia)) as Bx. fold mx in Bx.
  unfold compute_y_square, bn_exp. change (Z.abs 3) with 3. replace (mx ^ 3) with (mx * mx * mx) by ring. fold (rhs mx). rewrite bn_mod_ok by lia. cbn [bind].
  assert (Er : eqmod p (rhs mx mod p) (rhs x)) by (rewrite (eqmod_mod p); apply rhs_eqmod; apply eqmod_mod).
  destruct (is_square_ok (rhs mx mod p)) as (b & Eb & Hb). rewrite Eb. cbn [bind]. destruct b.
  - left. pose proof (proj1 Hb eq_refl) as (y0 & Hy0 & Ey0). split; [apply has_point_square; apply (nz_square_eqmod _ _ Er); exists y0; tauto|].
    destruct (Hs (rhs mx mod p)) as [Br Dr]; [apply Z.mod_pos_bound; lia|exists y0; exact Ey0|]. set (r := sqrt_p (rhs mx mod p)) in *.
    change (eqmod p (r * r) (rhs mx mod p)) in Dr.
    assert (Hr : r <> 0).
    { intros E0. rewrite E0 in Dr. change (0 * 0) with 0 in Dr. rewrite <- Dr in Ey0. apply Hy0. apply Z.mod_divide; [lia|].
      assert (D0 : (p | y0 * y0)) by (destruct Ey0 as [k Hk]; exists k; lia). apply prime_mult in D0; [|apply p_is_prime]. tauto. }
    assert (Hr' : r mod p <> 0) by (rewrite Z.mod_small by lia; exact Hr).
    assert (Pt : forall y, 0 < y < p -> eqmod p (y * y) (r * r) -> exists P, point_of_xy C mx y = Ok P /\ ec_xy C P = Some (mx, y)).
    { intros y By Ey. destruct (of_xy_curve C L mx y) as (P & EP); [lia|lia| |].
      - fold (rhs mx). rewrite Dr in Ey. apply mod_eqmod_iff; [lia|]. rewrite Ey, (eqmod_mod p). reflexivity.
      - exists P. unfold point_of_xy. rewrite EP. split; [reflexivity|]. apply (xy_of C L). exact EP. }
    unfold is_bit_set. rewrite Z.abs_eq, Z.bit0_odd by lia. destruct (Z.odd r) eqn:Ho.
    + unfold bn_mod_negate. destruct (Z.eqb_spec r 0); [contradiction|]. rewrite bn_mod_ok by lia. cbn [bind]. rewrite (Z.mod_small r) by lia.
      destruct (Pt (p - r)) as (P & EP & XP); [lia|exists (p - 2 * r); ring|]. exists P. split; [exact EP|]. exists (p - r). split; [exact XP|]. split; [|lia].
      rewrite Z.even_sub. rewrite p_even, <- Z.negb_odd, Ho. reflexivity.
    + destruct (Pt r) as (P & EP & XP); [lia|reflexivity|]. exists P. split; [exact EP|]. exists r. split; [exact XP|]. split; [rewrite <- Z.negb_odd, Ho; reflexivity|lia].
  - right. split; [|reflexivity]. intros Hp. apply has_point_square in Hp. symmetry in Er. apply (nz_square_eqmod _ _ Er) in Hp. apply Hb in Hp. discriminate.
Qed.

Lemma even_lift_unique x P Q : even_lift C x P -> even_lift C x Q -> P = Q.
Proof.
  intros (y & XP & Ey & By) (y' & XQ & Ey' & By'). pose proof p_gt as G.
  destruct (xy_curve C L _ _ _ XP) as (_ & _ & E1). destruct (xy_curve C L _ _ _ XQ) as (_ & _ & E2). rewrite <- E2 in E1. apply mod_eqmod_iff in E1; [|lia].
  assert (D : (p | (y - y') * (y + y'))) by (destruct E1 as [k Hk]; exists k; lia). apply prime_mult in D; [|apply p_is_prime].
  assert (y = y').
  { destruct D as [D|D].
    - apply (eqmod_small p); [lia|lia|exact D].
    - exfalso. assert (Es : y + y' = p) by (destruct D as [k Hk]; assert (k = 1) by nia; lia).
      pose proof p_even as Op.
      rewrite <- Es, Z.even_add, Ey, Ey' in Op. discriminate. }
  subst y'. apply (xy_of C L) in XP, XQ. congruence.
Qed.

(** Hash loop. *)
Lemma hash_loop_spec ro m fuel : forall i x P, candidate ro m i x -> (forall j xj, (j < i)%nat -> candidate ro m j xj -> ~ has_point C xj) -> hash_loop C sqrt_p ro fuel x = Ok P ->
  exists i' x', candidate ro m i' x' /\ even_lift C x' P /\ has_point C x' /\ forall j xj, (j < i')%nat -> candidate ro m j xj -> ~ has_point C xj.
Proof.
  induction fuel as [|fuel IH]; intros i x P Hc Hj E; cbn [hash_loop] in E; [discriminate|].
  destruct (map_x_total x) as [(Hp & Q & EQ & LQ)|[Hp EQ]]; rewrite EQ in E.
  - injection E as <-. exists i, x. tauto.
  - apply bind_ok in E. destruct E as (b & Eb & E). apply bind_ok in E. destruct E as (x' & Ex & E). apply (IH (S i) x' P); [econstructor; eassumption| |exact E].
    intros j xj Hlt Hcj. destruct (Nat.eq_dec j i) as [->|]; [|apply (Hj j); [lia|exact Hcj]].
    assert (xj = x); [|congruence]. clear -Hc Hcj. revert x xj Hc Hcj. induction i as [|i IHi]; intros x xj H1 H2; inversion H1; inversion H2; subst; [congruence|].
    match goal with A : candidate ro m i ?a, B : candidate ro m i ?b |- _ => pose proof (IHi _ _ A B) as Eab; subst end. congruence.
Qed.
Lemma candidate_fun ro m i x x' : candidate ro m i x -> candidate ro m i x' -> x = x'.
Proof.
  revert x x'. induction i as [|i IHi]; intros x xj H1 H2; inversion H1; inversion H2; subst; [congruence|].
  match goal with A : candidate ro m i ?a, B : candidate ro m i ?b |- _ => pose proof (IHi _ _ A B) as Eab; subst end. congruence.
Qed.
Lemma hash_loop_total ro fuel : (forall b, exists x, ro b = Ok x /\ 0 <= x < p) -> forall x, 0 <= x < p -> (exists P, hash_loop C sqrt_p ro fuel x = Ok P) \/ hash_loop C sqrt_p ro fuel x = Diverge.
Proof.
  intros Hr. induction fuel as [|fuel IH]; intros x Bx; cbn [hash_loop]; [right; reflexivity|].
  destruct (map_x_total x) as [(Hp & Q & EQ & LQ)|[Hp EQ]]; rewrite EQ; [left; exists Q; reflexivity|].
  destruct (to_bytes_of x ltac:(lia)) as (b & Eb & _). rewrite Eb. cbn [bind]. destruct (Hr b) as (x' & Ex & Bx'). rewrite Ex. cbn [bind]. apply IH, Bx'.
Qed.
Lemma hash_loop_more ro fuel fuel' x P : (fuel <= fuel')%nat -> hash_loop C sqrt_p ro fuel x = Ok P -> hash_loop C sqrt_p ro fuel' x = Ok P.
Proof.
  revert fuel' x. induction fuel as [|fuel IH]; intros fuel' x Hle E; cbn [hash_loop] in E; [discriminate|]. destruct fuel' as [|fuel']; [lia|]. cbn [hash_loop].
  destruct (map_x C sqrt_p x); try exact E. apply bind_ok in E. destruct E as (b & Eb & E). apply bind_ok in E. destruct E as (x' & Ex & E). rewrite Eb. cbn [bind]. rewrite Ex. cbn [bind].
  apply IH; [lia|exact E].
Qed.

(** Padding loop. *)
Lemma pad_loop_spec cnt : forall i xp, (exists P j, pad_loop C sqrt_p cnt i xp = Ok P /\ i <= j < i + Z.of_nat cnt /\ even_lift C (xp + j) P /\ has_point C (xp + j) /\ forall j', i <= j' < j -> ~ has_point C (xp + j')) \/
  (pad_loop C sqrt_p cnt i xp = Err NotFound /\ forall j, i <= j < i + Z.of_nat cnt -> ~ has_point C (xp + j)).
Proof.
  induction cnt as [|cnt IH]; intros i xp; cbn [pad_loop]; [right; split; [reflexivity|intros; lia]|].
  destruct (map_x_total (xp + i)) as [(Hp & Q & EQ & LQ)|[Hp EQ]]; rewrite EQ.
  - left. exists Q, i. split; [reflexivity|]. split; [lia|]. split; [exact LQ|]. split; [exact Hp|]. intros; lia.
  - destruct (IH (i + 1) xp) as [(P & j & E & Bj & Lj & Pj & Nj)|[E No]]; rewrite E.
    + left. exists P, j. split; [reflexivity|]. split; [lia|]. split; [exact Lj|]. split; [exact Pj|]. intros j' Hj'. destruct (Z.eq_dec j' i) as [->|]; [exact Hp|apply Nj; lia].
    + right. split; [reflexivity|]. intros j Hj. destruct (Z.eq_dec j i) as [->|]; [exact Hp|apply No; lia].
Qed.
End G.
