(** Euler's criterion for every odd prime: the numbers whose power with exponent (p-1)/2 is 1 are the non-zero squares. *)
From Coq Require Import Znumtheory.
From Verif Require Import Base L_Mod L_NT.

(** [poly n c f]: f is a polynomial function of degree at most n whose coefficient of x^n is c. *)
Inductive poly : nat -> Z -> (Z -> Z) -> Prop :=
| poly_const c f : (forall x, f x = c) -> poly 0 c f
| poly_more n c k g f : poly n c g -> (forall x, f x = k + x * g x) -> poly (S n) c f.

Lemma poly_add n : forall c g d h r f, poly (S n) c g -> poly n d h -> (forall x, f x = g x + r * h x) -> poly (S n) c f.
Proof.
  induction n as [|n IH]; intros c g d h r f Hg Hh Ef; inversion Hg as [|n0 c0 k g' f0 Hg' Eg]; subst; inversion Hh as [d0 h0 Eh|n1 d0 k' h' h0 Hh' Eh]; subst.
  - apply (poly_more 0 c (k + r * d) g'); [exact Hg'|]. intros x. rewrite Ef, Eg, Eh. ring.
  - apply (poly_more (S n) c (k + r * k') (fun x => g' x + r * h' x)).
    + apply (IH c g' d h' r); [exact Hg'|exact Hh'|reflexivity].
    + intros x. rewrite Ef, Eg, Eh. ring.
Qed.
Lemma poly_divide n : forall c f, poly (S n) c f -> forall r, exists g, poly n c g /\ forall x, f x - f r = (x - r) * g x.
Proof.
  induction n as [|n IH]; intros c f Hf r; inversion Hf as [|n0 c0 k g f0 Hg Ef]; subst.
  - exists (fun _ => c). split; [constructor; reflexivity|]. inversion Hg as [c1 g1 Eg|]; subst. intros x. rewrite !Ef, !Eg. ring.
  - destruct (IH c g Hg r) as (h & Hh & Eh). exists (fun x => g x + r * h x). split; [apply (poly_add n c g c h r); [exact Hg|exact Hh|reflexivity]|].
    intros x. rewrite !Ef. specialize (Eh x). replace (k + x * g x - (k + r * g r)) with ((x - r) * g x + r * (g x - g r)) by ring. rewrite Eh. ring.
Qed.
Lemma poly_roots p : prime p -> forall n c f, poly n c f -> ~ (p | c) -> forall l, NoDup l -> (forall x, In x l -> 0 <= x < p /\ (p | f x)) -> (length l <= n)%nat.
Proof.
  intros Pp. pose proof (prime_ge_2 p Pp) as P2. induction n as [|n IH]; intros c f Hf Hc l N R.
  - destruct l as [|x l]; [cbn; lia|exfalso]. inversion Hf as [c1 f1 Ef|]; subst. apply Hc. rewrite <- (Ef x). apply R. left. reflexivity.
  - destruct l as [|r l]; [cbn; lia|]. destruct (poly_divide n c f Hf r) as (g & Hg & Eg). cbn [length]. inversion N as [|r0 l0 Nr N' Er]; subst. apply le_n_S. apply (IH c g Hg Hc l N').
    intros x Hx. destruct (R x ltac:(right; exact Hx)) as [Bx Dx]. destruct (R r ltac:(left; reflexivity)) as [Br Dr]. split; [exact Bx|].
    assert (D : (p | (x - r) * g x)) by (rewrite <- Eg; apply Z.divide_sub_r; assumption). apply prime_mult in D; [|exact Pp]. destruct D as [D|D]; [exfalso|exact D].
    apply Nr. replace r with x; [exact Hx|]. apply (eqmod_small p); [lia|lia|]. exact D.
Qed.
Lemma poly_power n : poly n 1 (fun x => x ^ Z.of_nat n).
Proof.
  induction n as [|n IH]; [constructor; reflexivity|]. apply (poly_more n 1 0 (fun x => x ^ Z.of_nat n)); [exact IH|]. intros x. rewrite Nat2Z.inj_succ, Z.pow_succ_r by lia. ring.
Qed.
Lemma poly_power_minus_one n : (0 < n)%nat -> poly n 1 (fun x => x ^ Z.of_nat n - 1).
Proof.
  intros Hn. destruct n as [|n]; [lia|]. apply (poly_more n 1 (-1) (fun x => x ^ Z.of_nat n)); [apply poly_power|]. intros x. rewrite Nat2Z.inj_succ, Z.pow_succ_r by lia. ring.
Qed.

Lemma distinct_map {A B} (f : A -> B) l : (forall x y, In x l -> In y l -> f x = f y -> x = y) -> NoDup l -> NoDup (map f l).
Proof.
  intros Hinj N. induction N as [|x l Hx N IH]; cbn [map]; constructor.
  - intros H. apply in_map_iff in H. destruct H as (y & E & Hy). apply Hx. rewrite (Hinj x y); [exact Hy|left; reflexivity|right; exact Hy|symmetry; exact E].
  - apply IH. intros u v Hu Hv. apply Hinj; right; assumption.
Qed.

(** The half power of a number is 1 only if the number is a square. *)
Lemma half_power_square p h a : prime p -> 2 * h = p - 1 -> 0 < h -> eqmod p (a ^ h) 1 -> exists y, 0 < y <= h /\ eqmod p (y * y) a.
Proof.
  intros Pp Hh Hpos E. pose proof (prime_ge_2 p Pp) as P2.
  set (sq := map (fun k => (Z.of_nat k * Z.of_nat k) mod p) (seq 1 (Z.to_nat h))).
  destruct (in_dec Z.eq_dec (a mod p) sq) as [Hin|Hout].
  - apply in_map_iff in Hin. destruct Hin as (k & Ek & Hk). apply in_seq in Hk. exists (Z.of_nat k). split; [lia|]. apply mod_eqmod_iff; [lia|exact Ek].
  - exfalso. assert (Len : (length ((a mod p)%Z :: sq) <= Z.to_nat h)%nat).
    { apply (poly_roots p Pp (Z.to_nat h) 1 (fun x => x ^ Z.of_nat (Z.to_nat h) - 1)).
      - apply poly_power_minus_one. lia.
      - intros D. apply Z.divide_1_r_nonneg in D; lia.
      - constructor; [exact Hout|]. apply distinct_map; [|apply seq_NoDup]. intros u v Hu Hv Euv. apply in_seq in Hu, Hv. apply mod_eqmod_iff in Euv; [|lia].
        assert (D : (p | (Z.of_nat u - Z.of_nat v) * (Z.of_nat u + Z.of_nat v))) by (destruct Euv as [w Hw]; exists w; lia).
        apply prime_mult in D; [|exact Pp]. destruct D as [D|D].
        + apply Nat2Z.inj. apply (eqmod_small p); [lia|lia|exact D].
        + apply Z.divide_pos_le in D; lia.
      - rewrite Z2Nat.id by lia. intros x [<-|Hx].
        + split; [apply Z.mod_pos_bound; lia|]. change (eqmod p ((a mod p) ^ h) 1). rewrite (eqmod_pow p (a mod p) a h) by apply eqmod_mod. exact E.
        + apply in_map_iff in Hx. destruct Hx as (k & <- & Hk). apply in_seq in Hk. split; [apply Z.mod_pos_bound; lia|]. set (y := Z.of_nat k). assert (By : 0 < y <= h) by (unfold y; lia).
          change (eqmod p (((y * y) mod p) ^ h) 1). rewrite (eqmod_pow p ((y * y) mod p) (y * y) h) by apply eqmod_mod. rewrite <- Z.pow_2_r, <- Z.pow_mul_r by lia. rewrite Hh.
          apply (eqmod_cancel p y).
          * apply Zgcd_1_rel_prime, rel_prime_sym, prime_rel_prime; [exact Pp|]. intros D. apply Z.divide_pos_le in D; lia.
          * rewrite Z.mul_1_r. assert (E1 : y * y ^ (p - 1) = y ^ p) by (rewrite <- Z.pow_succ_r by lia; f_equal; lia). rewrite E1. apply fermat_pow, Pp. }
    unfold sq in Len. cbn [length] in Len. rewrite map_length, seq_length in Len. lia.
Qed.
