(** Scalar multiplication in a group of prime order. *)
From Coq Require Import Znumtheory.
From Verif Require Import Base M_BigNum L_Mod M_EC.

Section EC.
Variable C : ec.
Hypothesis L : ec_laws C.
Local Notation "P + Q" := (padd C P Q).
Local Notation "k ** P" := (pmul C k P) (at level 35).
Local Notation "- P" := (pneg C P).
Local Notation inf := (pinf C).

Lemma add_inf_r P : P + inf = P.
Proof. rewrite padd_comm by exact L. apply padd_inf, L. Qed.
Lemma add_neg_l P : - P + P = inf.
Proof. rewrite padd_comm by exact L. apply padd_neg, L. Qed.
Lemma add_cancel_l P Q R : P + Q = P + R -> Q = R.
Proof.
  intros H. rewrite <- (padd_inf C L Q), <- (padd_inf C L R), <- (add_neg_l P), <- !(padd_assoc C L). rewrite H. reflexivity.
Qed.
Lemma add_cancel_r P Q R : Q + P = R + P -> Q = R.
Proof. rewrite !(padd_comm C L _ P). apply add_cancel_l. Qed.
Lemma neg_unique P Q : P + Q = inf -> Q = - P.
Proof. intros H. apply (add_cancel_l P). rewrite H. symmetry. apply padd_neg, L. Qed.
Lemma neg_inf : - inf = inf.
Proof. symmetry. apply neg_unique. apply padd_inf, L. Qed.
Lemma neg_neg P : - (- P) = P.
Proof. symmetry. apply neg_unique, add_neg_l. Qed.
Lemma add_swap P Q R S : (P + Q) + (R + S) = (P + R) + (Q + S).
Proof. rewrite !(padd_assoc C L). f_equal. rewrite <- !(padd_assoc C L). f_equal. apply padd_comm, L. Qed.
Lemma neg_add P Q : - (P + Q) = - P + - Q.
Proof. symmetry. apply neg_unique. rewrite add_swap, !(padd_neg C L). apply padd_inf, L. Qed.

Lemma pmul_0 P : 0 ** P = inf.
Proof. reflexivity. Qed.
Lemma pmul_1 P : 1 ** P = P.
Proof. reflexivity. Qed.
Lemma pmul_neg k P : (Z.opp k) ** P = - (k ** P).
Proof. destruct k; cbn [Z.opp pmul]; [symmetry; apply neg_inf|reflexivity|symmetry; apply neg_neg]. Qed.

Lemma pmul_succ_pos n P : Zpos (Pos.succ n) ** P = P + Zpos n ** P.
Proof. cbn [pmul]. apply Pos.iter_op_succ. apply padd_assoc, L. Qed.

Lemma pmul_succ k P : (Z.succ k) ** P = P + k ** P.
Proof.
  destruct k as [|n|n].
  - cbn. symmetry. apply add_inf_r.
  - rewrite <- Pos2Z.inj_succ. apply pmul_succ_pos.
  - destruct (Pos.eq_dec n 1) as [->|Hn].
    + cbn. symmetry. apply padd_neg, L.
    + replace (Z.succ (Zneg n)) with (Zneg (Pos.pred n)) by lia.
      assert (E : Zpos n ** P = P + Zpos (Pos.pred n) ** P) by (rewrite <- pmul_succ_pos, Pos.succ_pred by exact Hn; reflexivity).
      change (Zneg n) with (Z.opp (Zpos n)). change (Zneg (Pos.pred n)) with (Z.opp (Zpos (Pos.pred n))). rewrite !pmul_neg, E, neg_add.
      rewrite (padd_assoc C L), (padd_neg C L). symmetry. apply padd_inf, L.
Qed.

Lemma pmul_pred k P : (Z.pred k) ** P = - P + k ** P.
Proof.
  apply (add_cancel_l P). rewrite <- pmul_succ, Z.succ_pred, (padd_assoc C L), (padd_neg C L). symmetry. apply padd_inf, L.
Qed.

Lemma pmul_add k j P : (Z.add k j) ** P = k ** P + j ** P.
Proof.
  revert k. apply Z.bi_induction.
  - intros ? ? ->. reflexivity.
  - rewrite Z.add_0_l. symmetry. apply padd_inf, L.
  - intros k. rewrite Z.add_succ_l, !pmul_succ, <- (padd_assoc C L). split; intros H; [rewrite H; reflexivity|apply (add_cancel_l P), H].
Qed.
Lemma pmul_sub k j P : (Z.sub k j) ** P = k ** P + - (j ** P).
Proof. unfold Z.sub. rewrite pmul_add, pmul_neg. reflexivity. Qed.
Lemma pmul_mul k j P : (Z.mul k j) ** P = k ** (j ** P).
Proof.
  revert k. apply Z.bi_induction.
  - intros ? ? ->. reflexivity.
  - reflexivity.
  - intros k. rewrite Z.mul_succ_l, Z.add_comm, pmul_add, pmul_succ. split; intros H; [rewrite H; reflexivity|apply (add_cancel_l _ _ _ H)].
Qed.
Lemma pmul_add_pt k P Q : k ** (P + Q) = k ** P + k ** Q.
Proof.
  revert k. apply Z.bi_induction.
  - intros ? ? ->. reflexivity.
  - cbn. symmetry. apply padd_inf, L.
  - intros k. rewrite !pmul_succ. rewrite add_swap. split; intros H; [rewrite H; reflexivity|apply (add_cancel_l _ _ _ H)].
Qed.
Lemma pmul_inf k : k ** inf = inf.
Proof. apply (add_cancel_l (k ** inf)). rewrite <- pmul_add_pt, add_inf_r, add_inf_r. reflexivity. Qed.
Lemma pmul_neg_pt k P : k ** (- P) = - (k ** P).
Proof. apply neg_unique. rewrite <- pmul_add_pt, (padd_neg C L). apply pmul_inf. Qed.

Lemma order_gt1 : 1 < ec_order C.
Proof. pose proof (prime_ge_2 _ (order_prime C L)); lia. Qed.

Lemma order_kills P : ec_order C ** P = inf.
Proof.
  destruct (gen_generates C L P) as [k ->]. rewrite <- pmul_mul, Z.mul_comm, pmul_mul, (order_gen C L). apply pmul_inf.
Qed.

Lemma pmul_mod k P : (Z.modulo k (ec_order C)) ** P = k ** P.
Proof.
  pose proof order_gt1. rewrite (Z.div_mod k (ec_order C)) at 2 by lia.
  rewrite pmul_add, Z.mul_comm, pmul_mul, order_kills, pmul_inf. symmetry. apply padd_inf, L.
Qed.
Lemma point_mul_eq P k : point_mul C P k = k ** P.
Proof. apply pmul_mod. Qed.

Lemma pmul_eqmod k j P : eqmod (ec_order C) k j -> k ** P = j ** P.
Proof.
  intros H. rewrite <- (pmul_mod k), <- (pmul_mod j). f_equal. apply mod_eqmod_iff; [pose proof order_gt1; lia|exact H].
Qed.

(** A point other than infinity has order exactly [ec_order C]. *)
Lemma pmul_inf_iff k P : P <> inf -> (k ** P = inf <-> (ec_order C | k)).
Proof.
  intros HP. split; [|intros [q ->]; rewrite pmul_mul, order_kills; apply pmul_inf].
  intros Hk. destruct (Zdivide_dec (ec_order C) k) as [H|H]; [exact H|]. exfalso. apply HP.
  destruct (rel_prime_bezout _ _ (prime_rel_prime _ (order_prime C L) k H)) as [u w E].
  rewrite <- (pmul_1 P), <- E. rewrite pmul_add, !pmul_mul, order_kills, Hk, !pmul_inf. apply padd_inf, L.
Qed.
Lemma pmul_inj k j P : P <> inf -> k ** P = j ** P -> eqmod (ec_order C) k j.
Proof.
  intros HP H. unfold eqmod. apply (pmul_inf_iff _ P HP). rewrite pmul_sub, H. apply padd_neg, L.
Qed.
Lemma pmul_inj_iff k j P : P <> inf -> (k ** P = j ** P <-> k mod ec_order C = j mod ec_order C).
Proof.
  intros HP. pose proof order_gt1. rewrite mod_eqmod_iff by lia. split; [apply pmul_inj, HP|apply pmul_eqmod].
Qed.
Lemma pmul_not_inf k P : P <> inf -> k mod ec_order C <> 0 -> k ** P <> inf.
Proof. intros HP Hk E. apply Hk. apply Z.mod_divide; [pose proof order_gt1; lia|]. apply (pmul_inf_iff k P HP), E. Qed.
Lemma pmul_pt_inj k P Q : k mod ec_order C <> 0 -> k ** P = k ** Q -> P = Q.
Proof.
  intros Hk E. assert (Hnd : ~ (ec_order C | k)) by (intros D; apply Hk, Z.mod_divide; [pose proof order_gt1; lia|exact D]).
  destruct (rel_prime_bezout _ _ (prime_rel_prime _ (order_prime C L) k Hnd)) as [u w Eb].
  rewrite <- (pmul_1 P), <- (pmul_1 Q), <- Eb. rewrite !pmul_add, !pmul_mul, !order_kills, E. reflexivity.
Qed.

Lemma is_inf_true P : is_inf C P = true <-> P = inf.
Proof. apply peqb_spec, L. Qed.
Lemma is_inf_false P : is_inf C P = false <-> P <> inf.
Proof. destruct (is_inf C P) eqn:E; [rewrite is_inf_true in E; intuition congruence|]. intuition. apply is_inf_true in H0. congruence. Qed.
Lemma pt_eq_dec (P Q : pt C) : {P = Q} + {P <> Q}.
Proof. destruct (peqb C P Q) eqn:E; [left; apply (peqb_spec C L), E|right; intros H; apply (peqb_spec C L) in H; congruence]. Qed.

Lemma enc_inj P Q : P <> inf -> Q <> inf -> ec_enc C P = ec_enc C Q -> P = Q.
Proof. intros HP HQ E. pose proof (enc_dec C L P HP) as H1. rewrite E, (enc_dec C L Q HQ) in H1. congruence. Qed.
Lemma point_to_bytes_ok P : P <> inf -> point_to_bytes C P = Ok (ec_enc C P).
Proof. intros H. unfold point_to_bytes. apply is_inf_false in H. rewrite H. reflexivity. Qed.
Lemma point_to_bytes_inv P s : point_to_bytes C P = Ok s -> P <> inf /\ s = ec_enc C P.
Proof. unfold point_to_bytes. destruct (is_inf C P) eqn:E; [discriminate|]. intros H. split; [apply is_inf_false, E|congruence]. Qed.
Lemma point_of_bytes_enc P : P <> inf -> point_of_bytes C (ec_enc C P) = Ok P.
Proof. intros H. unfold point_of_bytes. rewrite (enc_dec C L P H). apply is_inf_false in H. rewrite H. reflexivity. Qed.
Lemma point_of_bytes_not_inf s P : point_of_bytes C s = Ok P -> P <> inf.
Proof. unfold point_of_bytes. destruct (ec_dec C s) as [Q|]; [|discriminate]. destruct (is_inf C Q) eqn:E; [discriminate|]. intros H. injection H as <-. apply is_inf_false, E. Qed.
End EC.
