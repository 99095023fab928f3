(** Congruence modulo m on Z, with rewriting. *)
From Coq Require Import Setoid Morphisms Znumtheory.
From Verif Require Import Base.

Definition eqmod (m a b : Z) : Prop := (m | a - b).

Lemma eqmod_intro m a b : eqmod m a b -> (m | a - b).
Proof. exact (fun H => H). Qed.

Global Instance eqmod_equiv m : Equivalence (eqmod m).
Proof.
  split.
  - intros a. exists 0. lia.
  - intros a b [k H]. exists (- k). lia.
  - intros a b c [k H] [l H']. exists (k + l). lia.
Qed.
Global Instance eqmod_add m : Proper (eqmod m ==> eqmod m ==> eqmod m) Z.add.
Proof. intros a b [k H] c d [l H']. exists (k + l). lia. Qed.
Global Instance eqmod_sub m : Proper (eqmod m ==> eqmod m ==> eqmod m) Z.sub.
Proof. intros a b [k H] c d [l H']. exists (k - l). lia. Qed.
Global Instance eqmod_opp m : Proper (eqmod m ==> eqmod m) Z.opp.
Proof. intros a b [k H]. exists (- k). lia. Qed.
Global Instance eqmod_mul m : Proper (eqmod m ==> eqmod m ==> eqmod m) Z.mul.
Proof. intros a b [k H] c d [l H']. exists (k * c + b * l). nia. Qed.

Lemma eqmod_pow m a b e : eqmod m a b -> eqmod m (a ^ e) (b ^ e).
Proof.
  intros H. destruct (Z.le_gt_cases 0 e) as [He|He].
  - pattern e. apply natlike_ind; [reflexivity| |exact He].
    intros x Hx IH. rewrite !Z.pow_succ_r by lia. apply eqmod_mul; assumption.
  - rewrite !Z.pow_neg_r by lia. reflexivity.
Qed.
Global Instance eqmod_pow_proper m : Proper (eqmod m ==> eq ==> eqmod m) Z.pow.
Proof. intros a b H c d ->. apply eqmod_pow, H. Qed.

Lemma eqmod_mod m a : eqmod m (a mod m) a.
Proof.
  destruct (Z.eq_dec m 0) as [->|Hm].
  - rewrite Zmod_0_r. reflexivity.
  - exists (- (a / m)). pose proof (Z.div_mod a m Hm). lia.
Qed.

Lemma eqmod_eq m a b : 0 < m -> eqmod m a b -> a mod m = b mod m.
Proof. intros Hm [k H]. replace a with (b + k * m) by lia. apply Z_mod_plus_full. Qed.

Lemma eq_eqmod m a b : a mod m = b mod m -> eqmod m a b.
Proof. intros H. rewrite <- (eqmod_mod m a), H. apply eqmod_mod. Qed.

Lemma eqmod_small m a b : 0 <= a < m -> 0 <= b < m -> eqmod m a b -> a = b.
Proof. intros Ha Hb H. apply eqmod_eq in H; [|lia]. rewrite !Z.mod_small in H by lia. exact H. Qed.

Lemma eqmod_mod_small m a b : 0 <= b < m -> eqmod m a b -> a mod m = b.
Proof. intros Hb H. apply eqmod_eq in H; [|lia]. rewrite H. apply Z.mod_small. exact Hb. Qed.

Lemma eqmod_self m : eqmod m m 0.
Proof. exists 1. lia. Qed.
Lemma eqmod_mul_self_l m a : eqmod m (m * a) 0.
Proof. exists a. lia. Qed.
Lemma eqmod_mul_self_r m a : eqmod m (a * m) 0.
Proof. exists a. lia. Qed.

Lemma eqmod_divide m n a b : (m | n) -> eqmod n a b -> eqmod m a b.
Proof. intros [k ->] [l H]. exists (l * k). lia. Qed.

Lemma eqmod_0 m a : eqmod m a 0 <-> (m | a).
Proof. unfold eqmod. rewrite Z.sub_0_r. tauto. Qed.

Lemma eqmod_cancel m c a b : Z.gcd c m = 1 -> eqmod m (c * a) (c * b) -> eqmod m a b.
Proof.
  unfold eqmod. rewrite <- Z.mul_sub_distr_l. intros Hg H. apply Z.gauss with c; [exact H|]. rewrite Z.gcd_comm. exact Hg.
Qed.

Lemma eqmod_coprime_mul m n a b : Z.gcd m n = 1 -> eqmod m a b -> eqmod n a b -> eqmod (m * n) a b.
Proof.
  unfold eqmod. intros Hg [k Hk] Hn. assert (H : (n | k)).
  { rewrite Hk in Hn. rewrite Z.mul_comm in Hn. apply Z.gauss in Hn; [exact Hn|]. rewrite Z.gcd_comm. exact Hg. }
  destruct H as [l ->]. exists l. lia.
Qed.

Lemma mod_eqmod_iff m a b : 0 < m -> (a mod m = b mod m <-> eqmod m a b).
Proof. intros Hm. split; [apply eq_eqmod|apply eqmod_eq, Hm]. Qed.
