(** Proofs of the property statements of P_BigNum. *)
From Verif Require Import Base M_BigNum S_BigNum L_BigNum.

Lemma bytes_roundtrip : forall x, 0 <= x ->
  exists s, to_bytes x = Ok s /\ canonical s /\ be_value s = x /\ of_bytes s = x.
Proof.
  intros x Hx. destruct (to_bytes_of x Hx) as (s & Hs & Hv). exists s.
  repeat split; try assumption.
  - eapply to_bytes_canonical; exact Hs.
  - rewrite <- of_bytes_value. exact Hv.
Qed.

Lemma decode_total : forall s,
  of_bytes s = be_value s /\ 0 <= of_bytes s /\ to_bytes (of_bytes s) = Ok (strip_zeros s).
Proof.
  intros s. split; [apply of_bytes_value|]. split; [apply of_bytes_nonneg|apply to_bytes_of_bytes].
Qed.

Lemma canonical_unique : forall s x, 0 <= x -> canonical s -> be_value s = x -> to_bytes x = Ok s.
Proof.
  intros s x Hx Hc Hv. destruct (to_bytes_of x Hx) as (t & Ht & Hv').
  rewrite Ht. f_equal. apply canonical_inj; [eapply to_bytes_canonical; exact Ht|exact Hc|].
  rewrite <- of_bytes_value. congruence.
Qed.

Lemma bn_mod_res v m : 0 < m -> exists r, bn_mod v m = Ok r /\ is_residue v m r.
Proof.
  intros Hm. unfold bn_mod. destruct (Z.eqb_spec m 0); [lia|]. rewrite Z.abs_eq by lia.
  eexists; split; [reflexivity|apply is_residue_mod; exact Hm].
Qed.

Lemma mod_ops_residue : forall a b m, 0 < m ->
  (exists r, bn_mod a m = Ok r /\ is_residue a m r) /\
  (exists r, bn_mod_add a b m = Ok r /\ is_residue (a + b) m r) /\
  (exists r, bn_mod_sub a b m = Ok r /\ is_residue (a - b) m r) /\
  (exists r, bn_mod_mul a b m = Ok r /\ is_residue (a * b) m r) /\
  (exists r, bn_mod_sqr a m = Ok r /\ is_residue (a * a) m r).
Proof. intros a b m Hm. repeat split; apply bn_mod_res; exact Hm. Qed.

Lemma mod_exp_contract : forall a e m,
  (0 <= e -> 0 < m -> exists r, bn_mod_exp a e m = Ok r /\ is_residue (a ^ e) m r) /\
  (e < 0 -> bn_mod_exp a e m = Crash).
Proof.
  intros a e m; split.
  - intros He Hm. rewrite bn_mod_exp_ok by assumption. eexists; split; [reflexivity|].
    apply is_residue_mod; exact Hm.
  - intros He. unfold bn_mod_exp. destruct (Z.ltb_spec e 0); [reflexivity|lia].
Qed.

Lemma mod_inverse_contract : forall a m, 0 < m ->
  (Z.gcd a m = 1 -> exists r, bn_mod_inverse a m = Ok r /\ 0 <= r < m /\ (m | a * r - 1)) /\
  (Z.gcd a m <> 1 -> bn_mod_inverse a m = Err InvalidArgument).
Proof.
  intros a m Hm; split; [|apply bn_mod_inverse_err; exact Hm].
  intros Hg. destruct (bn_mod_inverse_ok a m Hm Hg) as (r & E & R & C).
  exists r. repeat split; try assumption; try lia.
  apply Z.mod_divide; [lia|].
  rewrite Zminus_mod, C, Z.sub_diag, Z.mod_0_l by lia. reflexivity.
Qed.

Lemma div_contract : forall a b, b <> 0 ->
  ((exists q, bn_div a b = Ok q /\ a = q * b) \/ (bn_div a b = Crash /\ forall q, a <> q * b)).
Proof.
  intros a b Hb. destruct (Z.eq_dec (Z.rem a b) 0) as [E|E].
  - left. pose proof (Z.quot_rem a b Hb).
    destruct (bn_div_exact a b Hb) as [H1 H2]; [exists (Z.quot a b); lia|].
    eexists; split; [exact H1|congruence].
  - right. assert (forall q, a <> q * b).
    { intros q ->. rewrite Z.rem_mul in E by lia. lia. }
    split; [apply bn_div_inexact; assumption|assumption].
Qed.

Lemma to_int_contract : forall x, 0 <= x ->
  (x < 2 ^ 64 -> to_int_value x = Ok x) /\ (2 ^ 64 <= x -> to_int_value x = Err InvalidArgument).
Proof.
  intros x Hx. unfold to_int_value. rewrite Z.abs_eq by lia.
  destruct (Z.eq_dec x 0) as [->|H0]; [split; [reflexivity|lia]|].
  pose proof (bit_length_pow x H0) as Hb. rewrite Z.abs_eq in Hb by lia.
  destruct (Z.leb_spec (bit_length x) 64) as [Hl|Hl]; split; intros H; try reflexivity.
  - assert (2 ^ bit_length x <= 2 ^ 64) by (apply Z.pow_le_mono_r; lia). lia.
  - assert (2 ^ 64 <= 2 ^ (bit_length x - 1)) by (apply Z.pow_le_mono_r; lia). lia.
Qed.

Lemma mod_negate_good : forall a m, 0 < m -> (a = 0 \/ ~ (m | a)) ->
  exists r, bn_mod_negate a m = Ok r /\ is_residue (- a) m r.
Proof.
  intros a m Hm Ha. apply bn_mod_negate_spec; [exact Hm|].
  destruct Ha as [|Ha]; [left; assumption|right].
  intros E. apply Ha. apply Z.mod_divide; [lia|exact E].
Qed.

Lemma mod_negate_bad : forall a m, 0 < m -> a <> 0 -> (m | a) ->
  bn_mod_negate a m = Ok m /\ ~ is_residue (- a) m m.
Proof.
  intros a m Hm Ha [k ->]. split; [apply bn_mod_negate_multiple; [lia|]|intros [H _]; lia].
  intros ->. lia.
Qed.
