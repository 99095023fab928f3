(** Lemmas about M_BigNum. *)
From Verif Require Import Base M_BigNum S_BigNum.
From Coq Require Import Zpow_facts Znumtheory.

Lemma of_bytes_acc s acc :
  fold_left (fun acc b => acc * 256 + bz b) s acc = acc * 256 ^ Z.of_nat (length s) + be_value s.
Proof.
  revert acc; induction s as [|b s IH]; intros acc; cbn [fold_left be_value length].
  - rewrite Z.pow_0_r. lia.
  - rewrite IH. rewrite Nat2Z.inj_succ, Z.pow_succ_r by lia. ring.
Qed.

Lemma of_bytes_value s : of_bytes s = be_value s.
Proof. unfold of_bytes. rewrite of_bytes_acc. lia. Qed.

Lemma be_value_range s : 0 <= be_value s < 256 ^ Z.of_nat (length s).
Proof.
  induction s as [|b s IH]; cbn [be_value length]; [rewrite Z.pow_0_r; lia|].
  rewrite Nat2Z.inj_succ, Z.pow_succ_r by lia.
  pose proof (bz_range b). nia.
Qed.

Lemma of_bytes_nonneg s : 0 <= of_bytes s.
Proof. rewrite of_bytes_value. apply be_value_range. Qed.

Lemma bn2bin_length n x : length (bn2bin n x) = n.
Proof. induction n; cbn [bn2bin length]; congruence. Qed.

Lemma bn2bin_value n x : be_value (bn2bin n x) = x mod 256 ^ Z.of_nat n.
Proof.
  induction n as [|n IH]; cbn [bn2bin be_value].
  - rewrite Z.pow_0_r, Z.mod_1_r. reflexivity.
  - rewrite bn2bin_length, IH, bz_zb.
    rewrite Nat2Z.inj_succ, Z.pow_succ_r by lia.
    rewrite (Z.mul_comm 256). rewrite Z.rem_mul_r by lia. ring.
Qed.

Lemma bit_length_pow x : x <> 0 -> 2 ^ (bit_length x - 1) <= Z.abs x < 2 ^ bit_length x.
Proof.
  intros H. unfold bit_length. destruct (Z.eqb_spec x 0) as [|_]; [lia|].
  pose proof (Z.log2_spec (Z.abs x) ltac:(lia)) as Hl.
  replace (Z.log2 (Z.abs x) + 1 - 1) with (Z.log2 (Z.abs x)) by lia.
  replace (Z.log2 (Z.abs x) + 1) with (Z.succ (Z.log2 (Z.abs x))) by lia. exact Hl.
Qed.

Lemma bit_length_nonneg x : 0 <= bit_length x.
Proof.
  unfold bit_length. destruct (Z.eqb_spec x 0); [lia|]. pose proof (Z.log2_nonneg (Z.abs x)). lia.
Qed.

Lemma num_bytes_bound x : 0 <= x -> x < 256 ^ Z.of_nat (num_bytes x).
Proof.
  intros H. unfold num_bytes. pose proof (bit_length_nonneg x) as Hb.
  assert (H0 : 0 <= (bit_length x + 7) / 8) by (apply Z.div_pos; lia).
  rewrite Z2Nat.id by lia.
  change 256 with (2 ^ 8). rewrite <- Z.pow_mul_r by lia.
  destruct (Z.eq_dec x 0) as [->|Hx].
  - apply Z.pow_pos_nonneg; lia.
  - pose proof (bit_length_pow x Hx) as [_ Hp].
    eapply Z.lt_le_trans; [rewrite Z.abs_eq in Hp by lia; exact Hp|].
    apply Z.pow_le_mono_r; [lia|].
    pose proof (Z.div_mod (bit_length x + 7) 8 ltac:(lia)).
    pose proof (Z.mod_pos_bound (bit_length x + 7) 8 ltac:(lia)). lia.
Qed.

Lemma num_bytes_tight x n : 0 < x -> num_bytes x = S n -> 256 ^ Z.of_nat n <= x.
Proof.
  intros H Hn. unfold num_bytes in Hn.
  pose proof (bit_length_nonneg x) as Hb.
  assert (Hq : (bit_length x + 7) / 8 = Z.of_nat n + 1) by lia.
  pose proof (Z.div_mod (bit_length x + 7) 8 ltac:(lia)).
  pose proof (Z.mod_pos_bound (bit_length x + 7) 8 ltac:(lia)).
  pose proof (bit_length_pow x ltac:(lia)) as [Hl _]. rewrite Z.abs_eq in Hl by lia.
  eapply Z.le_trans; [|exact Hl].
  change 256 with (2 ^ 8). rewrite <- Z.pow_mul_r by lia.
  apply Z.pow_le_mono_r; lia.
Qed.

Lemma to_bytes_of x : 0 <= x -> exists s, to_bytes x = Ok s /\ of_bytes s = x.
Proof.
  intros H. unfold to_bytes. destruct (Z.ltb_spec x 0); [lia|].
  eexists; split; [reflexivity|]. rewrite of_bytes_value, bn2bin_value.
  apply Z.mod_small. split; [lia|apply num_bytes_bound; lia].
Qed.

Lemma to_bytes_canonical x s : to_bytes x = Ok s -> canonical s.
Proof.
  unfold to_bytes. destruct (Z.ltb_spec x 0) as [|H]; [discriminate|]. intros [= <-].
  destruct (num_bytes x) as [|n] eqn:E; cbn [bn2bin canonical]; [exact I|].
  rewrite bz_zb.
  assert (Hx : 0 < x).
  { destruct (Z.eq_dec x 0) as [->|]; [|lia]. vm_compute in E. discriminate. }
  pose proof (num_bytes_tight x n Hx E) as Ht.
  pose proof (num_bytes_bound x H) as Hb. rewrite E, Nat2Z.inj_succ, Z.pow_succ_r in Hb by lia.
  assert (Hpos : 0 < 256 ^ Z.of_nat n) by (apply Z.pow_pos_nonneg; lia).
  assert (1 <= x / 256 ^ Z.of_nat n) by (apply Z.div_le_lower_bound; lia).
  assert (x / 256 ^ Z.of_nat n < 256) by (apply Z.div_lt_upper_bound; lia).
  rewrite Z.mod_small by lia. lia.
Qed.

Lemma canonical_lower b s : bz b <> 0 -> 256 ^ Z.of_nat (length s) <= be_value (b :: s).
Proof.
  intros H. cbn [be_value]. pose proof (bz_range b). pose proof (be_value_range s).
  assert (0 < 256 ^ Z.of_nat (length s)) by (apply Z.pow_pos_nonneg; lia). nia.
Qed.

Lemma canonical_inj s t : canonical s -> canonical t -> be_value s = be_value t -> s = t.
Proof.
  assert (Hlen : forall u v, canonical u -> canonical v -> be_value u = be_value v ->
                 (length u <= length v)%nat).
  { intros u v Hu Hv He. destruct u as [|a u]; [cbn; lia|].
    destruct (le_lt_dec (length (a :: u)) (length v)) as [|Hlt]; [assumption|exfalso].
    pose proof (canonical_lower a u Hu) as Hl.
    pose proof (be_value_range v) as Hr. cbn [length] in Hlt.
    assert (256 ^ Z.of_nat (length v) <= 256 ^ Z.of_nat (length u)) by (apply Z.pow_le_mono_r; lia).
    lia. }
  intros Hs Ht He.
  assert (Hl : length s = length t) by (apply Nat.le_antisymm; apply Hlen; auto).
  clear Hs Ht Hlen. revert t He Hl; induction s as [|a s IH]; intros [|b t] He Hl; try discriminate; [reflexivity|].
  cbn [length] in Hl. injection Hl as Hl. cbn [be_value] in He. rewrite Hl in He.
  pose proof (be_value_range s) as R1. rewrite Hl in R1. pose proof (be_value_range t) as R2.
  assert (bz a = bz b) by nia.
  f_equal; [apply bz_inj; assumption|]. apply IH; [nia|exact Hl].
Qed.

Lemma strip_zeros_canonical s : canonical (strip_zeros s).
Proof.
  induction s as [|b s IH]; cbn [strip_zeros]; [exact I|].
  destruct (Z.eqb_spec (bz b) 0); [exact IH|]. exact n.
Qed.

Lemma strip_zeros_value s : be_value (strip_zeros s) = be_value s.
Proof.
  induction s as [|b s IH]; cbn [strip_zeros be_value]; [reflexivity|].
  destruct (Z.eqb_spec (bz b) 0) as [E|E]; [rewrite IH, E; lia|reflexivity].
Qed.

Lemma to_bytes_of_bytes s : to_bytes (of_bytes s) = Ok (strip_zeros s).
Proof.
  destruct (to_bytes_of (of_bytes s) (of_bytes_nonneg s)) as (t & Ht & Hv).
  rewrite Ht. f_equal. apply canonical_inj.
  - eapply to_bytes_canonical; exact Ht.
  - apply strip_zeros_canonical.
  - rewrite strip_zeros_value, <- !of_bytes_value. exact Hv.
Qed.

Lemma to_bytes_neg x : x < 0 -> to_bytes x = Crash.
Proof. intros H. unfold to_bytes. destruct (Z.ltb_spec x 0); [reflexivity|lia]. Qed.

Lemma to_bytes_inj x y s : to_bytes x = Ok s -> to_bytes y = Ok s -> x = y.
Proof.
  intros Hx Hy.
  assert (0 <= x) by (unfold to_bytes in Hx; destruct (Z.ltb_spec x 0); [discriminate|lia]).
  assert (0 <= y) by (unfold to_bytes in Hy; destruct (Z.ltb_spec y 0); [discriminate|lia]).
  destruct (to_bytes_of x) as (s1 & E1 & V1); [assumption|].
  destruct (to_bytes_of y) as (s2 & E2 & V2); [assumption|]. congruence.
Qed.

Lemma to_bytes_ok x s : to_bytes x = Ok s -> 0 <= x /\ of_bytes s = x.
Proof.
  intros Hx. assert (0 <= x) by (unfold to_bytes in Hx; destruct (Z.ltb_spec x 0); [discriminate|lia]).
  destruct (to_bytes_of x) as (s1 & E1 & V1); [assumption|]. split; [assumption|congruence].
Qed.

(** Euclid. *)
Lemma egcd_bezout f a b g x y : egcd f a b = (g, x, y) -> a * x + b * y = g.
Proof.
  revert a b g x y; induction f as [|f IH]; intros a b g x y; cbn [egcd].
  - intros [= <- <- <-]. lia.
  - destruct (Z.eqb_spec b 0) as [->|Hb]; [intros [= <- <- <-]; lia|].
    destruct (egcd f b (a mod b)) as [[g' x'] y'] eqn:E. intros [= <- <- <-].
    apply IH in E. rewrite <- E. pose proof (Z.div_mod a b Hb). nia.
Qed.

Lemma egcd_gcd n : forall f a b g x y, 0 <= a -> 0 <= b < 2 ^ Z.of_nat n -> (2 * n + 1 <= f)%nat ->
  egcd f a b = (g, x, y) -> g = Z.gcd a b.
Proof.
  induction n as [|n IH]; intros f a b g x y Ha Hb Hf He.
  - rewrite Z.pow_0_r in Hb. assert (b = 0) as -> by lia.
    destruct f as [|f]; [lia|]. cbn [egcd] in He. rewrite Z.eqb_refl in He. injection He as <- _ _.
    rewrite Z.gcd_0_r. lia.
  - destruct f as [|[|f]]; [lia|lia|]. cbn [egcd] in He.
    destruct (Z.eqb_spec b 0) as [->|Hb0]; [injection He as <- _ _; rewrite Z.gcd_0_r; lia|].
    assert (Hr : 0 <= a mod b < b) by (apply Z.mod_pos_bound; lia).
    assert (G1 : Z.gcd a b = Z.gcd b (a mod b)).
    { rewrite (Z.gcd_comm b). rewrite Z.gcd_mod by lia. apply Z.gcd_comm. }
    destruct (Z.eqb_spec (a mod b) 0) as [Hz|Hz].
    { cbn in He. injection He as <- _ _. rewrite G1, Hz, Z.gcd_0_r. lia. }
    destruct (egcd f (a mod b) (b mod (a mod b))) as [[g' x'] y'] eqn:E.
    injection He as <- _ _.
    assert (Hr2 : 0 <= b mod (a mod b) < a mod b) by (apply Z.mod_pos_bound; lia).
    rewrite Nat2Z.inj_succ, Z.pow_succ_r in Hb by lia.
    assert (Hhalf : 2 * (b mod (a mod b)) < b).
    { destruct (Z_le_gt_dec (2 * (a mod b)) b); [lia|].
      assert (1 <= b / (a mod b)) by (apply Z.div_le_lower_bound; lia).
      pose proof (Z.div_mod b (a mod b) Hz). nia. }
    assert (Hlt : 0 <= b mod (a mod b) < 2 ^ Z.of_nat n) by lia.
    assert (Hf2 : (2 * n + 1 <= f)%nat) by lia.
    rewrite G1. rewrite (IH _ _ _ _ _ _ (proj1 Hr) Hlt Hf2 E).
    rewrite (Z.gcd_comm (a mod b)). rewrite Z.gcd_mod by lia. apply Z.gcd_comm.
Qed.

Lemma egcd_fuel_ok m n : 0 < m -> n = Z.to_nat (Z.log2 m + 1) ->
  m < 2 ^ Z.of_nat n /\ (2 * n + 1 <= egcd_fuel m)%nat.
Proof.
  intros H ->. pose proof (Z.log2_nonneg m). pose proof (Z.log2_spec m H) as [_ Hs].
  rewrite Z2Nat.id by lia. split; [exact Hs|]. unfold egcd_fuel. lia.
Qed.

Lemma bn_mod_inverse_ok a m : 0 < m -> Z.gcd a m = 1 ->
  exists r, bn_mod_inverse a m = Ok r /\ 0 <= r < m /\ (a * r) mod m = 1 mod m.
Proof.
  intros Hm Hg. unfold bn_mod_inverse. destruct (Z.leb_spec m 0); [lia|].
  destruct (egcd (egcd_fuel m) (a mod m) m) as [[g x] y] eqn:E.
  destruct (egcd_fuel_ok m _ Hm eq_refl) as [B F].
  pose proof (Z.mod_pos_bound a m Hm) as Hr.
  assert (Gg : g = Z.gcd (a mod m) m).
  { eapply egcd_gcd; [| |exact F|exact E]; lia. }
  assert (Gm : Z.gcd (a mod m) m = 1) by (rewrite Z.gcd_mod by lia; rewrite Z.gcd_comm; exact Hg).
  rewrite Gm in Gg. subst g. cbn. eexists; split; [reflexivity|].
  split; [apply Z.mod_pos_bound; lia|].
  apply egcd_bezout in E.
  rewrite Z.mul_mod_idemp_r by lia.
  rewrite <- Z.mul_mod_idemp_l by lia.
  replace ((a mod m) * x) with (1 + (- y) * m) by lia. apply Z_mod_plus_full.
Qed.

Lemma bn_mod_inverse_err a m : 0 < m -> Z.gcd a m <> 1 -> bn_mod_inverse a m = Err InvalidArgument.
Proof.
  intros Hm Hg. unfold bn_mod_inverse. destruct (Z.leb_spec m 0); [lia|].
  destruct (egcd (egcd_fuel m) (a mod m) m) as [[g x] y] eqn:E.
  destruct (egcd_fuel_ok m _ Hm eq_refl) as [B F].
  pose proof (Z.mod_pos_bound a m Hm) as Hr.
  assert (Gg : g = Z.gcd (a mod m) m).
  { eapply egcd_gcd; [| |exact F|exact E]; lia. }
  assert (Gm : Z.gcd (a mod m) m = Z.gcd a m) by (rewrite Z.gcd_mod by lia; apply Z.gcd_comm).
  destruct (Z.eqb_spec g 1); [congruence|reflexivity].
Qed.

Lemma bn_mod_inverse_inv a m r : bn_mod_inverse a m = Ok r ->
  0 < m /\ Z.gcd a m = 1 /\ 0 <= r < m /\ (a * r) mod m = 1 mod m.
Proof.
  intros H. assert (Hm : 0 < m).
  { unfold bn_mod_inverse in H. destruct (Z.leb_spec m 0); [discriminate|lia]. }
  destruct (Z.eq_dec (Z.gcd a m) 1) as [Hg|Hg].
  - destruct (bn_mod_inverse_ok a m Hm Hg) as (r' & E & R). rewrite E in H. injection H as <-. tauto.
  - rewrite (bn_mod_inverse_err a m Hm Hg) in H. discriminate.
Qed.

Lemma bn_mod_exp_ok a e m : 0 <= e -> 0 < m -> bn_mod_exp a e m = Ok (a ^ e mod m).
Proof.
  intros He Hm. unfold bn_mod_exp.
  destruct (Z.ltb_spec e 0); [lia|]. destruct (Z.leb_spec m 0); [lia|].
  rewrite Zpow_mod_correct by lia. rewrite Z.mod_mod by lia. reflexivity.
Qed.

Lemma is_residue_mod v m : 0 < m -> is_residue v m (v mod m).
Proof.
  intros H. split; [apply Z.mod_pos_bound; exact H|].
  exists (v / m). rewrite (Z.div_mod v m) at 1 by lia. ring.
Qed.

Lemma is_residue_unique v m r r' : is_residue v m r -> is_residue v m r' -> r = r'.
Proof.
  intros [H [k E]] [H' [k' E']]. assert (k = k') by nia. nia.
Qed.

Lemma bn_div_exact a b : b <> 0 -> (exists q, a = q * b) -> bn_div a b = Ok (Z.quot a b) /\ Z.quot a b * b = a.
Proof.
  intros Hb [q ->]. unfold bn_div. destruct (Z.eqb_spec b 0); [lia|].
  rewrite Z.rem_mul by lia. cbn. split; [reflexivity|]. rewrite Z.quot_mul by lia. reflexivity.
Qed.

Lemma bn_div_inexact a b : (forall q, a <> q * b) -> bn_div a b = Crash.
Proof.
  intros H. unfold bn_div. destruct (Z.eqb_spec b 0) as [|Hb]; [reflexivity|].
  destruct (Z.eqb_spec (Z.rem a b) 0) as [E|]; [|reflexivity].
  exfalso. apply (H (Z.quot a b)). pose proof (Z.quot_rem a b Hb). lia.
Qed.

Lemma bn_mod_negate_spec a m : 0 < m -> (a = 0 \/ a mod m <> 0) ->
  exists r, bn_mod_negate a m = Ok r /\ is_residue (- a) m r.
Proof.
  intros Hm Ha. unfold bn_mod_negate. destruct (Z.eqb_spec a 0) as [->|H0].
  - exists 0. split; [reflexivity|]. split; [lia|exists 0; lia].
  - destruct Ha as [|Ha]; [lia|]. unfold bn_mod. destruct (Z.eqb_spec m 0); [lia|]. cbn [bind].
    rewrite Z.abs_eq by lia. eexists; split; [reflexivity|].
    pose proof (Z.mod_pos_bound a m Hm). split; [lia|].
    exists (- (a / m) - 1). rewrite (Z.div_mod a m) at 1 by lia. ring.
Qed.

Lemma bn_mod_negate_multiple k m : 0 < m -> k <> 0 -> bn_mod_negate (k * m) m = Ok m.
Proof.
  intros Hm Hk. unfold bn_mod_negate. destruct (Z.eqb_spec (k * m) 0); [nia|].
  unfold bn_mod. destruct (Z.eqb_spec m 0); [lia|]. cbn [bind].
  rewrite Z.abs_eq by lia. rewrite Z.mod_mul by lia. f_equal. lia.
Qed.
