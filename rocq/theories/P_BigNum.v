(** C01, C02: BigNum. *)
From Verif Require Import Base M_BigNum S_BigNum L_BigNum L_BigNumP.

(** C01 *)
Theorem C01_bytes_roundtrip : forall x, 0 <= x ->
  exists s, to_bytes x = Ok s /\ canonical s /\ be_value s = x /\ of_bytes s = x.
Proof. exact bytes_roundtrip. Qed.
Print Assumptions C01_bytes_roundtrip.
Example C01_bytes_roundtrip_ex : to_bytes 66051 = Ok [x01; x02; x03] /\ of_bytes [x01; x02; x03] = 66051.
Proof. split; vm_compute; reflexivity. Qed.

Theorem C01_decode_total_and_positional : forall s,
  of_bytes s = be_value s /\ 0 <= of_bytes s /\ to_bytes (of_bytes s) = Ok (strip_zeros s).
Proof. exact decode_total. Qed.
Print Assumptions C01_decode_total_and_positional.
Example C01_decode_ex : to_bytes (of_bytes [x00; x00; x07; x00]) = Ok [x07; x00].
Proof. vm_compute; reflexivity. Qed.

Theorem C01_canonical_unique : forall s x, 0 <= x -> canonical s -> be_value s = x -> to_bytes x = Ok s.
Proof. exact canonical_unique. Qed.
Print Assumptions C01_canonical_unique.
Example C01_canonical_ex : canonical [xff; x00] /\ be_value [xff; x00] = 65280 /\ canonical [] /\ be_value [] = 0.
Proof. repeat split; vm_compute; congruence. Qed.

Theorem C01_negative_aborts : forall x, x < 0 -> to_bytes x = Crash.
Proof. exact to_bytes_neg. Qed.
Print Assumptions C01_negative_aborts.
Example C01_negative_ex : to_bytes (-1) = Crash.
Proof. vm_compute; reflexivity. Qed.

(** C02 *)
Theorem C02_mod_ops_residue : forall a b m, 0 < m ->
  (exists r, bn_mod a m = Ok r /\ is_residue a m r) /\
  (exists r, bn_mod_add a b m = Ok r /\ is_residue (a + b) m r) /\
  (exists r, bn_mod_sub a b m = Ok r /\ is_residue (a - b) m r) /\
  (exists r, bn_mod_mul a b m = Ok r /\ is_residue (a * b) m r) /\
  (exists r, bn_mod_sqr a m = Ok r /\ is_residue (a * a) m r).
Proof. exact mod_ops_residue. Qed.
Print Assumptions C02_mod_ops_residue.
Example C02_mod_ops_ex : bn_mod (-3) 7 = Ok 4 /\ is_residue (-3) 7 4 /\ bn_mod_sub 2 5 7 = Ok 4.
Proof. repeat split; try (vm_compute; congruence). exists (-1); reflexivity. Qed.

Theorem C02_residue_unique : forall v m r r', is_residue v m r -> is_residue v m r' -> r = r'.
Proof. exact is_residue_unique. Qed.
Print Assumptions C02_residue_unique.

Theorem C02_mod_exp : forall a e m,
  (0 <= e -> 0 < m -> exists r, bn_mod_exp a e m = Ok r /\ is_residue (a ^ e) m r) /\
  (e < 0 -> bn_mod_exp a e m = Crash).
Proof. exact mod_exp_contract. Qed.
Print Assumptions C02_mod_exp.
Example C02_mod_exp_ex : bn_mod_exp 3 200 1000007 = Ok (3 ^ 200 mod 1000007).
Proof. vm_compute; reflexivity. Qed.

Theorem C02_mod_inverse : forall a m, 0 < m ->
  (Z.gcd a m = 1 -> exists r, bn_mod_inverse a m = Ok r /\ 0 <= r < m /\ (m | a * r - 1)) /\
  (Z.gcd a m <> 1 -> bn_mod_inverse a m = Err InvalidArgument).
Proof. exact mod_inverse_contract. Qed.
Print Assumptions C02_mod_inverse.
Example C02_mod_inverse_ex : bn_mod_inverse (-3) 1000007 = Ok 666671 /\ bn_mod_inverse 6 9 = Err InvalidArgument.
Proof. split; vm_compute; reflexivity. Qed.

Theorem C02_div_exact_or_abort : forall a b, b <> 0 ->
  ((exists q, bn_div a b = Ok q /\ a = q * b) \/ (bn_div a b = Crash /\ forall q, a <> q * b)).
Proof. exact div_contract. Qed.
Print Assumptions C02_div_exact_or_abort.
Example C02_div_ex : bn_div (-12) 4 = Ok (-3) /\ bn_div 13 4 = Crash.
Proof. split; vm_compute; reflexivity. Qed.

Theorem C02_to_int_value : forall x, 0 <= x ->
  (x < 2 ^ 64 -> to_int_value x = Ok x) /\ (2 ^ 64 <= x -> to_int_value x = Err InvalidArgument).
Proof. exact to_int_contract. Qed.
Print Assumptions C02_to_int_value.
Example C02_to_int_ex : to_int_value (2 ^ 64 - 1) = Ok (2 ^ 64 - 1) /\ to_int_value (2 ^ 64) = Err InvalidArgument.
Proof. split; vm_compute; reflexivity. Qed.

(** ModNegate is right on zero and on everything that is not a multiple of m ... *)
Theorem C02_mod_negate_partial : forall a m, 0 < m -> (a = 0 \/ ~ (m | a)) ->
  exists r, bn_mod_negate a m = Ok r /\ is_residue (- a) m r.
Proof. exact mod_negate_good. Qed.
Print Assumptions C02_mod_negate_partial.
Example C02_mod_negate_ex : bn_mod_negate 3 7 = Ok 4 /\ ~ (7 | 3).
Proof. split; [vm_compute; reflexivity|]. intros [k Hk]. lia. Qed.

(** ... but on every non-zero multiple of m it returns m itself, outside [0,m). *)
Theorem C02_mod_negate_refuted : forall a m, 0 < m -> a <> 0 -> (m | a) ->
  bn_mod_negate a m = Ok m /\ ~ is_residue (- a) m m.
Proof. exact mod_negate_bad. Qed.
Print Assumptions C02_mod_negate_refuted.
Example C02_mod_negate_refuted_ex : bn_mod_negate 14 7 = Ok 7.
Proof. vm_compute; reflexivity. Qed.

(** Shifts move the bits of the magnitude; a negative shift aborts. *)
Theorem C02_shifts : forall a n,
  (0 <= n -> exists l r, bn_lshift a n = Ok l /\ bn_rshift a n = Ok r /\ bn_rshift l n = Ok a /\ Z.abs a = Z.abs r * 2 ^ n + Z.abs a mod 2 ^ n /\ 0 <= a * r /\
     (forall i, 0 <= i < n -> is_bit_set l i = false) /\ (forall i, 0 <= i -> is_bit_set l (i + n) = is_bit_set a i /\ is_bit_set r i = is_bit_set a (i + n))) /\
  (n < 0 -> bn_lshift a n = Crash /\ bn_rshift a n = Crash).
Proof.
  intros a n. split; intros Hn.
  - unfold bn_lshift, bn_rshift. destruct (Z.ltb_spec n 0) as [|_]; [lia|]. assert (P : 0 < 2 ^ n) by (apply Z.pow_pos_nonneg; lia).
    exists (a * 2 ^ n), (Z.quot a (2 ^ n)). split; [reflexivity|]. split; [reflexivity|]. split; [rewrite Z.quot_mul by lia; reflexivity|].
    assert (Q : Z.abs (Z.quot a (2 ^ n)) = Z.abs a / 2 ^ n).
    { rewrite <- Z.quot_abs by lia. rewrite (Z.abs_eq (2 ^ n)) by lia. apply Z.quot_div_nonneg; lia. }
    split; [rewrite Q; pose proof (Z.div_mod (Z.abs a) (2 ^ n)); lia|]. split.
    + destruct (Z.le_ge_cases 0 a) as [Ha|Ha]; [pose proof (Z.quot_pos a (2 ^ n) Ha P); nia|]. pose proof (Z.quot_pos (- a) (2 ^ n) ltac:(lia) P). rewrite Z.quot_opp_l in H by lia. nia.
    + unfold is_bit_set. rewrite Z.abs_mul, (Z.abs_eq (2 ^ n)), Q by lia. split; intros i Hi.
      * apply Z.mul_pow2_bits_low. lia.
      * rewrite Z.mul_pow2_bits, Z.div_pow2_bits by lia. replace (i + n - n) with i by lia. split; reflexivity.
  - unfold bn_lshift, bn_rshift. destruct (Z.ltb_spec n 0); [split; reflexivity|lia].
Qed.
Print Assumptions C02_shifts.
Example C02_shifts_ex : bn_lshift (-5) 2 = Ok (-20) /\ bn_rshift (-23) 2 = Ok (-5) /\ bn_lshift 5 (-1) = Crash.
Proof. repeat split; vm_compute; reflexivity. Qed.

(** BitLength is the length of the magnitude in binary, IsBitSet reads its digits, GetLastNBits keeps the low ones. *)
Theorem C02_bits : forall x,
  0 <= bit_length x /\ Z.abs x < 2 ^ bit_length x /\ (x <> 0 -> 2 ^ (bit_length x - 1) <= Z.abs x) /\
  (forall i, 0 <= i -> is_bit_set x i = Z.odd (Z.abs x / 2 ^ i)) /\
  (forall n, 0 <= n -> Z.abs (get_last_n_bits x n) < 2 ^ n /\ (2 ^ n | x - get_last_n_bits x n) /\ 0 <= x * get_last_n_bits x n).
Proof.
  intros x. unfold bit_length. destruct (Z.eqb_spec x 0) as [-> |Hx].
  - split; [lia|]. split; [reflexivity|]. split; [contradiction|]. split.
    + intros i Hi. unfold is_bit_set. cbn [Z.abs]. rewrite Z.testbit_0_l, Z.div_0_l by (apply Z.pow_nonzero; lia). reflexivity.
    + intros n Hn. unfold get_last_n_bits. cbn [Z.sgn Z.abs Z.mul]. assert (0 < 2 ^ n) by (apply Z.pow_pos_nonneg; lia). split; [lia|]. split; [exists 0; lia|lia].
  - assert (P : 0 < Z.abs x) by lia. pose proof (Z.log2_spec (Z.abs x) P) as S. pose proof (Z.log2_nonneg (Z.abs x)). replace (Z.log2 (Z.abs x) + 1 - 1) with (Z.log2 (Z.abs x)) by lia.
    split; [lia|]. split; [unfold Z.succ in S; lia|]. split; [lia|]. split.
    + intros i Hi. unfold is_bit_set. rewrite Z.testbit_odd, Z.shiftr_div_pow2 by exact Hi. reflexivity.
    + intros n Hn. unfold get_last_n_bits. assert (Pn : 0 < 2 ^ n) by (apply Z.pow_pos_nonneg; lia). pose proof (Z.mod_pos_bound (Z.abs x) (2 ^ n) Pn) as M.
      pose proof (Z.div_mod (Z.abs x) (2 ^ n) ltac:(lia)) as D. pose proof (Z.sgn_abs x) as SA. destruct (Z.sgn_spec x) as [[Hp E]|[[Hp E]|[Hp E]]]; rewrite E in *; [| lia |].
      * split; [lia|]. split; [exists (Z.abs x / 2 ^ n); lia|nia].
      * split; [lia|]. split; [exists (- (Z.abs x / 2 ^ n)); lia|nia].
Qed.
Print Assumptions C02_bits.
Example C02_bits_ex : bit_length (-8) = 4 /\ is_bit_set (-8) 3 = true /\ get_last_n_bits (-11) 3 = -3.
Proof. repeat split; vm_compute; reflexivity. Qed.

(** DivAndTruncate rounds towards zero; a zero divisor or modulus aborts. *)
Theorem C02_truncated_division : forall a b,
  (b <> 0 -> exists q r, bn_div_trunc a b = Ok q /\ a = q * b + r /\ Z.abs r < Z.abs b /\ 0 <= a * r) /\
  (b = 0 -> bn_div_trunc a b = Crash /\ bn_div a b = Crash /\ bn_mod a b = Crash).
Proof.
  intros a b. split; intros H.
  - exists (Z.quot a b), (Z.rem a b). unfold bn_div_trunc. destruct (Z.eqb_spec b 0); [contradiction|]. split; [reflexivity|]. split; [pose proof (Z.quot_rem' a b); lia|].
    split; [apply Z.rem_bound_abs; exact H|]. pose proof (Z.rem_sign_mul a b H). lia.
  - subst b. repeat split; reflexivity.
Qed.
Print Assumptions C02_truncated_division.
Example C02_truncated_ex : bn_div_trunc (-7) 2 = Ok (-3) /\ bn_mod 5 0 = Crash.
Proof. split; vm_compute; reflexivity. Qed.
