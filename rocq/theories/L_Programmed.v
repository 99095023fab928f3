(** Every table of answers of the random oracle, for any modulus and any hash length, is given by some hash function (for C80). *)
From Coq Require Import Znumtheory.
From Verif Require Import Base M_BigNum L_BigNum M_Num S_BigNum S_Num L_Num L_Mod L_Oracle.

Section Programmed.
(** The hash length in bytes, the modulus, and the wanted answers. *)
Variable w : nat.
Variable modulus : Z.
Variable f : bytes -> Z.
Hypothesis Hw : (0 < w)%nat.
Hypothesis Hm : 0 < modulus.
Hypothesis Hf : forall x, 0 <= f x < modulus.
Notation bits := (8 * Z.of_nat w).
Definition pg_blocks : Z := ro_iterations bits (bit_length modulus + bits).
Definition pg_excess : Z := pg_blocks * bits - (bit_length modulus + bits).
Definition pg_stream (x : bytes) : bytes := bn2bin (w * Z.to_nat pg_blocks) (f x * 2 ^ pg_excess) ++ repeat x00 (w * 256).
Definition pg_hash (y : bytes) : bytes :=
  match y with [] => repeat x00 w | b :: x => firstn w (skipn (w * (Z.to_nat (bz b) - 1)) (pg_stream x)) end.

Lemma pg_length y : length (pg_hash y) = w.
Proof.
  destruct y as [|b x]; cbn [pg_hash]; [apply repeat_length|]. rewrite firstn_length, skipn_length. unfold pg_stream. rewrite app_length, repeat_length, bn2bin_length.
  pose proof (bz_range b). nia.
Qed.
Lemma pg_counter x n i : 1 <= i -> i + Z.of_nat n <= 256 -> counter_blocks pg_hash x i n (firstn (w * n) (skipn (w * (Z.to_nat i - 1)) (pg_stream x))).
Proof.
  revert i. induction n as [|n IH]; intros i Hi Hn; [rewrite Nat.mul_0_r; constructor|].
  set (s := pg_stream x). replace (firstn (w * S n) (skipn (w * (Z.to_nat i - 1)) s)) with (pg_hash ([zb i] ++ x) ++ firstn (w * n) (skipn (w * (Z.to_nat (i + 1) - 1)) s)).
  - constructor; [cbn; rewrite bz_zb, Z.mod_small by lia; lia|cbn; rewrite bz_zb, Z.mod_small by lia; lia|apply IH; lia].
  - cbn [pg_hash app]. rewrite bz_zb, Z.mod_small by lia. fold s. replace (w * (Z.to_nat (i + 1) - 1))%nat with (w + w * (Z.to_nat i - 1))%nat by nia.
    assert (K : forall a b (l : bytes), skipn (a + b) l = skipn a (skipn b l)).
    { clear. intros a b. revert a. induction b as [|b IH]; intros a l; [rewrite Nat.add_0_r; reflexivity|]. destruct l as [|y l]; [rewrite !skipn_nil; reflexivity|]. rewrite Nat.add_succ_r. cbn [skipn]. apply IH. }
    rewrite K. set (l := skipn (w * (Z.to_nat i - 1)) s). replace (w * S n)%nat with (w + w * n)%nat by lia.
    assert (G : forall a b (l : bytes), firstn (a + b) l = firstn a l ++ firstn b (skipn a l)).
    { clear. induction a as [|a IH]; intros b [|y l]; cbn [plus firstn skipn app]; try reflexivity; [rewrite firstn_nil; reflexivity|]. f_equal. apply IH. }
    rewrite G. reflexivity.
Qed.
Lemma pg_answers x : pg_blocks <= 255 -> pg_blocks * bits < 130048 -> random_oracle bits pg_hash x modulus = Ok (f x).
Proof.
  intros Hb Hc. assert (B : 0 < bits) by lia. pose proof (ro_iterations_ge bits (bit_length modulus + bits) B) as Hge. fold pg_blocks in Hge. pose proof (bit_length_nonneg modulus) as Hn.
  assert (Hp : 0 < pg_blocks) by nia.
  set (s := bn2bin (w * Z.to_nat pg_blocks) (f x * 2 ^ pg_excess)).
  assert (C : counter_blocks pg_hash x 1 (Z.to_nat pg_blocks) s).
  { replace s with (firstn (w * Z.to_nat pg_blocks) (skipn (w * (Z.to_nat 1 - 1)) (pg_stream x))); [apply pg_counter; lia|].
    change (Z.to_nat 1 - 1)%nat with 0%nat. rewrite Nat.mul_0_r. cbn [skipn]. unfold pg_stream. fold s. rewrite firstn_app, (firstn_all2 s) by (unfold s; rewrite bn2bin_length; lia).
    replace (w * Z.to_nat pg_blocks - length s)%nat with 0%nat by (unfold s; rewrite bn2bin_length; lia). cbn [firstn]. apply app_nil_r. }
  pose proof (random_oracle_value bits pg_hash x modulus s B Hm ltac:(intros; rewrite pg_length; lia)) as R. cbv zeta in R. fold pg_blocks in R. rewrite R by assumption. f_equal.
  fold pg_excess. unfold s. rewrite bn2bin_value. assert (He : 0 <= pg_excess) by (unfold pg_excess; lia). assert (Pe : 0 < 2 ^ pg_excess) by (apply Z.pow_pos_nonneg; lia).
  replace (256 ^ Z.of_nat (w * Z.to_nat pg_blocks)) with (2 ^ (bit_length modulus + bits + pg_excess)).
  2:{ change 256 with (2 ^ 8). rewrite <- Z.pow_mul_r by lia. f_equal. unfold pg_excess. nia. }
  pose proof (Hf x) as Fx. rewrite (Z.mod_small (f x * 2 ^ pg_excess)).
  - rewrite Z.div_mul by lia. apply Z.mod_small, Fx.
  - split; [apply Z.mul_nonneg_nonneg; lia|]. rewrite Z.pow_add_r by lia. apply Z.mul_lt_mono_pos_r; [exact Pe|].
    assert (modulus < 2 ^ bit_length modulus). { unfold bit_length. destruct (Z.eqb_spec modulus 0); [lia|]. rewrite Z.abs_eq by lia. pose proof (Z.log2_spec modulus Hm). replace (Z.log2 modulus + 1) with (Z.succ (Z.log2 modulus)) by lia. lia. }
    assert (2 ^ bit_length modulus <= 2 ^ (bit_length modulus + bits)) by (apply Z.pow_le_mono_r; lia). lia.
Qed.
End Programmed.
