(** Lemmas about the Python PRNG. *)
From Verif Require Import Base M_BigNum S_BigNum L_BigNum L_Num M_Python L_Port M_PyPrng S_PyPrng.

Lemma be_value_inj : forall s t, length s = length t -> be_value s = be_value t -> s = t.
Proof.
  induction s as [|a s IH]; intros [|b t] L E; cbn in L; try discriminate L; [reflexivity|]. cbn [be_value] in E. injection L as L.
  pose proof (be_value_range s). pose proof (be_value_range t). rewrite L in *. assert (bz a = bz b) by nia. f_equal; [apply bz_inj; auto|]. apply IH; [auto|]. nia.
Qed.
Lemma num_bytes_le z n : 0 <= z < 256 ^ Z.of_nat n -> (num_bytes z <= n)%nat.
Proof.
  intros [Z0 Z1]. unfold num_bytes, bit_length. destruct (Z.eqb_spec z 0); [apply Nat.le_0_l|]. rewrite Z.abs_eq by lia.
  assert (Z.log2 z < 8 * Z.of_nat n). { apply Z.log2_lt_pow2; [lia|]. rewrite Z.pow_mul_r by lia. exact Z1. }
  assert ((Z.log2 z + 1 + 7) / 8 < Z.of_nat n + 1) by (apply Z.div_lt_upper_bound; lia). lia.
Qed.
Lemma width_pos u : 0 <= width u.
Proof. unfold width, bits. pose proof (bit_length_nonneg (u - 1)). apply Z.div_pos; lia. Qed.
Lemma excess_eq n : 0 <= n -> (8 - n mod 8) mod 8 = 8 * ((n + 7) / 8) - n.
Proof. intros N. pose proof (Z.div_mod n 8 ltac:(lia)). pose proof (Z.mod_pos_bound n 8 ltac:(lia)). Z.to_euclidean_division_equations. lia. Qed.

Section Prng.
Variable H : bytes -> bytes.
Hypothesis H64 : forall s, length (H s) = 64%nat.
Variable seed : bytes.
Variable len : nat.
Notation slice := (slice H seed len).
Notation available := (available len).

Lemma limit_eq g : g_limit g = 256 ^ Z.of_nat (g_len g).
Proof. unfold g_limit. rewrite Z.shiftl_1_l, Z.mul_comm, Z.pow_mul_r by lia. reflexivity. Qed.
Lemma padded_count_eq g : g_len g = len -> 0 <= g_pad g < 256 ^ Z.of_nat len -> padded_count g = Ok (counter len (g_pad g)).
Proof.
  intros L P. unfold padded_count. rewrite L. assert (E : exists c, long_to_bytes (g_pad g) 0 = Ok c /\ be_value c = g_pad g /\ (length c <= Nat.max 1 len)%nat /\ (1 <= length c)%nat).
  { destruct (Z.eq_dec (g_pad g) 0) as [->|N]; [exists [x00]; split; [reflexivity|]; split; [reflexivity|]; split; [apply (Nat.le_max_l 1)|apply Nat.le_refl]|].
    rewrite long_to_bytes_pos by lia. unfold to_bytes. destruct (Z.ltb_spec (g_pad g) 0); [lia|]. eexists. split; [reflexivity|].
    pose proof (num_bytes_le (g_pad g) len P) as B. rewrite bn2bin_length. split; [|split; [lia|]].
    - rewrite <- of_bytes_value. pose proof (of_bn_to_bytes (g_pad g) ltac:(lia)) as O. unfold bn_to_bytes in O. rewrite Z.abs_eq in O by lia. exact O.
    - unfold num_bytes, bit_length. destruct (Z.eqb_spec (g_pad g) 0); [lia|]. pose proof (Z.log2_nonneg (Z.abs (g_pad g))).
      assert (1 <= (Z.log2 (Z.abs (g_pad g)) + 1 + 7) / 8) by (apply Z.div_le_lower_bound; lia). lia. }
  destruct E as (c & -> & V & Lc & Lc1). cbn [bind]. f_equal. apply be_value_inj.
  - rewrite app_length, repeat_length. unfold counter. rewrite bn2bin_length. lia.
  - rewrite repeat_zero_value, V. unfold counter. rewrite bn2bin_value. symmetry. apply Z.mod_small. split; [lia|].
    eapply Z.lt_le_trans; [apply P|]. apply Z.pow_le_mono_r; lia.
Qed.

(** The generator at position [p] of the stream. *)
Definition at_ (g : prng) (p : Z) : Prop :=
  g_seed g = seed /\ g_len g = len /\ 0 <= p /\ 0 <= g_pad g <= 256 ^ Z.of_nat len /\ g_bytes g = slice p (length (g_bytes g)) /\ p + Z.of_nat (length (g_bytes g)) = 64 * g_pad g.
Lemma slice_length p n : length (slice p n) = n.
Proof. unfold S_PyPrng.slice. rewrite map_length, seq_length. reflexivity. Qed.
Lemma slice_app p n m : slice p (n + m) = slice p n ++ slice (p + Z.of_nat n) m.
Proof.
  unfold S_PyPrng.slice. rewrite seq_app, map_app. f_equal. cbn [Nat.add].
  replace (seq n m) with (map (fun i => (n + i)%nat) (seq 0 m)).
  - rewrite map_map. apply map_ext_in. intros a Ha. f_equal. lia.
  - clear. revert n. induction m as [|m IH]; intros n; [reflexivity|]. cbn [seq map]. rewrite Nat.add_0_r. f_equal. rewrite <- (seq_shift m 0), map_map, <- (IH (S n)).
    apply map_ext. intros a. lia.
Qed.
Lemma slice_block k : 0 <= k -> slice (64 * k) 64 = block H seed len k.
Proof.
  intros K. apply nth_ext with (d := x00) (d' := x00); [rewrite slice_length; unfold block; rewrite H64; reflexivity|].
  rewrite slice_length. intros n Hn. unfold S_PyPrng.slice. rewrite (nth_indep _ x00 (stream H seed len (64 * k + Z.of_nat 0))) by (rewrite map_length, seq_length; exact Hn).
  rewrite (map_nth (fun i => stream H seed len (64 * k + Z.of_nat i)) (seq 0 64) O). rewrite seq_nth by exact Hn. cbn [Nat.add]. unfold stream.
  replace (64 * k + Z.of_nat n) with (Z.of_nat n + k * 64) by lia. rewrite Z.mod_add, Z.div_add by lia.
  rewrite Z.mod_small, Z.div_small, Nat2Z.id by lia. reflexivity.
Qed.
Lemma get_more_ok g p : at_ g p -> g_pad g < 256 ^ Z.of_nat len -> exists g', get_more H g = (g', Ok tt) /\ at_ g' p /\ length (g_bytes g') = (length (g_bytes g) + 64)%nat.
Proof.
  intros (S & L & P & K & B & E) Lt. unfold get_more. rewrite limit_eq, L. apply Z.ltb_lt in Lt. rewrite Lt. apply Z.ltb_lt in Lt.
  rewrite (padded_count_eq g L ltac:(lia)), S. eexists. split; [reflexivity|]. unfold at_. cbn [g_seed g_len g_pad g_bytes]. rewrite app_length, H64.
  repeat split; auto; try lia. rewrite slice_app, <- B. f_equal. rewrite E, slice_block by lia. reflexivity.
Qed.
Lemma get_more_out g p : at_ g p -> 256 ^ Z.of_nat len <= g_pad g -> get_more H g = (g, Err Internal).
Proof. intros (S & L & P & K & B & E) Lt. unfold get_more. rewrite limit_eq, L. apply Z.ltb_ge in Lt. rewrite Lt. reflexivity. Qed.
Lemma fill_ok : forall fuel g p bl, at_ g p -> (bl <= length (g_bytes g) + fuel)%nat ->
  (p + Z.of_nat bl <= available /\ exists g', fill H fuel g bl = (g', Ok tt) /\ at_ g' p /\ (bl <= length (g_bytes g'))%nat) \/
  (available < p + Z.of_nat bl /\ exists g', fill H fuel g bl = (g', Err Internal) /\ at_ g' p).
Proof.
  induction fuel as [|k IH]; intros g p bl A F; cbn [fill]; destruct (Nat.ltb_spec (length (g_bytes g)) bl) as [Lt|Ge].
  - lia.
  - left. split; [destruct A as (_ & _ & _ & K & _ & E); unfold S_PyPrng.available; lia|]. exists g. auto.
  - destruct (Z.lt_ge_cases (g_pad g) (256 ^ Z.of_nat len)) as [M|M].
    + destruct (get_more_ok g p A M) as (g' & E & A' & L'). rewrite E. apply IH; [exact A'|lia].
    + right. rewrite (get_more_out g p A M). split; [|exists g; auto]. destruct A as (_ & _ & _ & K & _ & E). unfold S_PyPrng.available. lia.
  - left. split; [destruct A as (_ & _ & _ & K & _ & E); unfold S_PyPrng.available; lia|]. exists g. auto.
Qed.
Lemma n_bit_rand_ok g p u : at_ g p ->
  (p + width u <= available /\ exists g', n_bit_rand H g (bits u) = (g', Ok (candidate_at H seed len u p)) /\ at_ g' (p + width u)) \/
  (available < p + width u /\ exists g', n_bit_rand H g (bits u) = (g', Err Internal) /\ at_ g' p).
Proof.
  intros A. pose proof (width_pos u) as W. assert (B0 : 0 <= bits u) by apply bit_length_nonneg.
  assert (Ew : Z.shiftr (bits u + 7) 3 = width u) by (rewrite Z.shiftr_div_pow2 by lia; reflexivity).
  unfold n_bit_rand. rewrite Ew. destruct (fill_ok (Z.to_nat (width u)) g p (Z.to_nat (width u)) A ltac:(lia)) as [[R (g' & E & A' & L)]|[R (g' & E & A')]]; rewrite Z2Nat.id in R by exact W.
  - left. split; [exact R|]. rewrite E. destruct A' as (S' & L' & P' & K' & B' & E').
    assert (Sp : slice p (length (g_bytes g')) = slice p (Z.to_nat (width u)) ++ slice (p + width u) (length (g_bytes g') - Z.to_nat (width u))).
    { replace (length (g_bytes g')) with (Z.to_nat (width u) + (length (g_bytes g') - Z.to_nat (width u)))%nat at 1 by lia. rewrite slice_app, Z2Nat.id by exact W. reflexivity. }
    assert (F : firstn (Z.to_nat (width u)) (g_bytes g') = slice p (Z.to_nat (width u))).
    { rewrite B', Sp. rewrite firstn_app, slice_length, Nat.sub_diag, firstn_O, app_nil_r. rewrite <- (slice_length p (Z.to_nat (width u))) at 1. apply firstn_all. }
    assert (K : skipn (Z.to_nat (width u)) (g_bytes g') = slice (p + width u) (length (g_bytes g') - Z.to_nat (width u))).
    { rewrite B', Sp at 1. rewrite skipn_app, slice_length, Nat.sub_diag, skipn_O. rewrite <- (slice_length p (Z.to_nat (width u))) at 1. rewrite skipn_all. reflexivity. }
    eexists. split.
    + rewrite F, bytes_to_long_eq, excess_eq by exact B0. f_equal. f_equal. unfold candidate_at. rewrite Z.shiftr_div_pow2; [reflexivity|]. rewrite <- excess_eq by exact B0.
      apply Z.mod_pos_bound. lia.
    + unfold at_. cbn [g_seed g_len g_pad g_bytes]. rewrite K, slice_length. repeat split; auto; lia.
  - right. split; [exact R|]. rewrite E. exists g'. auto.
Qed.
Lemma get_rand_draw : forall fuel g p u g' answer, at_ g p -> get_rand_loop H fuel g (bits u) u = (g', answer) -> answer <> Diverge ->
  exists p', draw H seed len u p answer p' /\ at_ g' p'.
Proof.
  induction fuel as [|k IH]; intros g p u g' answer A E N; cbn [get_rand_loop] in E; [injection E as _ <-; congruence|].
  destruct (n_bit_rand_ok g p u A) as [[R (g1 & E1 & A1)]|[R (g1 & E1 & A1)]]; rewrite E1 in E.
  - destruct (Z.leb_spec u (candidate_at H seed len u p)) as [Le|Gt].
    + destruct (IH g1 _ u g' answer A1 E N) as (p' & D & A'). exists p'. split; [apply draw_retry; auto|exact A'].
    + injection E as <- <-. exists (p + width u). split; [apply draw_accept; auto|exact A1].
  - injection E as <- <-. exists p. split; [apply draw_exhausted; auto|exact A1].
Qed.
Lemma candidate_range u p : 0 <= candidate_at H seed len u p < 2 ^ bits u.
Proof. clear H64.
  unfold candidate_at. assert (B0 : 0 <= bits u) by apply bit_length_nonneg. pose proof (width_pos u) as W.
  pose proof (be_value_range (slice p (Z.to_nat (width u)))) as V. rewrite slice_length, Z2Nat.id in V by exact W. rewrite of_bytes_value.
  assert (Ex : 0 <= 8 * width u - bits u) by (unfold width; rewrite <- excess_eq by exact B0; apply Z.mod_pos_bound; lia).
  assert (Pp : 0 < 2 ^ (8 * width u - bits u)) by (apply Z.pow_pos_nonneg; lia). split; [apply Z.div_pos; lia|]. apply Z.div_lt_upper_bound; [exact Pp|].
  rewrite <- Z.pow_add_r by lia. replace (8 * width u - bits u + bits u) with (8 * width u) by lia. rewrite Z.pow_mul_r by lia. exact (proj2 V).
Qed.
(** Enough fuel: every rejected candidate uses up at least one byte. *)
Lemma get_rand_terminates : forall fuel g p u g' answer, at_ g p -> available - p < Z.of_nat fuel -> p <= available + 0 -> get_rand_loop H fuel g (bits u) u = (g', answer) -> answer <> Diverge.
Proof.
  induction fuel as [|k IH]; intros g p u g' answer A F Q E; cbn [get_rand_loop] in E; [lia|].
  destruct (n_bit_rand_ok g p u A) as [[R (g1 & E1 & A1)]|[R (g1 & E1 & A1)]]; rewrite E1 in E; [|injection E as _ <-; discriminate].
  destruct (Z.leb_spec u (candidate_at H seed len u p)) as [Le|Gt]; [|injection E as _ <-; discriminate].
  assert (W1 : 1 <= width u).
  { destruct (Z.eq_dec u 1) as [->|Nu].
    - exfalso. pose proof (candidate_range 1 p) as Cr. change (2 ^ bits 1) with 1 in Cr. lia.
    - unfold width, bits. assert (1 <= bit_length (u - 1)).
      { unfold bit_length. destruct (Z.eqb_spec (u - 1) 0); [lia|]. pose proof (Z.log2_nonneg (Z.abs (u - 1))). lia. }
      apply Z.div_le_lower_bound; lia. }
  apply (IH g1 (p + width u) u g' answer A1); auto; lia.
Qed.
End Prng.
