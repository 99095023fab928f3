(** Lemmas about the Java and Python ciphers. *)
From Coq Require Import Znumtheory.
From Verif Require Import Base M_BigNum S_BigNum L_BigNum M_Num L_Num L_Mod M_EC L_EC M_Group S_Group L_Group M_Cipher L_Cipher L_DJ M_Java M_Python S_Port.

(** ** Conversions *)
Lemma to_bytes_value z s : 0 < z -> be_value s = z -> to_bytes z = Ok (strip_zeros s).
Proof. intros Hz <-. rewrite <- of_bytes_value. apply to_bytes_of_bytes. Qed.
Lemma to_bytes_zero : to_bytes 0 = Ok []. Proof. reflexivity. Qed.

Lemma skip_zeros_strip s : be_value s <> 0 -> skip_zeros s = Ok (strip_zeros s).
Proof.
  induction s as [|b s IH]; intros Hs; cbn [be_value skip_zeros strip_zeros] in *; [contradiction|].
  destruct (Z.eqb_spec (bz b) 0) as [E|]; [|reflexivity]. apply IH. rewrite E in Hs. intros E0. apply Hs. rewrite E0. lia.
Qed.
Lemma skip_zeros_none s : be_value s = 0 -> skip_zeros s = Crash.
Proof.
  induction s as [|b s IH]; intros Hs; cbn [be_value skip_zeros] in *; [reflexivity|].
  pose proof (be_value_range s) as R. pose proof (bz_range b) as Rb. destruct (Z.eqb_spec (bz b) 0) as [E|E]; [apply IH; rewrite E in Hs; lia|].
  exfalso. assert (0 < 256 ^ Z.of_nat (length s)) by (apply Z.pow_pos_nonneg; lia). nia.
Qed.
Lemma to_byte_array_value z : 0 <= z -> be_value (to_byte_array z) = z.
Proof.
  intros Hz. unfold to_byte_array. rewrite bn2bin_value. pose proof (bit_length_nonneg z) as Hb.
  assert (Hd : 0 <= bit_length z / 8) by (apply Z.div_pos; lia). rewrite Z2Nat.id by lia. apply Z.mod_small. split; [exact Hz|].
  destruct (Z.eq_dec z 0) as [->|Hn]; [apply Z.pow_pos_nonneg; lia|]. pose proof (bit_length_pow z Hn) as [_ U]. rewrite Z.abs_eq in U by exact Hz.
  apply (Z.lt_le_trans _ _ _ U). change 256 with (2 ^ 8). rewrite <- Z.pow_mul_r by lia. apply Z.pow_le_mono_r; [lia|].
  pose proof (Z.div_mod (bit_length z) 8 ltac:(lia)). pose proof (Z.mod_pos_bound (bit_length z) 8 ltac:(lia)). lia.
Qed.
Lemma java_bytes_pos z : 0 < z -> java_bytes z = to_bytes z.
Proof.
  intros Hz. unfold java_bytes. rewrite skip_zeros_strip by (rewrite to_byte_array_value; lia). symmetry. apply to_bytes_value; [exact Hz|]. apply to_byte_array_value. lia.
Qed.
Lemma java_bytes_zero : java_bytes 0 = Crash. Proof. reflexivity. Qed.
Lemma bz_x00 : bz x00 = 0. Proof. reflexivity. Qed.
Lemma java_number_eq s : java_number s = of_bytes s.
Proof. unfold java_number, of_byte_array. rewrite bz_x00. cbn [Z.leb]. change (128 <=? 0) with false. rewrite !of_bytes_value. cbn [be_value]. rewrite bz_x00. lia. Qed.

Lemma pack_app a b : pack (a ++ b) = pack a ++ pack b.
Proof. unfold pack. apply flat_map_app. Qed.
Lemma pack_length l : length (pack l) = (4 * length l)%nat.
Proof. induction l as [|x l IH]; [reflexivity|]. unfold pack in *. cbn [flat_map]. rewrite app_length, bn2bin_length, IH. cbn [length]. lia. Qed.
Lemma components_value n : forall x acc, 0 <= x < 2 ^ Z.of_nat n -> Forall (fun c => 0 <= c < 2 ^ 32) acc ->
  be_value (pack (components n x acc)) = x * 256 ^ Z.of_nat (4 * length acc) + be_value (pack acc).
Proof.
  induction n as [|n IH]; intros x acc Hx Ha; cbn [components].
  - change (2 ^ Z.of_nat 0) with 1 in Hx. replace x with 0 by lia. lia.
  - destruct (Z.eqb_spec x 0) as [->|Hn]; [lia|]. change 4294967295 with (Z.ones 32). rewrite Z.land_ones by lia. rewrite Z.shiftr_div_pow2 by lia.
    pose proof (Z.mod_pos_bound x (2 ^ 32) ltac:(lia)) as Bm. pose proof (Z.div_mod x (2 ^ 32) ltac:(lia)) as Ed.
    assert (Hq : 0 <= x / 2 ^ 32 < 2 ^ Z.of_nat n).
    { split; [apply Z.div_pos; lia|]. apply Z.div_lt_upper_bound; [lia|]. rewrite Nat2Z.inj_succ, Z.pow_succ_r in Hx by lia.
      assert (2 <= 2 ^ 32) by (vm_compute; discriminate). assert (0 < 2 ^ Z.of_nat n) by (apply Z.pow_pos_nonneg; lia). nia. }
    rewrite IH; [|exact Hq|constructor; [exact Bm|exact Ha]]. unfold pack. cbn [flat_map]. rewrite be_value_app, bn2bin_value.
    change (256 ^ Z.of_nat 4) with (2 ^ 32). rewrite (Z.mod_small (x mod 2 ^ 32)) by exact Bm.
    fold (pack acc). rewrite pack_length. cbn [length]. replace (4 * S (length acc))%nat with (4 + 4 * length acc)%nat by lia.
    rewrite Nat2Z.inj_add, Z.pow_add_r by lia. change (256 ^ Z.of_nat 4) with (2 ^ 32). rewrite Ed at 3. ring.
Qed.
Lemma bit_length_lt z : 0 <= z -> z < 2 ^ bit_length z.
Proof. intros Hz. destruct (Z.eq_dec z 0) as [->|Hn]; [vm_compute; reflexivity|]. pose proof (bit_length_pow z Hn) as [_ U]. rewrite Z.abs_eq in U by exact Hz. exact U. Qed.
Lemma packed_value z : 0 <= z -> be_value (pack (components (Z.to_nat (bit_length z)) z [])) = z.
Proof.
  intros Hz. rewrite components_value; [cbn; lia| |constructor]. rewrite Z2Nat.id by apply bit_length_nonneg. split; [exact Hz|apply bit_length_lt, Hz].
Qed.
Lemma from_first_nonzero_strip s : from_first_nonzero s = match strip_zeros s with [] => [x00] | t => t end.
Proof.
  induction s as [|b s IH]; [reflexivity|]. cbn [from_first_nonzero strip_zeros]. destruct (bz b =? 0); cbn [negb]; [exact IH|reflexivity].
Qed.
Lemma strip_zeros_nil s : strip_zeros s = [] <-> be_value s = 0.
Proof.
  split; [intros E; rewrite <- strip_zeros_value, E; reflexivity|]. intros E. destruct (strip_zeros s) as [|b t] eqn:Es; [reflexivity|exfalso].
  pose proof (strip_zeros_canonical s) as Hc. rewrite Es in Hc. cbn in Hc. pose proof (canonical_lower b t Hc) as Hl. rewrite <- Es, strip_zeros_value, E in Hl.
  assert (0 < 256 ^ Z.of_nat (length t)) by (apply Z.pow_pos_nonneg; lia). lia.
Qed.
Lemma long_to_bytes_pos z : 0 < z -> long_to_bytes z 0 = to_bytes z.
Proof.
  intros Hz. unfold long_to_bytes. destruct (Z.ltb_spec z 0); [lia|]. cbn [Nat.ltb Nat.leb]. pose proof (packed_value z ltac:(lia)) as Hp.
  rewrite from_first_nonzero_strip, (to_bytes_value z _ Hz Hp). destruct (strip_zeros _) eqn:E; [|reflexivity]. apply strip_zeros_nil in E. lia.
Qed.
Lemma long_to_bytes_zero : long_to_bytes 0 0 = Ok [x00]. Proof. reflexivity. Qed.
Lemma repeat_zero_value n s : be_value (repeat x00 n ++ s) = be_value s.
Proof. induction n as [|n IH]; [reflexivity|]. cbn [repeat app be_value]. rewrite bz_x00, IH. lia. Qed.
Lemma pad_value s n : be_value (pad_zero_bytes s n) = be_value s.
Proof. unfold pad_zero_bytes. destruct (Nat.eqb _ _); [reflexivity|apply repeat_zero_value]. Qed.
Lemma pad_length s n : (0 < n)%nat -> Nat.modulo (length (pad_zero_bytes s n)) n = 0%nat /\ (length s <= length (pad_zero_bytes s n) < length s + n)%nat.
Proof.
  intros Hn. unfold pad_zero_bytes. destruct (Nat.eqb_spec (Nat.modulo (length s) n) 0) as [E|E]; [split; [exact E|lia]|].
  pose proof (Nat.mod_upper_bound (length s) n ltac:(lia)) as B. rewrite app_length, repeat_length. split; [|lia].
  pose proof (Nat.div_mod (length s) n ltac:(lia)) as Ed. replace (n - length s mod n + length s)%nat with ((length s / n + 1) * n)%nat by nia. apply Nat.mod_mul. lia.
Qed.
Lemma unpack_value : forall k s, length s = (4 * k)%nat -> sum_components (unpack s) = be_value s /\ length (unpack s) = k.
Proof.
  induction k as [|k IH]; intros s Hs; [destruct s; [split; reflexivity|discriminate]|].
  destruct s as [|a [|b [|c [|d s]]]]; cbn [length] in Hs; try lia. destruct (IH s ltac:(lia)) as [E El]. cbn [unpack sum_components length]. rewrite El, E. split; [|reflexivity].
  rewrite Z.shiftl_mul_pow2 by lia. change (a :: b :: c :: d :: s) with ([a; b; c; d] ++ s). rewrite be_value_app, of_bytes_value. f_equal. f_equal.
  replace (Z.of_nat (length s)) with (4 * Z.of_nat k) by lia. change 256 with (2 ^ 8). rewrite <- Z.pow_mul_r by lia. f_equal. lia.
Qed.
Lemma bytes_to_long_eq s : bytes_to_long s = of_bytes s.
Proof.
  unfold bytes_to_long. destruct (pad_length s 4 ltac:(lia)) as [Hm _]. apply Nat.mod_divides in Hm; [|lia]. destruct Hm as [k Hk].
  destruct (unpack_value k (pad_zero_bytes s 4) Hk) as [E _]. rewrite E, pad_value. symmetry. apply of_bytes_value.
Qed.
Lemma long_to_bn_ok z : 0 <= z -> long_to_bn z = Ok z.
Proof.
  intros Hz. unfold long_to_bn. destruct (Z.eq_dec z 0) as [->|Hn]; [reflexivity|]. rewrite long_to_bytes_pos by lia. destruct (to_bytes_of z Hz) as (s & E & Ev). rewrite E. cbn [bind]. rewrite Ev. reflexivity.
Qed.
Lemma bn_to_bytes_pos z : 0 <= z -> to_bytes z = Ok (bn_to_bytes z).
Proof. intros Hz. unfold to_bytes, bn_to_bytes. destruct (Z.ltb_spec z 0); [lia|]. rewrite Z.abs_eq by exact Hz. reflexivity. Qed.
Lemma of_bn_to_bytes z : 0 <= z -> of_bytes (bn_to_bytes z) = z.
Proof. intros Hz. apply (to_bytes_ok z). apply bn_to_bytes_pos, Hz. Qed.
Lemma bn_to_long_eq z : 0 <= z -> bn_to_long z = z.
Proof. intros Hz. unfold bn_to_long. rewrite bytes_to_long_eq. apply of_bn_to_bytes, Hz. Qed.
Lemma bn_to_long_abs z : bn_to_long z = Z.abs z.
Proof.
  unfold bn_to_long. rewrite bytes_to_long_eq, of_bytes_value. unfold bn_to_bytes. rewrite bn2bin_value. apply Z.mod_small. split; [lia|].
  replace (num_bytes z) with (num_bytes (Z.abs z)); [apply num_bytes_bound; lia|]. unfold num_bytes, bit_length. rewrite Z.abs_involutive. destruct (Z.eqb_spec z 0), (Z.eqb_spec (Z.abs z) 0); try reflexivity; lia.
Qed.

(** ** The random oracle *)
Lemma lor_add a k h : 0 <= k -> 0 <= h < 2 ^ k -> Z.lor (Z.shiftl a k) h = a * 2 ^ k + h.
Proof.
  intros Hk Hh. rewrite <- (Z.shiftl_mul_pow2 a k Hk). assert (E : Z.land (Z.shiftl a k) h = 0).
  { apply Z.bits_inj'. intros n Hn. rewrite Z.land_spec, Z.bits_0. destruct (Z.lt_ge_cases n k) as [Hlt|Hge].
    - rewrite Z.shiftl_spec_low by exact Hlt. reflexivity.
    - destruct (Z.eq_dec h 0) as [->|Hz]; [rewrite Z.bits_0; apply andb_false_r|]. rewrite (Z.bits_above_log2 h n); [apply andb_false_r|lia|]. assert (Z.log2 h < k) by (apply Z.log2_lt_pow2; lia). lia. }
  rewrite Z.add_nocarry_lxor by exact E. symmetry. apply Z.lxor_lor. exact E.
Qed.
Section Ro.
Variable hl : Z.
Variable H : bytes -> bytes.
Hypothesis Hh : 0 < hl.
Lemma java_ro_loop_eq n : forall i x acc, 0 < i -> java_ro_loop hl H n i x acc = ro_loop hl H n i x acc.
Proof.
  induction n as [|n IH]; intros i x acc Hi; [reflexivity|]. cbn [java_ro_loop ro_loop]. rewrite (java_bytes_pos i Hi). unfold bn_lshift. destruct (Z.ltb_spec hl 0); [lia|]. cbn [bind].
  destruct (to_bytes_of i ltac:(lia)) as (s & E & _). rewrite E. cbn [bind]. rewrite java_number_eq. apply IH. lia.
Qed.
Hypothesis Hl : forall s, 8 * Z.of_nat (length (H s)) = hl.
Lemma digest_small s : 0 <= of_bytes (H s) < 2 ^ hl.
Proof. rewrite of_bytes_value, <- (Hl s), Z.pow_mul_r by lia. change (2 ^ 8) with 256. apply be_value_range. Qed.
Lemma py_ro_loop_eq n : forall i x acc, 0 < i -> py_ro_loop hl H n i x acc = ro_loop hl H n i x acc.
Proof.
  induction n as [|n IH]; intros i x acc Hi; [reflexivity|]. cbn [py_ro_loop ro_loop]. rewrite (long_to_bytes_pos i Hi). unfold bn_lshift. destruct (Z.ltb_spec hl 0); [lia|]. cbn [bind].
  destruct (to_bytes_of i ltac:(lia)) as (s & E & _). rewrite E. cbn [bind]. rewrite lor_add by (try lia; apply digest_small). apply IH. lia.
Qed.
Lemma ro_loop_nonneg n : forall i x acc v, 0 <= acc -> ro_loop hl H n i x acc = Ok v -> 0 <= v.
Proof.
  induction n as [|n IH]; intros i x acc v Ha E; cbn [ro_loop] in E; [congruence|]. unfold bn_lshift in E. destruct (Z.ltb_spec hl 0); [lia|]. cbn [bind] in E.
  apply bind_ok in E. destruct E as (s & Es & E). apply IH in E; [exact E|]. pose proof (of_bytes_nonneg (H (s ++ x))). assert (0 <= 2 ^ hl) by (apply Z.pow_nonneg; lia). nia.
Qed.
Lemma java_random_oracle_eq x m : 0 < m -> ro_iterations hl (bit_length m + hl) * hl < 130048 -> java_random_oracle hl H x m = random_oracle hl H x m.
Proof.
  intros Hm Hi. unfold java_random_oracle, random_oracle. fold (ro_iterations hl (bit_length m + hl)). set (it := ro_iterations _ _) in *. destruct (Z.ltb_spec (it * hl) 130048); [|lia]. cbn [negb].
  rewrite java_ro_loop_eq by lia. destruct (ro_loop hl H (Z.to_nat it) 1 x 0) as [v|c| | |] eqn:E; try reflexivity. cbn [bind]. apply ro_loop_nonneg in E; [|lia].
  pose proof (ro_iterations_ge hl (bit_length m + hl) Hh) as Hg. fold it in Hg. unfold bn_rshift. destruct (Z.ltb_spec (it * hl - (bit_length m + hl)) 0); [lia|]. cbn [bind].
  unfold bn_mod. destruct (Z.leb_spec m 0); [lia|]. destruct (Z.eqb_spec m 0); [lia|]. rewrite Z.abs_eq by lia. f_equal. f_equal. symmetry. apply Z.quot_div_nonneg; [exact E|apply Z.pow_pos_nonneg; lia].
Qed.
Lemma py_random_oracle_eq x m : 0 < m -> ro_iterations hl (bit_length m + hl) <= 255 -> ro_iterations hl (bit_length m + hl) * hl < 130048 -> py_random_oracle hl H (MBytes x) m = random_oracle hl H x m.
Proof.
  intros Hm H255 Hi. unfold py_random_oracle, random_oracle. fold (ro_iterations hl (bit_length m + hl)). set (it := ro_iterations _ _) in *. destruct (Z.ltb_spec 255 it); [lia|]. destruct (Z.ltb_spec (it * hl) 130048); [|lia]. cbn [negb message_bytes bind].
  rewrite py_ro_loop_eq by lia. destruct (ro_loop hl H (Z.to_nat it) 1 x 0) as [v|c| | |] eqn:E; try reflexivity. cbn [bind]. apply ro_loop_nonneg in E; [|lia].
  pose proof (ro_iterations_ge hl (bit_length m + hl) Hh) as Hg. fold it in Hg. unfold bn_rshift. destruct (Z.ltb_spec (it * hl - (bit_length m + hl)) 0); [lia|]. cbn [bind].
  unfold bn_mod. destruct (Z.eqb_spec m 0); [lia|]. rewrite Z.abs_eq by lia. rewrite Z.shiftr_div_pow2 by lia. f_equal. f_equal. symmetry. apply Z.quot_div_nonneg; [exact E|apply Z.pow_pos_nonneg; lia].
Qed.
Lemma py_random_oracle_int z m : 0 < z -> exists s, to_bytes z = Ok s /\ py_random_oracle hl H (MInt z) m = py_random_oracle hl H (MBytes s) m.
Proof.
  intros Hz. destruct (to_bytes_of z ltac:(lia)) as (s & E & _). exists s. split; [exact E|]. unfold py_random_oracle, message_bytes. rewrite long_to_bytes_pos, E by exact Hz. reflexivity.
Qed.
End Ro.

(** ** Hashing to the curve *)
Section Hash.
Variable C : ec.
Hypothesis L : ec_laws C.
Hypothesis Off : off_axis C.
Hypothesis Hbits : bit_length (ec_p C) <= 65024.
Variable X : externals.
Variable sqrt_p : Z -> Z.
Hypothesis Hs : sqrt_ok (ec_p C) sqrt_p.
Variable root : Z -> option Z.
Hypothesis Hr : root_ok (ec_p C) root.
Notation p := (ec_p C).

Lemma usable_iterations hl : hl = 256 \/ hl = 384 \/ hl = 512 -> ro_iterations hl (bit_length p + hl) <= 255 /\ ro_iterations hl (bit_length p + hl) * hl < 130048.
Proof.
  intros Hh. pose proof (bit_length_nonneg p) as Hb. assert (Hh0 : 0 < hl) by lia. pose proof (ro_iterations_ge hl (bit_length p + hl) Hh0) as Hg. set (it := ro_iterations _ _) in *. destruct Hh as [->|[->| ->]]; lia.
Qed.
Lemma cpp_oracle_ok h s : exists x, cpp_oracle C X h s = Ok x /\ 0 <= x < p.
Proof.
  pose proof (p_gt C L) as G. unfold cpp_oracle. destruct (Z.eqb_spec h 0); [|destruct (Z.eqb_spec h 1)].
  - apply random_oracle_total; try lia. apply (usable_iterations 256). lia.
  - apply random_oracle_total; try lia. apply (usable_iterations 384). lia.
  - apply random_oracle_total; try lia. apply (usable_iterations 512). lia.
Qed.
Lemma java_oracle_eq h s : java_random_oracle (java_hash_len h) (java_digest X h) s p = cpp_oracle C X h s.
Proof.
  pose proof (p_gt C L) as G. unfold java_hash_len, java_digest, cpp_oracle. destruct (Z.eqb_spec h 0); [|destruct (Z.eqb_spec h 1)]; apply java_random_oracle_eq; try lia; apply usable_iterations; lia.
Qed.
Hypothesis Hd : digest_lengths X.
Lemma py_oracle_eq h s : py_random_oracle (py_hash_len h) (py_digest X h) (MBytes s) p = cpp_oracle C X h s.
Proof.
  pose proof (p_gt C L) as G. unfold py_hash_len, py_digest, cpp_oracle.
  destruct (Z.eqb_spec h 0); [|destruct (Z.eqb_spec h 1)]; (apply py_random_oracle_eq; [lia| |lia| |]; [intros y; destruct (Hd y) as (A & B & D); lia|apply usable_iterations; lia|apply usable_iterations; lia]).
Qed.
Lemma hash_internal_oracle sswu fuel h m : 0 <= h <= 2 -> hash_internal C X sqrt_p sswu fuel h m = (let* x := cpp_oracle C X h m in hash_loop C sqrt_p (cpp_oracle C X h) fuel x).
Proof.
  intros Hh. unfold hash_internal, hash_to_curve. assert (E : h = 0 \/ h = 1 \/ h = 2) by lia. destruct E as [->|[->| ->]]; reflexivity.
Qed.

Lemma java_step x : 0 <= x < p ->
  match root ((x * ((x * x) mod p + ec_a C) + ec_b C) mod p) with
  | Some y => exists P, map_x C sqrt_p x = Ok P /\ ec_of_xy C x (if Z.odd y then (- y) mod p else y) = Some P
  | None => map_x C sqrt_p x = Err Internal
  end.
Proof.
  intros Bx. pose proof (p_gt C L) as G. assert (Ey : (x * ((x * x) mod p + ec_a C) + ec_b C) mod p = rhs C x mod p).
  { apply mod_eqmod_iff; [lia|]. unfold rhs. rewrite (eqmod_mod p). exists 0. ring. }
  rewrite Ey. pose proof (Hr (rhs C x mod p) ltac:(apply Z.mod_pos_bound; lia)) as R. destruct (root (rhs C x mod p)) as [r|].
  - destruct R as [Br Dr]. change (eqmod p (r * r) (rhs C x mod p)) in Dr. rewrite (eqmod_mod p) in Dr.
    assert (Pt : forall y, 0 <= y < p -> eqmod p (y * y) (r * r) -> exists P, ec_of_xy C x y = Some P /\ ec_xy C P = Some (x, y)).
    { intros y By E. destruct (of_xy_curve C L x y) as (P & EP); [lia|lia| |exists P; split; [exact EP|apply (xy_of C L); exact EP]].
      fold (rhs C x). apply mod_eqmod_iff; [lia|]. rewrite E. exact Dr. }
    destruct (Pt r Br ltac:(exists 0; ring)) as (P0 & _ & X0). assert (Hr0 : r <> 0) by (exact (Off _ _ _ X0)).
    set (y := if Z.odd r then (- r) mod p else r). assert (Hy : 0 < y < p /\ Z.even y = true /\ eqmod p (y * y) (r * r)).
    { subst y. destruct (Z.odd r) eqn:Ho; [|split; [lia|split; [rewrite <- Z.negb_odd, Ho; reflexivity|exists 0; ring]]].
      rewrite Z.mod_opp_l_nz by (rewrite ?Z.mod_small; lia). rewrite Z.mod_small by lia. split; [lia|]. split; [|exists (p - 2 * r); ring].
      rewrite Z.even_sub, (p_even C L), <- Z.negb_odd, Ho. reflexivity. }
    destruct Hy as (By & Ev & Eq). destruct (Pt y ltac:(lia) Eq) as (P & EP & XP). exists P. split; [|exact EP].
    assert (Lf : even_lift C x P) by (exists y; rewrite (Z.mod_small x) by exact Bx; tauto).
    destruct (map_x_total C L sqrt_p Hs x) as [(_ & Q & EQ & LQ)|[No _]]; [rewrite EQ; f_equal; exact (even_lift_unique C L x Q P LQ Lf)|].
    exfalso. apply No. exists y. split; [exact By|]. change (eqmod p (y * y) (rhs C x)). rewrite Eq. exact Dr.
  - destruct (map_x_total C L sqrt_p Hs x) as [((y & By & Dy) & _)|[_ E]]; [exfalso|exact E]. apply (R y). change (eqmod p (y * y) (rhs C x mod p)). rewrite (eqmod_mod p). exact Dy.
Qed.

Section Guard.
Variable h : Z.
Variable m : bytes.
Hypothesis NZ : no_rejected_zero C X h m.
Lemma rejected_pos i x : candidate (cpp_oracle C X h) m i x -> 0 <= x < p -> map_x C sqrt_p x = Err Internal -> 0 < x.
Proof.
  intros Hc Bx E. destruct (Z.eq_dec x 0) as [->|]; [exfalso|lia]. destruct NZ as [Hp|No]; [|exact (No i Hc)].
  destruct (map_x_total C L sqrt_p Hs 0) as [(_ & Q & EQ & _)|[No _]]; [congruence|exact (No Hp)].
Qed.
Lemma java_hash_loop_eq n : forall i x, candidate (cpp_oracle C X h) m i x -> 0 <= x < p ->
  java_hash_loop C root (fun b => java_random_oracle (java_hash_len h) (java_digest X h) b p) n x = hash_loop C sqrt_p (cpp_oracle C X h) n x.
Proof.
  induction n as [|n IH]; intros i x Hc Bx; [reflexivity|]. cbn [java_hash_loop hash_loop]. pose proof (java_step x Bx) as St.
  destruct (root _) as [y|].
  - destruct St as (P & EP & EQ). rewrite EP, EQ. reflexivity.
  - rewrite St. pose proof (rejected_pos i x Hc Bx St) as Hx. rewrite (java_bytes_pos x Hx). destruct (to_bytes_of x ltac:(lia)) as (b & Eb & _). rewrite Eb. cbn [bind].
    rewrite java_oracle_eq. destruct (cpp_oracle_ok h b) as (x' & Ex & Bx'). rewrite Ex. cbn [bind]. apply (IH (S i)); [econstructor; eassumption|exact Bx'].
Qed.
Lemma py_step x : 0 <= x < p ->
  exists e, bn_mod_exp ((x ^ 3 + ec_a C * x + ec_b C) mod p) (Z.shiftr (p - 1) 1) p = Ok e /\ 0 <= e < p /\
  if e =? 1 then
    let r := sqrt_p ((x ^ 3 + ec_a C * x + ec_b C) mod p) in
    let y := if is_bit_set r 0 then bn_to_long (p - r mod p) else bn_to_long r in
    exists P, map_x C sqrt_p x = Ok P /\ py_from_point C x y = Ok P
  else map_x C sqrt_p x = Err Internal.
Proof.
  intros Bx. pose proof (p_gt C L) as G. pose proof (map_x_total C L sqrt_p Hs x) as T. unfold map_x in *. rewrite bn_mod_ok in * by lia. cbn [bind] in *. rewrite (Z.mod_small x) in * by exact Bx.
  unfold compute_y_square, bn_exp in *. change (Z.abs 3) with 3 in *. rewrite bn_mod_ok in * by lia. cbn [bind] in *. set (y2 := (x ^ 3 + ec_a C * x + ec_b C) mod p) in *.
  destruct (p_half C L) as [Eh Hh]. unfold is_square in *. rewrite Eh in *. cbn [bind] in *. rewrite Z.shiftr_div_pow2 by lia. change (2 ^ 1) with 2.
  rewrite bn_mod_exp_ok in * by lia. cbn [bind] in *. eexists. split; [reflexivity|]. split; [apply Z.mod_pos_bound; lia|]. destruct (y2 ^ ((p - 1) / 2) mod p =? 1).
  - destruct T as [(Hp & P & EP & LP)|[_ E]].
    2:{ exfalso. destruct (is_bit_set (sqrt_p y2) 0); [unfold bn_mod_negate in E; destruct (sqrt_p y2 =? 0); cbn [bind] in E; [|rewrite bn_mod_ok in E by lia; cbn [bind] in E]|];
        unfold point_of_xy in E; destruct (ec_of_xy C _ _); discriminate. }
    assert (Bs : 0 <= sqrt_p y2 < p).
    { apply has_point_square in Hp; [|exact L]. destruct Hp as (y0 & Hy0 & Dy0). apply Hs; [apply Z.mod_pos_bound; lia|]. exists y0. change (eqmod p (y0 * y0) y2). unfold y2. rewrite (eqmod_mod p), Dy0. unfold rhs. exists 0. ring. }
    cbv zeta. exists P. split; [exact EP|]. set (r := sqrt_p y2) in *. unfold py_from_point. rewrite (long_to_bn_ok x) by lia. cbn [bind].
    assert (EY : exists y, (if is_bit_set r 0 then bn_to_long (p - r mod p) else bn_to_long r) = y /\ 0 <= y /\ point_of_xy C x y = Ok P).
    { destruct (is_bit_set r 0) eqn:Eb.
      - unfold bn_mod_negate in EP. destruct (Z.eqb_spec r 0) as [E0|]; [rewrite E0 in Eb; discriminate|]. rewrite bn_mod_ok in EP by lia. cbn [bind] in EP. rewrite (Z.mod_small r) in * by lia.
        exists (p - r). rewrite bn_to_long_eq by lia. split; [reflexivity|]. split; [lia|exact EP].
      - exists r. rewrite bn_to_long_eq by lia. split; [reflexivity|]. split; [lia|exact EP]. }
    destruct EY as (y & -> & Hy & EQ). rewrite (long_to_bn_ok y Hy). cbn [bind]. unfold point_of_xy in EQ. destruct (ec_of_xy C x y) as [Q|] eqn:EQ'; [|discriminate]. injection EQ as ->.
    apply (xy_of C L) in EQ'. unfold is_inf. destruct (peqb C P (pinf C)) eqn:Ei; [|reflexivity]. apply (peqb_spec C L) in Ei. apply (xy_inf C L) in Ei. congruence.
  - reflexivity.
Qed.
Lemma py_hash_eq n : forall msg i x, py_random_oracle (py_hash_len h) (py_digest X h) msg p = Ok x -> candidate (cpp_oracle C X h) m i x -> 0 <= x < p ->
  (let* xy := py_hash_to_curve C X sqrt_p h n msg in py_from_point C (fst xy) (snd xy)) = hash_loop C sqrt_p (cpp_oracle C X h) n x.
Proof.
  induction n as [|n IH]; intros msg i x Em Hc Bx; [reflexivity|]. cbn [py_hash_to_curve hash_loop]. rewrite Em. cbn [bind].
  destruct (py_step x Bx) as (e & Ee & Be & St). rewrite Ee. cbn [bind]. rewrite bn_to_long_eq by lia. destruct (e =? 1).
  - rewrite long_to_bn_ok by (apply Z.mod_pos_bound; pose proof (p_gt C L); lia). cbn [bind]. cbv zeta in St. destruct St as (P & EP & EQ). rewrite EP.
    destruct (is_bit_set _ 0); cbn [bind fst snd]; exact EQ.
  - rewrite St. pose proof (rejected_pos i x Hc Bx St) as Hx.
    destruct (py_random_oracle_int (py_hash_len h) (py_digest X h) x p Hx) as (b & Eb & EI). rewrite Eb. cbn [bind]. destruct (cpp_oracle_ok h b) as (x' & Ex & Bx'). rewrite Ex. cbn [bind].
    apply (IH (MInt x) (S i)); [rewrite EI, py_oracle_eq; exact Ex|econstructor; eassumption|exact Bx'].
Qed.
Lemma java_hash_point_eq sswu fuel : 0 <= h <= 2 -> java_hash_point C X root fuel h m = hash_internal C X sqrt_p sswu fuel h m.
Proof.
  intros Hh. rewrite hash_internal_oracle by exact Hh. unfold java_hash_point. rewrite java_oracle_eq. destruct (cpp_oracle_ok h m) as (x & Ex & Bx). rewrite Ex. cbn [bind]. apply (java_hash_loop_eq fuel 0); [constructor; exact Ex|exact Bx].
Qed.
Lemma py_hash_point_eq sswu fuel : 0 <= h <= 2 -> py_hash_point C X sqrt_p fuel h (MBytes m) = hash_internal C X sqrt_p sswu fuel h m.
Proof.
  intros Hh. rewrite hash_internal_oracle by exact Hh. unfold py_hash_point. destruct (cpp_oracle_ok h m) as (x & Ex & Bx). rewrite Ex. cbn [bind].
  apply (py_hash_eq fuel (MBytes m) 0); [rewrite py_oracle_eq; exact Ex|constructor; exact Ex|exact Bx].
Qed.
End Guard.
End Hash.
