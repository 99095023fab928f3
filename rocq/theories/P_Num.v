(** Properties C17-C20, C53, C54: random oracle, PRF, CRT, fixed base exponentiation, Montgomery form. *)
From Verif Require Import Base M_BigNum S_BigNum L_BigNum L_Mod M_Num S_Num L_Num.

(** *** C17 *)

(** For every digest function [H] of any positive length, every input and every positive bound the oracle returns a
    value in range unless the number of digest bits needed reaches 130048, in which case it aborts. *)
Theorem C17_oracle_in_range : forall hash_len H x max_value, 0 < hash_len -> 0 < max_value ->
  let bits := bit_length max_value + hash_len in
  let needed := (bits + hash_len - 1) / hash_len * hash_len in
  (needed < 130048 -> exists r, random_oracle hash_len H x max_value = Ok r /\ 0 <= r < max_value) /\
  (130048 <= needed -> random_oracle hash_len H x max_value = Crash).
Proof. intros hl H x m Hh Hm. exact (random_oracle_total hl H x m Hh Hm). Qed.
Print Assumptions C17_oracle_in_range.

(** A simple sufficient condition: bounds of up to 128 kbit are always supported. *)
Theorem C17_supported_sizes : forall hash_len H x max_value, 0 < hash_len <= 512 -> 0 < max_value ->
  bit_length max_value <= 129024 -> exists r, random_oracle hash_len H x max_value = Ok r /\ 0 <= r < max_value.
Proof.
  intros hl H x m Hh Hm Hb. apply (C17_oracle_in_range hl H x m); [lia|exact Hm|].
  pose proof (ro_iterations_ge hl (bit_length m + hl) ltac:(lia)) as Hg. unfold ro_iterations in Hg. lia.
Qed.
Print Assumptions C17_supported_sizes.

(** The value: the digests of counter 1, 2, ... followed by the input, concatenated, truncated to
    bit_length(max) + hash_len bits and reduced. *)
Theorem C17_oracle_value : forall hash_len H x max_value blocks, 0 < hash_len -> 0 < max_value ->
  (forall y, 8 * Z.of_nat (length (H y)) = hash_len) ->
  let bits := bit_length max_value + hash_len in
  let iterations := (bits + hash_len - 1) / hash_len in
  iterations * hash_len < 130048 ->
  counter_blocks H x 1 (Z.to_nat iterations) blocks ->
  random_oracle hash_len H x max_value = Ok (be_value blocks / 2 ^ (iterations * hash_len - bits) mod max_value).
Proof. intros hl H x m s Hh Hm Hl. exact (random_oracle_value hl H x m s Hh Hm Hl). Qed.
Print Assumptions C17_oracle_value.

(** Such blocks always exist. *)
Theorem C17_oracle_value_applies : forall H x n, exists blocks, counter_blocks H x 1 n blocks.
Proof. intros H x n. apply counter_blocks_exists. lia. Qed.
Print Assumptions C17_oracle_value_applies.

(** Reducing that many uniform bits is nearly unbiased: every residue has floor(2^bits/max) or one more preimage. *)
Theorem C17_reduction_nearly_uniform : forall n m r, 0 < m -> 0 <= n -> 0 <= r < m ->
  n / m <= Z.of_nat (length (filter (fun v => v mod m =? r) (map Z.of_nat (seq 0 (Z.to_nat n))))) <= n / m + 1.
Proof. intros n m r Hm Hn Hr. exact (count_residue_bounds n m r Hm Hn Hr). Qed.
Print Assumptions C17_reduction_nearly_uniform.

(* a toy digest of 16 bits *)
Definition toy_hash (s : bytes) : bytes :=
  let v := fold_left (fun a b => (a * 31 + bz b + 7) mod 65536) s 1 in [zb (v / 256); zb v].
Example C17_ex : random_oracle 16 toy_hash [x61; x62] 1000003 = Ok 829352 /\ 0 <= 829352 < 1000003.
Proof. vm_compute. repeat split; discriminate. Qed.
Example C17_ex_abort : random_oracle 256 toy_hash [x61] (2 ^ 129900) = Crash.
Proof. vm_compute. reflexivity. Qed.

(** *** C18 *)

Theorem C18_prf_first_candidate : forall mac fuel key data max_value,
  80 <= Z.of_nat (length key) * 8 -> bit_length max_value <= 512 ->
  (exists k v, (k < fuel)%nat /\ prf mac fuel key data max_value = Ok v /\
     prf_first mac key data (bit_length max_value) max_value k v) \/
  (prf mac fuel key data max_value = Diverge /\
   forall j, (j < fuel)%nat -> max_value <= prf_candidate mac key data (bit_length max_value) j).
Proof. intros mac fuel key data m Hk Hb. exact (prf_sound mac key m Hk Hb fuel data). Qed.
Print Assumptions C18_prf_first_candidate.

Theorem C18_prf_in_range : forall mac fuel key data max_value v,
  prf mac fuel key data max_value = Ok v -> 0 <= v < max_value.
Proof.
  intros mac fuel key data m v E. destruct fuel as [|fuel]; [discriminate|].
  destruct (Z.lt_ge_cases (Z.of_nat (length key) * 8) 80) as [H|H].
  { rewrite prf_aborts in E by (try lia; left; exact H). discriminate. }
  destruct (Z.lt_ge_cases 512 (bit_length m)) as [H'|H'].
  { rewrite prf_aborts in E by (try lia; right; exact H'). discriminate. }
  destruct (prf_sound mac key m H H' (S fuel) data) as [(k & v' & _ & E' & (Hv & Hl & _))|[E' _]]; rewrite E in E'; [|discriminate].
  injection E' as <-. split; [|exact Hl]. rewrite Hv. unfold prf_candidate. apply Z.mod_pos_bound.
  apply Z.pow_pos_nonneg; [lia|apply bit_length_nonneg].
Qed.
Print Assumptions C18_prf_in_range.

(** The result does not depend on how long we are willing to wait, and a result exists as soon as some candidate is
    below the bound. *)
Theorem C18_prf_deterministic : forall mac fuel fuel' key data max_value v v',
  prf mac fuel key data max_value = Ok v -> prf mac fuel' key data max_value = Ok v' -> v = v'.
Proof.
  intros mac fuel fuel' key data m v v' E E'. destruct fuel as [|fuel]; [discriminate|]. destruct fuel' as [|fuel']; [discriminate|].
  destruct (Z.lt_ge_cases (Z.of_nat (length key) * 8) 80) as [H|H].
  { rewrite prf_aborts in E by (try lia; left; exact H). discriminate. }
  destruct (Z.lt_ge_cases 512 (bit_length m)) as [H'|H'].
  { rewrite prf_aborts in E by (try lia; right; exact H'). discriminate. }
  destruct (prf_sound mac key m H H' (S fuel) data) as [(k & w & _ & F & P)|[F _]]; rewrite E in F; [|discriminate].
  destruct (prf_sound mac key m H H' (S fuel') data) as [(k' & w' & _ & F' & P')|[F' _]]; rewrite E' in F'; [|discriminate].
  injection F as <-. injection F' as <-. exact (proj2 (prf_first_unique _ _ _ _ _ _ _ _ _ P P')).
Qed.
Print Assumptions C18_prf_deterministic.

Theorem C18_prf_complete : forall mac key data max_value k v fuel,
  80 <= Z.of_nat (length key) * 8 -> bit_length max_value <= 512 ->
  prf_first mac key data (bit_length max_value) max_value k v -> (k < fuel)%nat ->
  prf mac fuel key data max_value = Ok v.
Proof. exact prf_complete. Qed.
Print Assumptions C18_prf_complete.

Theorem C18_prf_aborts : forall mac fuel key data max_value, (0 < fuel)%nat ->
  (Z.of_nat (length key) * 8 < 80 \/ 512 < bit_length max_value) -> prf mac fuel key data max_value = Crash.
Proof. exact prf_aborts. Qed.
Print Assumptions C18_prf_aborts.

Definition toy_mac (k d : bytes) : bytes := toy_hash (k ++ d).
(* the first two candidates are rejected *)
Example C18_ex : let key := repeat x41 10 in
  prf toy_mac 10 key [x61] 34200 = Ok 34122 /\ map (prf_candidate toy_mac key [x61] (bit_length 34200)) [0; 1; 2]%nat = [39111; 34704; 34122].
Proof. vm_compute. auto. Qed.
Example C18_ex_short_key : prf toy_mac 10 (repeat x41 9) [x61] 1000 = Crash.
Proof. vm_compute. reflexivity. Qed.

(** The rejection loop can run for ever for a suitable MAC function (termination is only probabilistic). *)
Theorem C18_prf_may_not_end : exists mac key data max_value, 80 <= Z.of_nat (length key) * 8 /\ 0 < max_value /\
  bit_length max_value <= 512 /\ forall fuel, prf mac fuel key data max_value = Diverge.
Proof.
  exists (fun _ _ => [xff]), (repeat x41 10), [], 200. repeat split; [vm_compute; discriminate..|].
  assert (H : forall fuel d, prf (fun _ _ => [xff]) fuel (repeat x41 10) d 200 = Diverge).
  { induction fuel as [|fuel IH]; intros d; [reflexivity|]. cbn [prf].
    change (Z.of_nat (length (repeat x41 10)) * 8 <? 80) with false. change (512 <? bit_length 200) with false. cbn match.
    change (get_last_n_bits (of_bytes [xff]) (bit_length 200) <? 200) with false. cbn match.
    change (to_bytes (of_bytes [xff])) with (Ok [xff]). cbn [bind]. apply IH. }
  intros fuel. apply H.
Qed.
Print Assumptions C18_prf_may_not_end.

(** *** C19 *)

Theorem C19_crt : forall m1 m2, 0 < m1 -> 0 < m2 -> Z.gcd m1 m2 = 1 ->
  exists c, crt_create m1 m2 = Ok c /\
  forall s1 s2, exists r, crt_compute c s1 s2 = Ok r /\ 0 <= r < m1 * m2 /\ r mod m1 = s1 mod m1 /\ r mod m2 = s2 mod m2 /\
    forall r', 0 <= r' < m1 * m2 -> r' mod m1 = s1 mod m1 -> r' mod m2 = s2 mod m2 -> r' = r.
Proof.
  intros m1 m2 H1 H2 Hg. destruct (crt_create_ok m1 m2 H1 H2 Hg) as (c & E & _). exists c. split; [exact E|].
  intros s1 s2. destruct (crt_correct m1 m2 c s1 s2 H1 H2 Hg E) as (r & Er & B & R1 & R2). exists r.
  repeat split; try assumption; try lia. intros r' B' R1' R2'. apply (crt_unique m1 m2); try assumption; congruence.
Qed.
Print Assumptions C19_crt.
Theorem C19_not_coprime_aborts : forall m1 m2, 0 < m1 -> 0 < m2 -> Z.gcd m1 m2 <> 1 -> crt_create m1 m2 = Crash.
Proof. exact crt_not_coprime. Qed.
Print Assumptions C19_not_coprime_aborts.
Example C19_ex : (let* c := crt_create 35 27 in crt_compute c 3 (-4)) = Ok 563 /\ crt_create 6 4 = Crash.
Proof. vm_compute. auto. Qed.

(** *** C20 *)

(** Both implementations compute base^e mod m. *)
Theorem C20_fixed_base_exp : forall flag base m e, 1 < m -> Z.odd m = true -> 0 <= base < m -> 0 <= e ->
  fixed_base_exp flag base m e = Ok (base ^ e mod m).
Proof.
  intros flag base m e Hm Ho Hb He. unfold fixed_base_exp, is_non_negative. destruct (Z.ltb_spec e 0); [lia|]. cbn [negb].
  destruct flag.
  - destruct (tk_create_ok base m Hm Ho Hb) as (t & E & V & Em & _). rewrite E. cbn [bind].
    rewrite (tk_mod_exp_ok t base e V He), Em. reflexivity.
  - unfold simple_mod_exp. apply bn_mod_exp_ok; lia.
Qed.
Print Assumptions C20_fixed_base_exp.

(** The default implementation needs no condition on base or parity. *)
Theorem C20_simple_any_modulus : forall base m e, 0 < m -> 0 <= e -> fixed_base_exp false base m e = Ok (base ^ e mod m).
Proof.
  intros base m e Hm He. unfold fixed_base_exp, is_non_negative. destruct (Z.ltb_spec e 0); [lia|]. cbn [negb].
  unfold simple_mod_exp. apply bn_mod_exp_ok; lia.
Qed.
Print Assumptions C20_simple_any_modulus.

Theorem C20_negative_rejected : forall flag base m e, 1 < m -> Z.odd m = true -> 0 <= base < m -> e < 0 ->
  fixed_base_exp flag base m e = Err InvalidArgument.
Proof.
  intros flag base m e Hm Ho Hb He. unfold fixed_base_exp, is_non_negative. destruct (Z.ltb_spec e 0); [|lia]. cbn [negb].
  destruct flag; [|reflexivity]. destruct (tk_create_ok base m Hm Ho Hb) as (t & E & _). rewrite E. reflexivity.
Qed.
Print Assumptions C20_negative_rejected.

(** With the 2^k-ary implementation even moduli, modulus 1 and unreduced bases abort. *)
Theorem C20_two_k_ary_aborts : forall base m e, (m <= 1 \/ Z.odd m = false \/ ~ 0 <= base < m) ->
  fixed_base_exp true base m e = Crash.
Proof.
  intros base m e H. unfold fixed_base_exp, tk_create.
  destruct (Z.le_gt_cases m 0) as [Hm|Hm]; [rewrite mont_context_bad by (left; exact Hm); reflexivity|].
  destruct (Z.odd m) eqn:Ho; [|rewrite mont_context_bad by (right; exact Ho); reflexivity].
  destruct (mont_context_ok m Hm Ho) as (c & E & V & Ec). rewrite E. cbn [bind].
  destruct (Z.eq_dec m 1) as [H1|H1].
  { rewrite mont_create_bad by lia. reflexivity. }
  destruct (mont_create_ok c 1 ltac:(lia)) as (one & E1 & _). rewrite E1. cbn [bind].
  rewrite mont_create_bad; [reflexivity|]. rewrite Ec. destruct H as [H|[H|H]]; [lia|congruence|exact H].
Qed.
Print Assumptions C20_two_k_ary_aborts.
(* exponent with zero bytes inside: 0x10000000001 *)
Example C20_ex1 : fixed_base_exp true 3 1000003 1099511627777 = Ok 135029 /\ fixed_base_exp false 3 1000003 1099511627777 = Ok 135029 /\
  fixed_base_exp true 3 1000003 0 = Ok 1.
Proof. vm_compute. auto. Qed.

(** *** C53: hash inputs of different oracle calls *)

(** As long as counters fit in one byte (at most 255 iterations), different (counter, input) pairs give different
    hash inputs. *)
Theorem C53_counter_injective_partial : forall i j ci cj x y,
  0 < i < 256 -> 0 < j < 256 -> to_bytes i = Ok ci -> to_bytes j = Ok cj -> ci ++ x = cj ++ y -> i = j /\ x = y.
Proof.
  assert (H1 : forall i ci, 0 < i < 256 -> to_bytes i = Ok ci -> ci = [zb i]).
  { intros i ci Hi E. assert (En : to_bytes i = Ok [zb i]); [|congruence].
    rewrite <- (Z.mod_small i 256) at 1 by lia. rewrite <- bz_zb.
    replace (bz (zb i)) with (of_bytes [zb i]) by (unfold of_bytes; cbn [fold_left]; lia).
    rewrite to_bytes_of_bytes. cbn [strip_zeros]. rewrite bz_zb, Z.mod_small by lia. destruct (Z.eqb_spec i 0); [lia|reflexivity]. }
  intros i j ci cj x y Hi Hj Ei Ej E. rewrite (H1 i ci Hi Ei), (H1 j cj Hj Ej) in E. cbn [app] in E. injection E as Eb Ex.
  split; [|exact Ex]. apply (f_equal bz) in Eb. rewrite !bz_zb, !Z.mod_small in Eb by lia. exact Eb.
Qed.
Print Assumptions C53_counter_injective_partial.
Example C53_ex : to_bytes 7 = Ok [x07] /\ to_bytes 255 = Ok [xff].
Proof. vm_compute. auto. Qed.

(** Supported bounds need more than 255 iterations with SHA-256, and then different calls hash the same message. *)
Theorem C53_counter_collision_refuted : exists max_value i j ci cj x y,
  0 < max_value /\ ro_iterations 256 (bit_length max_value + 256) * 256 < 130048 /\
  1 <= i <= ro_iterations 256 (bit_length max_value + 256) /\ 1 <= j <= ro_iterations 256 (bit_length max_value + 256) /\
  to_bytes i = Ok ci /\ to_bytes j = Ok cj /\ ci ++ x = cj ++ y /\ (i <> j /\ x <> y).
Proof.
  exists (2 ^ 70000), 256, 1, [x01; x00], [x01], [x61], [x00; x61].
  repeat split; try (vm_compute; congruence).
Qed.
Print Assumptions C53_counter_collision_refuted.

(** *** C54: Montgomery arithmetic is transparent *)

Theorem C54_montgomery_transparent : forall m c x y a b, 0 < m -> mont_context m = Ok c -> 0 <= x < m -> 0 <= y < m ->
  mont_create c x = Ok a -> mont_create c y = Ok b ->
  mont_to_bignum c a = x /\ mont_to_bignum c (mont_mul c a b) = x * y mod m /\ (a = b <-> x = y) /\
  (forall s, mont_to_bytes a = Ok s -> mont_of_bytes s = a).
Proof.
  intros m c x y a b Hm Ec Hx Hy Ea Eb.
  assert (Ho : Z.odd m = true).
  { destruct (Z.odd m) eqn:Ho; [reflexivity|]. rewrite mont_context_bad in Ec by (right; exact Ho). discriminate. }
  destruct (mont_context_ok m Hm Ho) as (c' & E & V & Emod). rewrite Ec in E. injection E as <-.
  destruct (mont_create_ok c x ltac:(lia)) as (a' & E & Fa). rewrite Ea in E. injection E as <-.
  destruct (mont_create_ok c y ltac:(lia)) as (b' & E & Fb). rewrite Eb in E. injection E as <-.
  split; [|split; [|split]].
  - rewrite (mont_to_bignum_form c a x V Fa), Emod. apply Z.mod_small, Hx.
  - rewrite (mont_to_bignum_form c _ _ V (mont_mul_form c a b x y V Fa Fb)), Emod. reflexivity.
  - split; [|congruence]. intros ->. pose proof (mont_form_inj c b x y V Fa Fb) as Hi. rewrite Emod, !Z.mod_small in Hi by lia. exact Hi.
  - intros s Es. apply (to_bytes_ok a s Es).
Qed.
Print Assumptions C54_montgomery_transparent.
Example C54_ex : (let* c := mont_context 1000003 in let* a := mont_create c 999 in let* b := mont_create c 1000 in
  Ok (a, mont_to_bignum c (mont_mul c a b))) = Ok (335263, 999000).
Proof. vm_compute. reflexivity. Qed.
