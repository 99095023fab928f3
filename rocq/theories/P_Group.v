(** Theorems about hashing to the curve (C33) and message padding (C34). *)
From Coq Require Import Znumtheory.
From Verif Require Import Base M_BigNum L_BigNum M_Num L_Mod L_Num L_DJ M_EC L_EC L_Toy M_Group S_Group L_Group.

(** Square roots on the concrete curve. *)
Definition toy_sqrt (a : Z) : Z := a ^ 17 mod 67.
Lemma toy_sqrt_ok : sqrt_ok (ec_p toy) toy_sqrt.
Proof.
  intros a Ba [r Hr]. change (ec_p toy) with 67 in *. change (eqmod 67 (r * r) a) in Hr. unfold toy_sqrt. split; [apply Z.mod_pos_bound; lia|].
  apply eqmod_intro. rewrite !(eqmod_mod 67), <- Hr.
  assert (E : forall x, 0 <= x < 67 -> ((x * x) ^ 17 * (x * x) ^ 17) mod 67 = (x * x) mod 67).
  { intros x Bx. assert (F : forallb (fun i => ((Z.of_nat i * Z.of_nat i) ^ 17 * (Z.of_nat i * Z.of_nat i) ^ 17) mod 67 =? (Z.of_nat i * Z.of_nat i) mod 67) (seq 0 67) = true) by (vm_compute; reflexivity).
    rewrite forallb_forall in F. specialize (F (Z.to_nat x)). rewrite Z2Nat.id in F by lia. apply Z.eqb_eq, F. apply in_seq. lia. }
  specialize (E (r mod 67) (Z.mod_pos_bound r 67 ltac:(lia))). apply mod_eqmod_iff in E; [|lia]. rewrite !(eqmod_mod 67) in E. exact E.
Qed.

(** Whatever the hash function: the returned point lies on the curve above the first candidate that is an abscissa, has even ordinate, and
    is not infinity. *)
Theorem C33_hash_gives_curve_point : forall C sqrt_p hash_len H fuel m P, ec_laws C -> sqrt_ok (ec_p C) sqrt_p ->
  hash_to_curve C sqrt_p hash_len H fuel m = Ok P ->
  P <> pinf C /\
  (exists x y, ec_xy C P = Some (x, y) /\ Z.even y = true /\ (y * y) mod ec_p C = (x * x * x + ec_a C * x + ec_b C) mod ec_p C) /\
  exists i x, candidate (fun b => random_oracle hash_len H b (ec_p C)) m i x /\ even_lift C x P /\
    forall j xj, (j < i)%nat -> candidate (fun b => random_oracle hash_len H b (ec_p C)) m j xj -> ~ has_point C xj.
Proof.
  intros C sq hl H fuel m P L Hs E. unfold hash_to_curve in E. cbv zeta in E. apply bind_ok in E. destruct E as (x & Ex & E).
  destruct (hash_loop_spec C L sq Hs (fun b => random_oracle hl H b (ec_p C)) m fuel 0 x P (cand_first (fun b => random_oracle hl H b (ec_p C)) m x Ex) ltac:(intros; lia) E) as (i & x' & Hc & Hl & Hp & Hn).
  destruct Hl as (y & XP & Ev & By). split; [intros E0; apply (xy_inf C L) in E0; congruence|]. split.
  - exists (x' mod ec_p C), y. split; [exact XP|]. split; [exact Ev|]. apply (xy_curve C L _ _ _ XP).
  - exists i, x'. split; [exact Hc|]. split; [exists y; tauto|exact Hn].
Qed.
Print Assumptions C33_hash_gives_curve_point.
Definition demo_hash (s : bytes) : bytes := repeat (zb (fold_left (fun a b => (a * 7 + bz b) mod 251) s 3)) 32.
Example C33_ex : match hash_to_curve toy toy_sqrt 256 demo_hash 10 [zb 1] with Ok P => match ec_xy toy P with Some (x, y) => Z.even y = true | None => False end | _ => False end.
Proof. vm_compute. reflexivity. Qed.

(** The result depends only on the input: not on which square root BoringSSL picks, nor on how long one is willing to wait. *)
Theorem C33_hash_deterministic : forall C sqrt1 sqrt2 hash_len H fuel1 fuel2 m P1 P2, ec_laws C -> sqrt_ok (ec_p C) sqrt1 -> sqrt_ok (ec_p C) sqrt2 ->
  hash_to_curve C sqrt1 hash_len H fuel1 m = Ok P1 -> hash_to_curve C sqrt2 hash_len H fuel2 m = Ok P2 -> P1 = P2.
Proof.
  intros C s1 s2 hl H f1 f2 m P1 P2 L H1 H2 E1 E2. unfold hash_to_curve in E1, E2. cbv zeta in E1, E2. apply bind_ok in E1, E2. destruct E1 as (x & Ex & E1), E2 as (x0 & Ex0 & E2).
  rewrite Ex in Ex0. injection Ex0 as <-.
  destruct (hash_loop_spec C L s1 H1 (fun b => random_oracle hl H b (ec_p C)) m f1 0 x P1 (cand_first (fun b => random_oracle hl H b (ec_p C)) m x Ex) ltac:(intros; lia) E1) as (i & xi & Ci & Li & Pi & Ni).
  destruct (hash_loop_spec C L s2 H2 (fun b => random_oracle hl H b (ec_p C)) m f2 0 x P2 (cand_first (fun b => random_oracle hl H b (ec_p C)) m x Ex) ltac:(intros; lia) E2) as (j & xj & Cj & Lj & Pj & Nj).
  assert (i = j). { destruct (lt_eq_lt_dec i j) as [[Hlt|He]|Hgt]; [exfalso; exact (Nj _ _ Hlt Ci Pi)|exact He|exfalso; exact (Ni _ _ Hgt Cj Pj)]. } subst j.
  pose proof (candidate_fun _ _ _ _ _ Ci Cj) as <-. apply (even_lift_unique C L xi); assumption.
Qed.
Print Assumptions C33_hash_deterministic.

(** It never aborts and never reports an error: the only alternative to a point is an endless search. *)
Theorem C33_hash_outcomes : forall C sqrt_p hash_len H fuel m, ec_laws C -> sqrt_ok (ec_p C) sqrt_p -> 0 < hash_len <= 512 -> bit_length (ec_p C) <= 129024 ->
  (exists P, hash_to_curve C sqrt_p hash_len H fuel m = Ok P /\ forall fuel', (fuel <= fuel')%nat -> hash_to_curve C sqrt_p hash_len H fuel' m = Ok P) \/
  hash_to_curve C sqrt_p hash_len H fuel m = Diverge.
Proof.
  intros C sq hl H fuel m L Hs Hl Hb. pose proof (p_odd C L) as Hp.
  assert (Hr : forall b, exists x, random_oracle hl H b (ec_p C) = Ok x /\ 0 <= x < ec_p C).
  { intros b. apply (random_oracle_total hl H b (ec_p C)); [lia|lia|]. pose proof (ro_iterations_ge hl (bit_length (ec_p C) + hl) ltac:(lia)) as Hg. unfold ro_iterations in *. lia. }
  unfold hash_to_curve. cbv zeta. destruct (Hr m) as (x & Ex & Bx). rewrite Ex. cbn [bind].
  destruct (hash_loop_total C L sq Hs (fun b => random_oracle hl H b (ec_p C)) fuel Hr x Bx) as [(P & E)|E]; rewrite E; [left|right; reflexivity].
  exists P. split; [reflexivity|]. intros f' Hf. apply (hash_loop_more C sq _ fuel f' x P Hf E).
Qed.
Print Assumptions C33_hash_outcomes.
Example C33_outcomes_ex : bit_length (ec_p toy) = 7. Proof. reflexivity. Qed.

(** SSWU hashing returns what the curve's map returns; curves without one are rejected. *)
Theorem C33_sswu : forall C sswu m dst, 
  (sswu = None -> sswu_to_curve C sswu m dst = Err InvalidArgument) /\
  (forall f P, sswu = Some f -> (sswu_to_curve C sswu m dst = Ok P <-> f m dst = Some P)).
Proof.
  intros C sswu m dst. split; [intros ->; reflexivity|]. intros f P ->. unfold sswu_to_curve. destruct (f m dst); split; intros E; congruence.
Qed.
Print Assumptions C33_sswu.

(** ** C34. As stated ("whenever padding succeeds") the property fails at the boundary m * 2^k + 2^k - 1 = p, which the range check admits. *)

(** On P-256 itself: the message (p - 1) / 2 with one padding bit is accepted and comes back as 0. *)
Theorem C34_recover_refuted : forall C sqrt_p, ec_laws C -> sqrt_ok (ec_p C) sqrt_p -> ec_p C = p256_p -> ec_a C = p256_p - 3 -> ec_b C = p256_b ->
  exists P, pad_x C sqrt_p ((p256_p - 1) / 2) 1 = Ok P /\ recover_x C P 1 = Ok 0.
Proof.
  intros C sq L Hs Ep Ea Eb. 
  unfold pad_x, pad_mask, pad_tries. rewrite Ep. change (bn_lshift ((p256_p - 1) / 2) 1) with (Ok (p256_p - 1)). cbn [bind]. change (1 <=? 53) with true. cbn [bind].
  change (p256_p <? p256_p - 1 + (2 ^ 1 - 1)) with false. cbn [bind]. change (Z.to_nat (2 ^ 1 - 1)) with 1%nat.
  destruct (pad_loop_spec C L sq Hs 1 1 (p256_p - 1)) as [(P & j & E & Bj & Hl & _)|[E No]].
  - exists P. split; [exact E|]. assert (j = 1) by lia. subst j. destruct Hl as (y & XP & _). unfold recover_x. rewrite XP, Ep. vm_compute. reflexivity.
  - exfalso. apply (No 1); [lia|]. exists 46263761741508638697010950048709651021688891777877937875096931459006746039284. rewrite Ep, Ea, Eb. split; [vm_compute; split; reflexivity|].
    apply Z.mod_divide; [vm_compute; discriminate|]. vm_compute. reflexivity.
Qed.
Print Assumptions C34_recover_refuted.
(** The same on the concrete curve. *)
Example C34_refuted_ex : match pad_x toy toy_sqrt 33 1 with Ok P => recover_x toy P 1 = Ok 0 | _ => False end.
Proof. vm_compute. reflexivity. Qed.

(** Away from that boundary, for every non-negative message and every padding length, what was padded is recovered. *)
Theorem C34_recover_partial : forall C sqrt_p m k P, ec_laws C -> sqrt_ok (ec_p C) sqrt_p -> 0 <= m -> 0 <= k -> m * 2 ^ k + 2 ^ k - 1 <> ec_p C ->
  pad_x C sqrt_p m k = Ok P -> recover_x C P k = Ok m.
Proof.
  intros C sq m k P L Hs Hm Hk Hne E. unfold pad_x, bn_lshift in E. destruct (Z.ltb_spec k 0); [lia|]. cbn [bind] in E. unfold pad_mask, pad_tries in E.
  assert (P2 : 0 < 2 ^ k) by (apply Z.pow_pos_nonneg; lia).
  assert (B : exists j, 1 <= j < 2 ^ k /\ m * 2 ^ k + j < ec_p C /\ even_lift C (m * 2 ^ k + j) P).
  { destruct (Z.leb_spec k 53) as [Hk1|Hk1]; cbn [bind] in E.
    - destruct (Z.ltb_spec (ec_p C) (m * 2 ^ k + (2 ^ k - 1))) as [|Hp]; [discriminate|].
      destruct (pad_loop_spec C L sq Hs (Z.to_nat (2 ^ k - 1)) 1 (m * 2 ^ k)) as [(Q & j & EQ & Bj & Hl & _)|[EQ _]]; rewrite EQ in E; [|discriminate].
      injection E as <-. rewrite Z2Nat.id in Bj by lia. exists j. split; [lia|]. split; [lia|exact Hl].
    - destruct (Z.leb_spec k 63) as [Hk2|Hk2]; [|discriminate]. cbn [bind] in E. destruct (Z.ltb_spec (ec_p C) (m * 2 ^ k + 2 ^ k)) as [|Hp]; [discriminate|].
      destruct (pad_loop_spec C L sq Hs (Z.to_nat (2 ^ k - 2 ^ (k - 54) - 1)) 1 (m * 2 ^ k)) as [(Q & j & EQ & Bj & Hl & _)|[EQ _]]; rewrite EQ in E; [|discriminate].
      injection E as <-. assert (0 < 2 ^ (k - 54)) by (apply Z.pow_pos_nonneg; lia). exists j. split; [lia|]. split; [lia|exact Hl]. }
  destruct B as (j & Bj & Bp & (y & XP & _)). unfold recover_x. rewrite XP. unfold bn_rshift. destruct (Z.ltb_spec k 0); [lia|]. f_equal.
  assert (0 <= m * 2 ^ k) by (apply Z.mul_nonneg_nonneg; lia). rewrite Z.mod_small by lia. rewrite Z.quot_div_nonneg by lia. rewrite Z.div_add_l by lia. rewrite Z.div_small by lia. ring.
Qed.
Print Assumptions C34_recover_partial.
Example C34_partial_ex : match pad_x toy toy_sqrt 7 3 with Ok P => recover_x toy P 3 = Ok 7 | _ => False end.
Proof. vm_compute. reflexivity. Qed.

(** Exactly when padding succeeds, for padding lengths the arithmetic is exact for: the message with padding must not exceed p, and one of the
    2^k - 1 candidates must be an abscissa; the smallest such candidate is used. *)
Theorem C34_padding_outcomes : forall C sqrt_p m k, ec_laws C -> sqrt_ok (ec_p C) sqrt_p -> 0 <= k <= 53 ->
  (ec_p C < m * 2 ^ k + 2 ^ k - 1 /\ pad_x C sqrt_p m k = Err InvalidArgument) \/
  (m * 2 ^ k + 2 ^ k - 1 <= ec_p C /\ pad_x C sqrt_p m k = Err NotFound /\ forall i, 1 <= i < 2 ^ k -> ~ has_point C (m * 2 ^ k + i)) \/
  (m * 2 ^ k + 2 ^ k - 1 <= ec_p C /\ exists P i, pad_x C sqrt_p m k = Ok P /\ 1 <= i < 2 ^ k /\ even_lift C (m * 2 ^ k + i) P /\ forall j, 1 <= j < i -> ~ has_point C (m * 2 ^ k + j)).
Proof.
  intros C sq m k L Hs Hk. unfold pad_x, bn_lshift, pad_mask, pad_tries. destruct (Z.ltb_spec k 0); [lia|]. cbn [bind]. destruct (Z.leb_spec k 53); [|lia]. cbn [bind].
  assert (P2 : 0 < 2 ^ k) by (apply Z.pow_pos_nonneg; lia).
  destruct (Z.ltb_spec (ec_p C) (m * 2 ^ k + (2 ^ k - 1))) as [Hp|Hp]; [left; split; [lia|reflexivity]|right].
  destruct (pad_loop_spec C L sq Hs (Z.to_nat (2 ^ k - 1)) 1 (m * 2 ^ k)) as [(Q & j & EQ & Bj & Hl & _ & Nj)|[EQ No]]; rewrite EQ; rewrite Z2Nat.id in * by lia.
  - right. split; [lia|]. exists Q, j. split; [reflexivity|]. split; [lia|]. split; [exact Hl|exact Nj].
  - left. split; [lia|]. split; [reflexivity|]. intros i Bi. apply No. lia.
Qed.
Print Assumptions C34_padding_outcomes.
Example C34_outcomes_ex : pad_x toy toy_sqrt 9 3 = Err InvalidArgument /\ pad_x toy toy_sqrt 5 0 = Err NotFound. Proof. split; vm_compute; reflexivity. Qed.

(** 64 or more padding bits: undefined behaviour, whatever the curve and message. *)
Theorem C34_wide_padding_undefined : forall C sqrt_p m k, 64 <= k -> pad_x C sqrt_p m k = UB.
Proof.
  intros C sq m k Hk. unfold pad_x, bn_lshift, pad_mask. destruct (Z.ltb_spec k 0); [lia|]. cbn [bind]. destruct (Z.leb_spec k 53); [lia|]. destruct (Z.leb_spec k 63); [lia|]. reflexivity.
Qed.
Print Assumptions C34_wide_padding_undefined.
