(** Theorems about what an accepted proof of parameter generation is worth (C60). *)
From Verif Require Import Base M_BigNum L_BigNum M_Num L_Num L_Mod L_DJ L_Exp M_Pedersen S_Pedersen L_Pedersen P_Pedersen.

(** When g is no power of h, a first message leaves at most one of the 2^repetitions challenges for which any response is accepted. *)
Theorem C60_one_challenge : forall H1 H2 g h n pf1 pf2 b c1 c2, (forall x, ~ discrete_log n h g x) ->
  gp_reps pf1 = gp_reps pf2 -> gp_dummy_gs pf1 = gp_dummy_gs pf2 ->
  verify_params H1 g h n pf1 = Ok tt -> verify_params H2 g h n pf2 = Ok tt -> gen_bytes g h n (gp_dummy_gs pf1) = Ok b ->
  random_oracle 512 H1 b (2 ^ gp_reps pf1) = Ok c1 -> random_oracle 512 H2 b (2 ^ gp_reps pf1) = Ok c2 -> c1 = c2.
Proof.
  intros H1 H2 g h n pf1 pf2 b c1 c2 Hno ER ED V1 V2 Eb E1 E2. destruct (Z.eq_dec c1 c2) as [|Hne]; [assumption|exfalso].
  destruct (C48_special_soundness H1 H2 g h n pf1 pf2 b c1 c2 ER ED V1 V2 Eb E1 E2 Hne) as (i & z1 & z2 & _ & _ & [D|D]); exact (Hno _ D).
Qed.
Print Assumptions C60_one_challenge.

(** And such a challenge always exists: for every guess of the challenge bits there are a first message and responses, computed without any knowledge of g,
    that are accepted whenever the hash function returns the guess. So the soundness is exactly one in 2^repetitions. *)
Definition guess_dummy (g h n ig : Z) (bit : bool) (z : Z) : Z := if bit then (h ^ z * ig) mod n else h ^ z mod n.
Theorem C60_guessing : forall sha512 g h n ig c reps zs b, 0 <= g -> 0 <= h -> 1 < n -> Z.gcd h n = 1 -> (g * ig) mod n = 1 -> 0 < reps ->
  Z.of_nat (length zs) = reps -> Forall (fun z => 0 <= z) zs ->
  let ds := map (fun iz => guess_dummy g h n ig (Z.testbit c (Z.of_nat (fst iz))) (snd iz)) (combine (seq 0 (length zs)) zs) in
  gen_bytes g h n ds = Ok b -> random_oracle 512 sha512 b (2 ^ reps) = Ok c ->
  verify_params sha512 g h n {| gp_reps := reps; gp_dummy_gs := ds; gp_responses := zs |} = Ok tt.
Proof.
  intros sha g h n ig c reps zs b Hg Hh Hn G Hi Hr Hl Hz ds Eb Er. apply C48_verify_iff. cbn [gp_reps gp_dummy_gs gp_responses]. split; [exact Hr|].
  assert (Ld : length ds = length zs) by (unfold ds; rewrite map_length, combine_length, seq_length; lia). split; [congruence|]. split; [exact Hl|]. split; [exact G|]. split; [lia|].
  exists b, c. split; [exact Eb|]. split; [exact Er|]. intros i d z Ed Ez. split; [apply nth_error_In in Ez; exact (proj1 (Forall_forall _ _) Hz z Ez)|].
  assert (Ed' : d = guess_dummy g h n ig (Z.testbit c (Z.of_nat i)) z).
  { assert (Hc : nth_error (combine (seq 0 (length zs)) zs) i = Some (i, z)).
    { assert (Gen : forall l k, nth_error l i = Some z -> nth_error (combine (seq k (length l)) l) i = Some ((k + i)%nat, z)).
      { clear. revert i. induction i as [|i IH]; intros [|x l] k H; cbn in *; try discriminate; [injection H as ->; rewrite Nat.add_0_r; reflexivity|].
        rewrite (IH l (S k) H). do 2 f_equal. lia. }
      apply (Gen zs 0%nat Ez). }
    unfold ds in Ed. rewrite (map_nth_error _ _ _ Hc) in Ed. cbn [fst snd] in Ed. congruence. }
  subst d. unfold guess_dummy. destruct (Z.testbit c (Z.of_nat i)); [|reflexivity]. rewrite Z.mul_mod_idemp_l by lia. replace (h ^ z * ig * g) with (h ^ z * (g * ig)) by ring.
  rewrite <- Z.mul_mod_idemp_r by lia. rewrite Hi, Z.mul_1_r. reflexivity.
Qed.
Print Assumptions C60_guessing.

(** The verifier has no say in the number of repetitions: it accepts a proof with a single one. Here 11 is no power of 4 modulo 15. *)
Lemma no_dlog_15 x : ~ discrete_log 15 4 11 x.
Proof.
  assert (P : forall y, 0 <= y -> 4 ^ y mod 15 = 1 \/ 4 ^ y mod 15 = 4).
  { intros y Hy. pattern y. apply natlike_ind; [left; reflexivity| |exact Hy]. intros k Hk IH. rewrite Z.pow_succ_r by exact Hk. rewrite <- Z.mul_mod_idemp_r by lia.
    destruct IH as [-> | ->]; cbn; tauto. }
  unfold discrete_log. destruct (Z.leb_spec 0 x) as [Hx|Hx].
  - cbn. destruct (P x Hx) as [-> | ->]; discriminate.
  - rewrite <- Z.mul_mod_idemp_r by lia. destruct (P (- x) ltac:(lia)) as [-> | ->]; cbn; discriminate.
Qed.
Theorem C60_minimum_refuted : exists sha512 pf, verify_params sha512 11 4 15 pf = Ok tt /\ gp_reps pf = 1 /\ (forall x, ~ discrete_log 15 4 11 x).
Proof.
  exists (const_hash x00), {| gp_reps := 1; gp_dummy_gs := [4 ^ 2 mod 15]; gp_responses := [2] |}. split; [vm_compute; reflexivity|]. split; [reflexivity|exact no_dlog_15].
Qed.
Print Assumptions C60_minimum_refuted.
(** The same single repetition is refused when the hash function gives the other bit. *)
Example C60_other_bit_ex : verify_params (const_hash x44) 11 4 15 {| gp_reps := 1; gp_dummy_gs := [4 ^ 2 mod 15]; gp_responses := [2] |} = Err InvalidArgument.
Proof. vm_compute. reflexivity. Qed.
(** Two repetitions with the challenge bits 0, 1 guessed right, and guessed wrong. *)
Example C60_guessing_ex :
  verify_params (const_hash x44) 11 4 15 {| gp_reps := 2; gp_dummy_gs := [guess_dummy 11 4 15 11 false 2; guess_dummy 11 4 15 11 true 5]; gp_responses := [2; 5] |} = Ok tt /\
  verify_params (const_hash x44) 11 4 15 {| gp_reps := 2; gp_dummy_gs := [guess_dummy 11 4 15 11 true 2; guess_dummy 11 4 15 11 true 5]; gp_responses := [2; 5] |} = Err InvalidArgument.
Proof. split; vm_compute; reflexivity. Qed.
