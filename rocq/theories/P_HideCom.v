(** Pedersen commitments hide what they commit to (C66). *)
From Verif Require Import Base M_BigNum M_Num M_Simul M_Proto M_Pedersen S_Exp S_Pedersen S_Hide L_BigNum L_Num L_Mod L_DJ L_Exp L_CS L_PaillierKey L_Pedersen L_Toy L_Hide L_HideCom P_Pedersen.
Require Import Znumtheory.

(** What Commit publishes (the commitment, not its opening) when its random number is drawn as the only draw of [ds]. *)
Definition published (pd : pedersen) (ms : list Z) (ds : list Z) : outcome Z := let* cr := ped_commit pd ms (nth 0 ds 0) in Ok (fst cr).

(** Bases that are powers of h. *)
Definition powers_of (h n : Z) (gs : list Z) : Prop := Forall (fun g => exists a, 0 <= a /\ g = h ^ a mod n) gs.

Lemma multi_exp_power h n gs ms : 0 < n -> powers_of h n gs -> Forall (fun m => 0 <= m) ms -> exists w, 0 <= w /\ eqmod n (multi_exp gs ms) (h ^ w).
Proof.
  intros Hn F. revert ms. induction F as [|g gs (a & Ha & ->) F IH]; intros ms Hm; [exists 0; split; [lia|destruct ms; reflexivity]|].
  destruct Hm as [|m ms Hm0 Hm]; [exists 0; split; [lia|reflexivity]|]. destruct (IH ms Hm) as (w & Hw & E). exists (a * m + w). split; [nia|].
  cbn [multi_exp]. rewrite E, eqmod_mod. rewrite Z.pow_add_r, Z.pow_mul_r by nia. reflexivity.
Qed.
Lemma commitment_power h n gs ms : 0 < n -> powers_of h n gs -> Forall (fun m => 0 <= m) ms -> exists w, 0 <= w /\ forall r, 0 <= r -> commitment gs h n ms r = h ^ (r + w) mod n.
Proof.
  intros Hn F Hm. destruct (multi_exp_power h n gs ms Hn F Hm) as (w & Hw & E). exists w. split; [exact Hw|]. intros r Hr.
  unfold commitment. apply eqmod_eq; [exact Hn|]. rewrite E, Z.pow_add_r by lia. exists 0. ring.
Qed.
Lemma published_commitment pp num pd ms d : created pp num pd -> (length ms <= length (pp_gs pp))%nat -> Forall (fun m => 0 <= m) ms -> 0 <= d < pp_n pp ->
  published pd ms [d] = Ok (commitment (pp_gs pp) (pp_h pp) (pp_n pp) ms d).
Proof.
  intros Hc Hl Hm Hd. destruct (created_ok _ _ _ Hc) as [Ep _]. unfold published, ped_commit. cbn [nth]. rewrite Ep, rand_ok, Z.mod_small by lia. cbn [bind].
  destruct (C47_commit_value pp num pd ms d Hc) as [V _]. rewrite V by (split; [assumption|split; [assumption|lia]]). reflexivity.
Qed.

(** If the bases are powers of h and h^E = 1 (mod n), commitments to any two vectors are distributed alike, up to the n mod E draws that do not fill a
    whole period: whatever test is applied to the commitment, the numbers of draws for which it succeeds differ by at most n - kE, for every kE <= n. *)
Theorem C66_common_subgroup_hides : forall pp num pd ms1 ms2 E k, created pp num pd -> powers_of (pp_h pp) (pp_n pp) (pp_gs pp) ->
  0 < E -> 0 <= k -> k * E <= pp_n pp -> pp_h pp ^ E mod pp_n pp = 1 ->
  (length ms1 <= length (pp_gs pp))%nat -> Forall (fun m => 0 <= m) ms1 -> (length ms2 <= length (pp_gs pp))%nat -> Forall (fun m => 0 <= m) ms2 ->
  forall test : outcome Z -> bool,
    Z.abs (count [pp_n pp] (fun ds => test (published pd ms1 ds)) - count [pp_n pp] (fun ds => test (published pd ms2 ds))) <= pp_n pp - k * E.
Proof.
  intros pp num pd ms1 ms2 E k Hc Hg HE Hk Hle HhE L1 M1 L2 M2 test. pose proof Hc as (Hn & _ & _).
  destruct (commitment_power (pp_h pp) (pp_n pp) (pp_gs pp) ms1 ltac:(lia) Hg M1) as (w1 & W1 & C1).
  destruct (commitment_power (pp_h pp) (pp_n pp) (pp_gs pp) ms2 ltac:(lia) Hg M2) as (w2 & W2 & C2).
  assert (R : forall ms w, (length ms <= length (pp_gs pp))%nat -> Forall (fun m => 0 <= m) ms -> (forall r, 0 <= r -> commitment (pp_gs pp) (pp_h pp) (pp_n pp) ms r = pp_h pp ^ (r + w) mod pp_n pp) ->
    count [pp_n pp] (fun ds => test (published pd ms ds)) = count [pp_n pp] (fun ds => test (Ok (pp_h pp ^ (nth 0 ds 0 + w) mod pp_n pp)))).
  { intros ms w L M H. apply count_ext. intros ds Ld F. destruct ds as [|d [|? ?]]; try discriminate. inversion F; subst.
    rewrite (published_commitment pp num) by assumption. rewrite H by lia. reflexivity. }
  rewrite (R ms1 w1 L1 M1 C1), (R ms2 w2 L2 M2 C2).
  pose proof (two_draws_close (fun d => Ok (pp_h pp ^ d mod pp_n pp)) E k (pp_n pp - k * E) w1 w2 test Hk HE ltac:(lia) W1 W2) as P. cbn beta in P.
  replace (k * E + (pp_n pp - k * E)) with (pp_n pp) in P by lia. apply P.
  intros d Hd. f_equal. apply eqmod_eq; [lia|]. rewrite Z.pow_add_r by lia. assert (H1 : eqmod (pp_n pp) (pp_h pp ^ E) 1) by (apply mod_eqmod_iff; [lia|rewrite HhE, Z.mod_small by lia; reflexivity]).
  rewrite H1. exists 0. ring.
Qed.
Print Assumptions C66_common_subgroup_hides.

(** The parameters GenerateParameters makes are of this kind when the modulus is a product of two safe primes 2p'+1 and 2q'+1.  Of the n possible draws,
    at most 2(p' + q') + 1 (about n^(1/2)) can make a difference between the commitments to two vectors. *)
Lemma generated_powers p' q' xraws raws pp rs : prime p' -> prime q' -> prime (2 * p' + 1) -> prime (2 * q' + 1) -> p' <> q' ->
  generate_parameters ((2 * p' + 1) * (2 * q' + 1)) xraws raws = Ok (pp, rs) ->
  pp_n pp = (2 * p' + 1) * (2 * q' + 1) /\ powers_of (pp_h pp) (pp_n pp) (pp_gs pp) /\ pp_h pp ^ (p' * q') mod pp_n pp = 1.
Proof.
  intros Pp Pq P Q Hne E. set (n := (2 * p' + 1) * (2 * q' + 1)) in *. pose proof (prime_ge_2 _ Pp). pose proof (prime_ge_2 _ Pq).
  assert (Hn : 4 <= n) by (unfold n; nia). unfold generate_parameters in E.
  apply bind_ok in E. destruct E as (x & Ex & E). destruct (relprime_draw xraws n x ltac:(lia) Ex) as [Bx Gx].
  unfold bn_mod_sqr in E. rewrite bn_mod_ok in E by lia. cbn [bind] in E.
  assert (Gh : Z.gcd ((x * x) mod n) n = 1).
  { rewrite Z.gcd_mod by lia. rewrite Z.gcd_comm. replace (x * x) with (x ^ 2) by lia. apply gcd_pow_l; [lia|exact Gx]. }
  destruct (gen_gs_spec ((x * x) mod n) n raws Hn Gh) as (gs & rs' & Eg & L & F). rewrite Eg in E. cbn [bind fst snd] in E.
  assert (Epp : pp = {| pp_gs := gs; pp_h := (x * x) mod n; pp_n := n |}) by congruence. subst pp. cbn [pp_n pp_h pp_gs]. split; [reflexivity|]. split.
  - clear - F. unfold powers_of. induction F as [|g r gs rs [Hr Hg] F IH]; constructor; [exists r; split; [lia|exact Hg]|exact IH].
  - rewrite <- (Z.mod_small 1 n) by lia. apply eqmod_eq; [lia|]. rewrite eqmod_mod. apply square_exponent; assumption.
Qed.
Theorem C66_generated_parameters_hide : forall p' q' xraws raws pp rs num pd ms1 ms2,
  prime p' -> prime q' -> prime (2 * p' + 1) -> prime (2 * q' + 1) -> p' <> q' ->
  let n := (2 * p' + 1) * (2 * q' + 1) in
  generate_parameters n xraws raws = Ok (pp, rs) -> created pp num pd ->
  (length ms1 <= length (pp_gs pp))%nat -> Forall (fun m => 0 <= m) ms1 -> (length ms2 <= length (pp_gs pp))%nat -> Forall (fun m => 0 <= m) ms2 ->
  forall test : outcome Z -> bool,
    Z.abs (count [n] (fun ds => test (published pd ms1 ds)) - count [n] (fun ds => test (published pd ms2 ds))) <= 2 * (p' + q') + 1.
Proof.
  intros p' q' xraws raws pp rs num pd ms1 ms2 Pp Pq P Q Hne n E Hc L1 M1 L2 M2 test.
  destruct (generated_powers p' q' xraws raws pp rs Pp Pq P Q Hne E) as (En & Hg & Hh). fold n in En. pose proof (prime_ge_2 _ Pp). pose proof (prime_ge_2 _ Pq).
  assert (Hn4 : n = 4 * (p' * q') + (2 * (p' + q') + 1)) by (unfold n; ring).
  pose proof (C66_common_subgroup_hides pp num pd ms1 ms2 (p' * q') 4 Hc Hg ltac:(nia) ltac:(lia) ltac:(rewrite En, Hn4; lia) Hh L1 M1 L2 M2 test) as D.
  rewrite En in D. lia.
Qed.
Print Assumptions C66_generated_parameters_hide.

(** In particular a commitment says nothing for certain: each one can be opened as a commitment to any other vector, with some opening below p'q' < n. *)
Theorem C66_every_commitment_opens_to_everything : forall p' q' xraws raws pp rs num pd ms1 r1 c ms2,
  prime p' -> prime q' -> prime (2 * p' + 1) -> prime (2 * q' + 1) -> p' <> q' ->
  generate_parameters ((2 * p' + 1) * (2 * q' + 1)) xraws raws = Ok (pp, rs) -> created pp num pd ->
  ped_commit_with_rand pd ms1 r1 = Ok c -> (length ms2 <= length (pp_gs pp))%nat -> Forall (fun m => 0 <= m) ms2 ->
  exists r2, 0 <= r2 < p' * q' /\ ped_verify pd c ms2 r2 = Ok true.
Proof.
  intros p' q' xraws raws pp rs num pd ms1 r1 c ms2 Pp Pq P Q Hne E Hc Ec L2 M2.
  destruct (generated_powers p' q' xraws raws pp rs Pp Pq P Q Hne E) as (En & Hg & Hh). pose proof (prime_ge_2 _ Pp). pose proof (prime_ge_2 _ Pq).
  pose proof Hc as (Hn & _ & _). assert (HE : 0 < p' * q') by nia. clear E.
  assert (Hl1 : (length ms1 <= length (pp_gs pp))%nat /\ Forall (fun m => 0 <= m) ms1 /\ 0 <= r1).
  { destruct (C47_commit_value pp num pd ms1 r1 Hc) as [_ B].
    assert (D : forall A : Prop, (~ A -> ped_commit_with_rand pd ms1 r1 = Err InvalidArgument) -> ~ ~ A) by (intros A HA HnA; rewrite (HA HnA) in Ec; discriminate).
    apply D in B. split; [|split].
    - destruct (le_dec (length ms1) (length (pp_gs pp))); [assumption|]. exfalso. apply B. tauto.
    - pose proof (forallb_nonneg ms1) as FB. destruct (forallb is_non_negative ms1); [apply FB; reflexivity|]. exfalso. apply B. intros (_ & X & _). apply FB in X. discriminate.
    - destruct (Z_le_dec 0 r1); [assumption|]. exfalso. apply B. tauto. }
  destruct (C47_commit_value pp num pd ms1 r1 Hc) as [V _]. rewrite (V Hl1) in Ec. destruct Hl1 as (L1 & M1 & R1).
  destruct (commitment_power (pp_h pp) (pp_n pp) (pp_gs pp) ms1 ltac:(lia) Hg M1) as (w1 & W1 & C1).
  destruct (commitment_power (pp_h pp) (pp_n pp) (pp_gs pp) ms2 ltac:(lia) Hg M2) as (w2 & W2 & C2).
  set (E := p' * q') in *. exists ((r1 + w1 - w2) mod E). assert (B : 0 <= (r1 + w1 - w2) mod E < E) by (apply Z.mod_pos_bound; exact HE). split; [exact B|].
  apply (C47_commit_verifies pp num); [exact Hc|]. destruct (C47_commit_value pp num pd ms2 ((r1 + w1 - w2) mod E) Hc) as [V2 _]. rewrite V2 by (split; [assumption|split; [assumption|lia]]).
  rewrite <- Ec. f_equal. rewrite C1, C2 by lia.
  assert (H1 : eqmod (pp_n pp) (pp_h pp ^ E) 1) by (apply mod_eqmod_iff; [lia|rewrite Hh, Z.mod_small by lia; reflexivity]).
  assert (Per : forall x, 0 <= x -> eqmod (pp_n pp) (pp_h pp ^ x) (pp_h pp ^ (x mod E))).
  { intros x Hx. pose proof (Z.div_mod x E ltac:(lia)) as D. pose proof (Z.mod_pos_bound x E HE). pose proof (Z.div_pos x E Hx HE).
    rewrite D at 1. rewrite Z.pow_add_r, Z.pow_mul_r by nia. rewrite H1, Z.pow_1_l by lia. exists 0. ring. }
  apply eqmod_eq; [lia|]. rewrite (Per ((r1 + w1 - w2) mod E + w2)), (Per (r1 + w1)) by lia.
  rewrite Zplus_mod_idemp_l. replace (r1 + w1 - w2 + w2) with (r1 + w1) by lia. reflexivity.
Qed.
Print Assumptions C66_every_commitment_opens_to_everything.

(** Parameters received from somebody else are only checked to be units (C52_pedersen_parameters_checked).  That does not make commitments hide: there are
    accepted parameters with which a test on the commitment to (1) succeeds for all draws and on the commitment to (2) for none. *)
Theorem C66_received_parameters_refuted : exists p pp pd n, ped_parse p = Ok pp /\ ped_from_proto p 2 = Ok pd /\ created pp 2 pd /\ pp_n pp = n /\ 1 < n /\
  exists test : outcome Z -> bool, count [n] (fun ds => test (published pd [1] ds)) = n /\ count [n] (fun ds => test (published pd [2] ds)) = 0.
Proof.
  set (pp := {| pp_gs := [4]; pp_h := 1; pp_n := 15 |}).
  destruct (C47_create pp 2 ltac:(cbn; lia)) as [[pd Hc] _]; [lia|cbn; lia|].
  destruct (C52_pedersen_parameters_roundtrip pp) as (p & E1 & E2).
  { unfold valid_params. cbn [pp_n pp_gs pp_h pp]. repeat (split || constructor); try lia; reflexivity. }
  exists p, pp, pd, 15. split; [exact E2|]. split; [unfold ped_from_proto; rewrite E2; apply Hc|]. split; [exact Hc|]. split; [reflexivity|]. split; [lia|].
  pose (t4 := fun o : outcome Z => match o with Ok 4 => true | _ => false end). exists t4.
  assert (R : forall ms (t : outcome Z -> bool) (b : bool), (length ms <= 1)%nat -> Forall (fun m => 0 <= m) ms -> (forall d, 0 <= d < 15 -> t (Ok (commitment [4] 1 15 ms d)) = b) ->
    count [15] (fun ds => t (published pd ms ds)) = count [15] (fun _ => b)).
  { intros ms t b L M H. apply count_ext. intros ds Ld F. destruct ds as [|d [|? ?]]; try discriminate. inversion F; subst.
    rewrite (published_commitment pp 2) by assumption. apply H. assumption. }
  assert (H1 : forall m d, 0 <= d -> commitment [4] 1 15 [m] d = 4 ^ m mod 15).
  { intros m d Hd. unfold commitment. cbn [multi_exp]. rewrite Z.pow_1_l by exact Hd. f_equal. ring. }
  split.
  - rewrite (R [1] t4 true); [reflexivity|cbn; lia|repeat constructor; lia|]. intros d Hd. rewrite H1 by lia. reflexivity.
  - rewrite (R [2] t4 false); [reflexivity|cbn; lia|repeat constructor; lia|]. intros d Hd. rewrite H1 by lia. reflexivity.
Qed.
Print Assumptions C66_received_parameters_refuted.

(** A case that meets the hypotheses: p' = 3, q' = 5, n = 77, h = 9, one base h^7.  Of the 77 draws, the commitments to (3) and to (200) exceed 38 for 31 and 32. *)
Example C66_ex : prime 3 /\ prime 5 /\ prime (2 * 3 + 1) /\ prime (2 * 5 + 1) /\
  match generate_parameters 77 [3] [7] with
  | Ok (pp, _) => pp_n pp = 77 /\ pp_h pp = 9 /\ match ped_create pp 2 with
     | Ok pd => count [77] (fun ds => match published pd [3] ds with Ok c => 38 <? c | _ => false end) = 31 /\
                count [77] (fun ds => match published pd [200] ds with Ok c => 38 <? c | _ => false end) = 32
     | _ => False end
  | _ => False end.
Proof.
  split; [apply prime_check; [lia|vm_compute; reflexivity]|]. split; [apply prime_check; [lia|vm_compute; reflexivity]|].
  split; [apply prime_check; [lia|vm_compute; reflexivity]|]. split; [apply prime_check; [lia|vm_compute; reflexivity]|].
  vm_compute. repeat split.
Qed.
