(** C74: the proof that a Pedersen generator g is a power of h can be forged, whatever the hash function. *)
From Coq Require Import Znumtheory.
From Verif Require Import Base M_BigNum S_BigNum L_BigNum M_Num L_Num L_Mod L_DJ M_Pedersen S_Pedersen L_Pedersen L_VRF P_Pedersen L_Resplit.

(** The number whose bytes are [l] times [b]. *)
Definition run (b : byte) (l : nat) : Z := of_bytes (repeat b l).

(** The challenge of the repeated one-bit proof hashes the numbers of the first message one after the other without their lengths. A prover who knows logarithms
    for six short runs of one byte (those of lengths 2 and 3 as powers of h, those of lengths 1, 4, 5 and 6 after multiplication by g) hashes one fixed string, namely
    a run twice as long as the number of repetitions, and divides it afterwards so that all challenge bits are answered: accepted for every hash function. *)
Theorem C74_divided_afterwards : forall g h n b z reps, 0 <= g -> 0 <= h -> 0 < n -> Z.gcd h n = 1 -> b <> x00 -> 4 <= reps <= 120000 ->
  (forall l, In l [2; 3]%nat -> 0 <= z l /\ h ^ z l mod n = run b l) ->
  (forall l, In l [1; 4; 5; 6]%nat -> 0 <= z l /\ h ^ z l mod n = (run b l * g) mod n) ->
  exists x, forall sha512, exists pf, gp_reps pf = reps /\ gen_bytes g h n (gp_dummy_gs pf) = Ok x /\ verify_params sha512 g h n pf = Ok tt.
Proof.
  intros g h n b z reps Hg Hh Hn G Hb Hr H0 H1.
  destruct (to_bytes_of g Hg) as (gb & Eg & _). destruct (to_bytes_of h Hh) as (hb & Eh & _). destruct (to_bytes_of n ltac:(lia)) as (nb & En & _).
  exists (gb ++ hb ++ nb ++ repeat b (2 * Z.to_nat reps)). intros sha. set (x := gb ++ hb ++ nb ++ repeat b (2 * Z.to_nat reps)).
  destruct (ro_pow2 sha x reps ltac:(lia)) as (c & Ec & Bc).
  set (bits := map (fun i => Z.testbit c (Z.of_nat i)) (seq 0 (Z.to_nat reps))).
  assert (Lb : length bits = Z.to_nat reps) by (unfold bits; rewrite map_length, seq_length; reflexivity).
  destruct (cut_exists bits ltac:(lia)) as (ls & Hgood & Htot). pose proof (good_length _ _ Hgood) as Ll.
  exists {| gp_reps := reps; gp_dummy_gs := map (run b) ls; gp_responses := map z ls |}. cbn [gp_reps gp_dummy_gs]. split; [reflexivity|].
  assert (Ex : gen_bytes g h n (map (run b) ls) = Ok x).
  { unfold gen_bytes. rewrite Eg, Eh, En. cbn [bind]. unfold run. rewrite (mapM_pieces b ls Hb). cbn [bind]. rewrite concat_repeat, Htot, Lb. reflexivity. }
  split; [exact Ex|]. apply C48_verify_iff. cbn [gp_reps gp_dummy_gs gp_responses]. rewrite !map_length, <- Ll, Lb.
  split; [lia|]. split; [lia|]. split; [lia|]. split; [exact G|]. split; [exact Hn|]. exists x, c. split; [exact Ex|]. split; [exact Ec|].
  intros i d w Ed Ew. destruct (nth_error ls i) as [l|] eqn:El; [|rewrite nth_error_map, El in Ed; discriminate].
  rewrite (map_nth_error _ _ _ El) in Ed. rewrite (map_nth_error _ _ _ El) in Ew. injection Ed as <-. injection Ew as <-.
  assert (Hi : (i < Z.to_nat reps)%nat) by (rewrite <- Lb, Ll; apply nth_error_Some; congruence).
  assert (Ebit : nth_error bits i = Some (Z.testbit c (Z.of_nat i))).
  { unfold bits. rewrite (map_nth_error _ _ (seq 0 (Z.to_nat reps)) (d := i)); [reflexivity|]. rewrite (nth_error_nth' _ 0%nat) by (rewrite seq_length; exact Hi). rewrite seq_nth by exact Hi. reflexivity. }
  pose proof (nth_forall2 _ _ _ Hgood i _ _ Ebit El) as Hp. unfold good_piece in Hp. destruct (Z.testbit c (Z.of_nat i)).
  - apply H1. cbn [In]. intuition auto.
  - apply H0. cbn [In]. intuition auto.
Qed.
Print Assumptions C74_divided_afterwards.

(** Logarithms of the six runs of the byte 10 for h = 4, g = 10 modulo 227 * 2903, a product of two safe primes (227 = 2 * 113 + 1, 2903 = 2 * 1451 + 1). *)
Definition run_log (l : nat) : Z := nth l [0; 49958; 138347; 90501; 62511; 70322; 93173] 0.

Lemma pow_by_exp h e n v : 0 < n -> 0 <= e -> bn_mod_exp h e n = Ok v -> h ^ e mod n = v.
Proof. intros Hn He E. rewrite bn_mod_exp_ok in E by lia. congruence. Qed.
(** 10 is no square modulo 2903, every power of 4 is one. *)
Lemma no_dlog_run x : ~ discrete_log 658981 4 10 x.
Proof.
  assert (E10 : 10 ^ 1451 mod 2903 = 2902) by (apply pow_by_exp; [lia|lia|vm_compute; reflexivity]).
  assert (E4 : 4 ^ 1451 mod 2903 = 1) by (apply pow_by_exp; [lia|lia|vm_compute; reflexivity]).
  assert (P4 : forall y, 0 <= y -> eqmod 2903 ((4 ^ y) ^ 1451) 1).
  { intros y Hy. rewrite <- Z.pow_mul_r, Z.mul_comm, Z.pow_mul_r by lia. replace 1 with (1 ^ y) by (apply Z.pow_1_l; exact Hy). apply eqmod_pow. apply mod_eqmod_iff; [lia|]. rewrite E4. reflexivity. }
  assert (D : forall a b, a mod 658981 = b mod 658981 -> eqmod 2903 a b).
  { intros a b H. apply mod_eqmod_iff in H; [|lia]. destruct H as [k Hk]. exists (k * 227). lia. }
  assert (N10 : eqmod 2903 (10 ^ 1451) 2902) by (apply mod_eqmod_iff; [lia|]; rewrite E10; reflexivity).
  unfold discrete_log. destruct (Z.leb_spec 0 x) as [Hx|Hx]; intros H; apply D in H.
  - assert (Q : eqmod 2903 ((4 ^ x) ^ 1451) (10 ^ 1451)) by (apply eqmod_pow; exact H). rewrite (P4 x Hx), N10 in Q. destruct Q as [k Hk]. lia.
  - assert (Q : eqmod 2903 ((10 * 4 ^ (- x)) ^ 1451) (1 ^ 1451)) by (apply eqmod_pow; exact H). rewrite Z.pow_mul_l, N10, (P4 (- x) ltac:(lia)), Z.pow_1_l in Q by lia. destruct Q as [k Hk]. lia.
Qed.

(** So no number of repetitions protects the verifier: for every hash function there is an accepted proof with that many repetitions that 10 is a power of 4 modulo 658981,
    which it is not. *)
Theorem C74_false_statement_accepted_refuted :
  658981 = (2 * 113 + 1) * (2 * 1451 + 1) /\ (forall x, ~ discrete_log 658981 4 10 x) /\
  forall reps, 4 <= reps <= 120000 -> exists x, forall sha512, exists pf, gp_reps pf = reps /\ gen_bytes 10 4 658981 (gp_dummy_gs pf) = Ok x /\ verify_params sha512 10 4 658981 pf = Ok tt.
Proof.
  split; [reflexivity|]. split; [exact no_dlog_run|]. intros reps Hr. apply (C74_divided_afterwards 10 4 658981 x0a run_log reps); [lia|lia|lia|reflexivity|discriminate|exact Hr| |].
  - intros l Hl. cbn [In] in Hl. decompose [or] Hl; subst; try contradiction; (split; [cbv; discriminate|apply pow_by_exp; [lia|cbv; discriminate|vm_compute; reflexivity]]).
  - intros l Hl. cbn [In] in Hl. decompose [or] Hl; subst; try contradiction; (split; [cbv; discriminate|apply pow_by_exp; [lia|cbv; discriminate|vm_compute; reflexivity]]).
Qed.
Print Assumptions C74_false_statement_accepted_refuted.

(** Eight repetitions: the same sixteen bytes, divided for two hash functions. *)
Example C74_ex :
  let pf ls := {| gp_reps := 8; gp_dummy_gs := map (run x0a) ls; gp_responses := map run_log ls |} in
  gen_bytes 10 4 658981 (map (run x0a) [2; 2; 2; 2; 2; 2; 2; 2]%nat) = gen_bytes 10 4 658981 (map (run x0a) [1; 3; 2; 2; 2; 2; 2; 2]%nat) /\
  verify_params (const_hash x00) 10 4 658981 (pf [2; 2; 2; 2; 2; 2; 2; 2]%nat) = Ok tt /\
  verify_params (const_hash x00) 10 4 658981 (pf [1; 3; 2; 2; 2; 2; 2; 2]%nat) = Err InvalidArgument.
Proof. vm_compute. repeat split; reflexivity. Qed.
