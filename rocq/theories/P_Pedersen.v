(** Theorems on Pedersen commitments (C47) and on the proofs that their parameters were generated correctly (C48). *)
From Verif Require Import Base M_BigNum M_Num M_Simul M_Proto M_Pedersen S_Exp S_Pedersen L_BigNum L_Num L_Mod L_DJ L_Exp L_CS L_PaillierKey L_Protocol L_Toy L_NT L_Pedersen.
Require Import Znumtheory Zpow_facts.

(** Entry condition of the theorems: the object was created, with a modulus above 1 and a batch size that does not shift out of an int. *)
Definition created (pp : ped_params) (num : nat) (pd : pedersen) : Prop :=
  1 < pp_n pp /\ ((length (pp_gs pp) <= 29)%nat \/ (num <= 30)%nat) /\ ped_create pp num = Ok pd.

Lemma created_ok pp num pd : created pp num pd -> pd_par pd = pp /\ ped_ok pd.
Proof. intros (Hn & Hb & E). apply (ped_create_inv pp num); assumption. Qed.

(** Creation succeeds for every positive number of simultaneous exponentiations up to 30 and aborts for zero. *)
Theorem C47_create : forall pp num, 1 < pp_n pp ->
  ((1 <= num)%nat -> (Nat.min (S (length (pp_gs pp))) num <= 30)%nat -> exists pd, created pp num pd) /\
  (num = 0%nat -> ped_create pp num = Crash).
Proof.
  intros pp num Hn. split.
  - intros H1 H30. destruct (ped_create_ok pp num Hn H1 H30) as (pd & E & _ & _). exists pd. split; [exact Hn|]. split; [|exact E]. lia.
  - intros ->. unfold ped_create. rewrite Nat.min_0_r. reflexivity.
Qed.
Print Assumptions C47_create.

(** CommitWithRand computes prod g_i^m_i h^r mod n on every legal input and refuses the others. *)
Theorem C47_commit_value : forall pp num pd ms r, created pp num pd ->
  ((length ms <= length (pp_gs pp))%nat /\ Forall (fun m => 0 <= m) ms /\ 0 <= r ->
     ped_commit_with_rand pd ms r = Ok (commitment (pp_gs pp) (pp_h pp) (pp_n pp) ms r)) /\
  (~ ((length ms <= length (pp_gs pp))%nat /\ Forall (fun m => 0 <= m) ms /\ 0 <= r) ->
     ped_commit_with_rand pd ms r = Err InvalidArgument).
Proof.
  intros pp num pd ms r Hc. destruct (created_ok _ _ _ Hc) as [<- O']. unfold ped_commit_with_rand.
  match goal with |- context [simultaneous_exp ?A ?f ?z ?t ?es] => destruct (guards pd ms r (simultaneous_exp A f z t es)) as [[Hl E]|[Hl E]] end;
    rewrite E; unfold legal in Hl; (split; [intros H|intros H]); try tauto.
  apply ped_product; tauto.
Qed.
Print Assumptions C47_commit_value.

(** A commitment always verifies with its own opening. *)
Theorem C47_commit_verifies : forall pp num pd ms c r, created pp num pd ->
  ped_commit_with_rand pd ms r = Ok c -> ped_verify pd c ms r = Ok true.
Proof.
  intros pp num pd ms c r Hc E. destruct (created_ok _ _ _ Hc) as [<- O']. unfold ped_commit_with_rand in E. unfold ped_verify.
  match goal with |- context [bind ?x ?k] => destruct (guards pd ms r (bind x k)) as [[Hl Eg]|[Hl Eg]] end; rewrite Eg.
  - match type of E with context [simultaneous_exp ?A ?f ?z ?t ?es] => destruct (guards pd ms r (simultaneous_exp A f z t es)) as [[_ E2]|[Hl2 _]]; [|contradiction]; rewrite E2 in E; rewrite E end.
    cbn [bind]. rewrite Z.eqb_refl. reflexivity.
  - match type of E with context [simultaneous_exp ?A ?f ?z ?t ?es] => destruct (guards pd ms r (simultaneous_exp A f z t es)) as [[Hl2 _]|[_ E2]]; [contradiction|]; rewrite E2 in E; discriminate end.
Qed.
Print Assumptions C47_commit_verifies.

(** Commit draws randomness below n and succeeds on every legal vector; the result verifies. *)
Theorem C47_random_commit : forall pp num pd ms raw, created pp num pd ->
  (length ms <= length (pp_gs pp))%nat -> Forall (fun m => 0 <= m) ms ->
  exists c r, ped_commit pd ms raw = Ok (c, r) /\ 0 <= r < pp_n pp /\ ped_verify pd c ms r = Ok true.
Proof.
  intros pp num pd ms raw Hc Hl Hm. pose proof Hc as (Hn & _ & _). destruct (created_ok _ _ _ Hc) as [Ep O'].
  assert (B : 0 <= raw mod pp_n pp < pp_n pp) by (apply Z.mod_pos_bound; lia).
  destruct (C47_commit_value pp num pd ms (raw mod pp_n pp) Hc) as [V _]. specialize (V ltac:(repeat split; (assumption || lia))).
  eexists. exists (raw mod pp_n pp). split; [|split; [exact B|apply (C47_commit_verifies pp num); [exact Hc|exact V]]].
  unfold ped_commit. rewrite Ep, rand_ok by lia. cbn [bind]. rewrite V. reflexivity.
Qed.
Print Assumptions C47_random_commit.

(** Verify accepts exactly the openings whose commitment equals the given one, and never fails on a legal opening. *)
Theorem C47_verify_iff : forall pp num pd c ms r, created pp num pd ->
  (length ms <= length (pp_gs pp))%nat /\ Forall (fun m => 0 <= m) ms /\ 0 <= r ->
  exists b, ped_verify pd c ms r = Ok b /\ (b = true <-> c = commitment (pp_gs pp) (pp_h pp) (pp_n pp) ms r).
Proof.
  intros pp num pd c ms r Hc Hl. destruct (created_ok _ _ _ Hc) as [<- O']. unfold ped_verify.
  match goal with |- context [bind ?x ?k] => destruct (guards pd ms r (bind x k)) as [[_ Eg]|[Hl2 _]]; [|unfold legal in Hl2; tauto] end. rewrite Eg.
  rewrite ped_product by tauto. cbn [bind]. eexists. split; [reflexivity|]. apply Z.eqb_eq.
Qed.
Print Assumptions C47_verify_iff.

(** Illegal openings are refused. *)
Theorem C47_verify_refuses : forall pp num pd c ms r, created pp num pd ->
  ~ ((length ms <= length (pp_gs pp))%nat /\ Forall (fun m => 0 <= m) ms /\ 0 <= r) -> ped_verify pd c ms r = Err InvalidArgument.
Proof.
  intros pp num pd c ms r Hc Hl. destruct (created_ok _ _ _ Hc) as [<- O']. unfold ped_verify.
  match goal with |- context [bind ?x ?k] => destruct (guards pd ms r (bind x k)) as [[Hl2 _]|[_ Eg]]; [unfold legal in Hl2; tauto|exact Eg] end.
Qed.
Print Assumptions C47_verify_refuses.

(** Running an arbitrary combination of Add and Multiply on commitments. *)
Fixpoint run_commitments (pd : pedersen) (e : cexp) : outcome Z :=
  match e with
  | CLeaf ms r => ped_commit_with_rand pd ms r
  | CAdd a b => let* x := run_commitments pd a in let* y := run_commitments pd b in ped_add pd x y
  | CMul a k => let* x := run_commitments pd a in ped_multiply pd x k
  end.

(** Any combination of commitments is the commitment to the same combination of the vectors, opened by the same combination of the randomness. *)
Theorem C47_homomorphism : forall pp num pd e, created pp num pd -> admissible (length (pp_gs pp)) e ->
  exists c, run_commitments pd e = Ok c /\ ped_commit_with_rand pd (messages e) (opening e) = Ok c /\
    ped_verify pd c (messages e) (opening e) = Ok true.
Proof.
  intros pp num pd e Hc Ha.
  assert (G : run_commitments pd e = Ok (commitment (pp_gs pp) (pp_h pp) (pp_n pp) (messages e) (opening e))).
  { pose proof Hc as (Hn & _ & _). destruct (created_ok _ _ _ Hc) as [Ep O'].
    induction e as [ms r|a IHa b IHb|a IHa k]; cbn [admissible run_commitments messages opening] in *.
    - apply (C47_commit_value pp num pd ms r Hc). exact Ha.
    - destruct Ha as [Ha Hb]. rewrite IHa, IHb by assumption. cbn [bind]. unfold ped_add. rewrite Ep, bn_mod_mul_ok by lia. f_equal. unfold commitment.
      destruct (admissible_plain _ _ Ha) as (_ & A2 & A3), (admissible_plain _ _ Hb) as (_ & B2 & B3).
      rewrite multi_exp_vadd by assumption. rewrite Z.pow_add_r by assumption. apply eqmod_eq; [lia|]. rewrite !eqmod_mod. apply eq_eqmod. f_equal. lia.
    - destruct Ha as [Ha Hk]. rewrite IHa by assumption. cbn [bind]. unfold ped_multiply. rewrite Ep, bn_mod_exp_ok by lia. f_equal. unfold commitment.
      destruct (admissible_plain _ _ Ha) as (_ & A2 & A3). rewrite multi_exp_vscale by assumption.
      apply eqmod_eq; [lia|]. rewrite eqmod_mod. apply eq_eqmod. f_equal. rewrite Z.pow_mul_l. f_equal. rewrite <- Z.pow_mul_r by assumption. f_equal. lia. }
  eexists. split; [exact G|]. assert (V : ped_commit_with_rand pd (messages e) (opening e) = Ok (commitment (pp_gs pp) (pp_h pp) (pp_n pp) (messages e) (opening e))).
  { apply (C47_commit_value pp num pd _ _ Hc). apply admissible_plain. exact Ha. }
  split; [exact V|]. apply (C47_commit_verifies pp num); assumption.
Qed.
Print Assumptions C47_homomorphism.

(** Multiplying by a negative scalar aborts the program. *)
Theorem C47_negative_scalar_aborts : forall pd c k, k < 0 -> ped_multiply pd c k = Crash.
Proof. intros pd c k H. unfold ped_multiply, bn_mod_exp. destruct (Z.ltb_spec k 0); [reflexivity|lia]. Qed.
Print Assumptions C47_negative_scalar_aborts.

(** Non-trivial instance: n = 23 * 47, h a square, two bases. *)
Definition ex_pp : ped_params := {| pp_gs := [9; 100]; pp_h := 4; pp_n := 1081 |}.
Lemma ex_pp_created : exists pd, created ex_pp 2 pd.
Proof. apply (C47_create ex_pp 2); cbn; lia. Qed.
Definition ex_cexp := CAdd (CMul (CLeaf [3; 5] 7) 2) (CLeaf [11] 13).
Example C47_ex : match ped_create ex_pp 2 with
  | Ok pd => run_commitments pd ex_cexp = Ok 1 -> False
  | _ => False end /\ admissible (length (pp_gs ex_pp)) ex_cexp /\ messages ex_cexp = [17; 10] /\ opening ex_cexp = 27.
Proof. split; [vm_compute; discriminate|]. split; [cbn; repeat (constructor || lia)|]. split; reflexivity. Qed.
Example C47_ex_value : match ped_create ex_pp 2 with
  | Ok pd => match run_commitments pd ex_cexp, ped_commit_with_rand pd [17; 10] 27 with Ok a, Ok b => a = b /\ ped_verify pd a [17; 11] 27 = Ok false | _, _ => False end
  | _ => False end.
Proof. vm_compute. split; reflexivity. Qed.

(** ** Proofs of correct generation *)

(** An honestly made proof is produced and verifies: all generators, exponents, numbers of repetitions up to 120000 and all randomness. *)
Theorem C48_honest_proof_verifies : forall sha512 g h n r reps zk raw,
  1 < n -> 0 <= h -> Z.gcd h n = 1 -> 0 <= r -> g = h ^ r mod n -> 0 < reps <= 120000 -> 0 < zk ->
  exists pf, prove_params sha512 g h n r reps zk raw = Ok pf /\ verify_params sha512 g h n pf = Ok tt.
Proof.
  intros sha g h n r reps zk raw Hn Hh G Hr Hg Hreps Hzk.
  unfold prove_params. destruct (Z.leb_spec reps 0); [lia|]. destruct (Z.leb_spec zk 0); [lia|]. unfold bn_gcd. rewrite G. cbn [Z.eqb Pos.eqb negb].
  rewrite bn_mod_exp_ok by lia. cbn [bind]. rewrite <- Hg, Z.eqb_refl. cbn [negb].
  set (raws := map raw (seq 0 (Z.to_nat reps))). assert (Lr : length raws = Z.to_nat reps) by (unfold raws; rewrite map_length, seq_length; reflexivity).
  rewrite gen_dummies_ok by lia. cbn [bind fst snd]. set (B := n * 2 ^ (1 + zk)).
  assert (0 < B) by (unfold B; pose proof (Z.pow_pos_nonneg 2 (1 + zk)); nia).
  set (ds := map (fun raw => h ^ (raw mod B) mod n) raws).
  assert (Hds : Forall (fun d => 0 <= d) ds).
  { apply Forall_forall. intros d Hd. unfold ds in Hd. apply in_map_iff in Hd. destruct Hd as (x & <- & _). apply Z.mod_pos_bound. lia. }
  assert (Hg0 : 0 <= g) by (rewrite Hg; apply Z.mod_pos_bound; lia).
  destruct (gen_bytes_ok g h n ds Hg0 Hh ltac:(lia) Hds) as (b & Eb).
  assert (exists c, random_oracle 512 sha b (2 ^ reps) = Ok c) as (c & Ec).
  { assert (P2 : 0 < 2 ^ reps) by (apply Z.pow_pos_nonneg; lia). destruct (random_oracle_total 512 sha b (2 ^ reps) ltac:(lia) P2) as [T _].
    match type of T with ?P -> _ => assert (Hp : P) end.
    { unfold bit_length. rewrite Z.abs_eq by lia. destruct (Z.eqb_spec (2 ^ reps) 0); [lia|]. rewrite Z.log2_pow2 by lia.
      unfold ro_iterations. Z.to_euclidean_division_equations. lia. }
    destruct (T Hp) as (c & Ec & _). exists c. exact Ec. }
  rewrite (gen_challenge_ok sha g h n ds reps b c) by (assumption || lia). cbn [bind].
  eexists. split; [reflexivity|].
  unfold verify_params. cbn [gp_reps gp_dummy_gs gp_responses]. destruct (Z.leb_spec reps 0); [lia|].
  set (cs := map (fun i => Z.testbit c (Z.of_nat i)) (seq 0 (Z.to_nat reps))). assert (Lc : length cs = Z.to_nat reps) by (unfold cs; rewrite map_length, seq_length; reflexivity).
  assert (Ld : length ds = Z.to_nat reps) by (unfold ds; rewrite map_length; exact Lr).
  rewrite Ld, Z2Nat.id, Z.eqb_refl by lia. cbn [negb].
  rewrite map_length, combine_length, map_length, Lr, Lc, Nat.min_id, Z2Nat.id, Z.eqb_refl by lia. cbn [negb].
  unfold bn_gcd. rewrite G. cbn [Z.eqb Pos.eqb negb]. rewrite (gen_challenge_ok sha g h n ds reps b c) by (assumption || lia). cbn [bind]. fold cs.
  apply check_responses_iff; [lia|rewrite map_length, combine_length, map_length, Lr, Lc; lia|].
  intros i Hi. rewrite Lc in Hi. rewrite (nth_combine_map _ _ _ _ false 0) by (rewrite ?map_length; lia). cbn [fst snd].
  unfold ds. rewrite (nth_map _ raws i 0) by lia. rewrite (nth_map (fun raw0 => raw0 mod B) raws i 0) by lia.
  set (x := nth i raws 0 mod B). assert (0 <= x < B) by (apply Z.mod_pos_bound; assumption).
  split; [lia|]. destruct (nth i cs false); (split; [lia|]); [|reflexivity].
  rewrite Hg. rewrite Z.pow_add_r by lia. rewrite <- Z.mul_mod by lia. reflexivity.
Qed.
Print Assumptions C48_honest_proof_verifies.

(** Verification accepts exactly the proofs all of whose repetitions satisfy their equation, for the challenge bits given by the hash. *)
Theorem C48_verify_iff : forall sha512 g h n pf,
  verify_params sha512 g h n pf = Ok tt <->
  0 < gp_reps pf /\ Z.of_nat (length (gp_dummy_gs pf)) = gp_reps pf /\ Z.of_nat (length (gp_responses pf)) = gp_reps pf /\
  Z.gcd h n = 1 /\ 0 < n /\
  exists b c, gen_bytes g h n (gp_dummy_gs pf) = Ok b /\ random_oracle 512 sha512 b (2 ^ gp_reps pf) = Ok c /\
    forall i d z, nth_error (gp_dummy_gs pf) i = Some d -> nth_error (gp_responses pf) i = Some z ->
      0 <= z /\ h ^ z mod n = (if Z.testbit c (Z.of_nat i) then (d * g) mod n else d).
Proof.
  intros sha g h n pf. unfold verify_params. set (R := gp_reps pf).
  destruct (Z.leb_spec R 0); [split; [discriminate|lia]|].
  destruct (Z.eqb_spec (Z.of_nat (length (gp_dummy_gs pf))) R) as [L1|]; [|split; [discriminate|lia]]. cbn [negb].
  destruct (Z.eqb_spec (Z.of_nat (length (gp_responses pf))) R) as [L2|]; [|split; [discriminate|lia]]. cbn [negb].
  unfold bn_gcd. destruct (Z.eqb_spec (Z.gcd h n) 1) as [G|]; [|split; [discriminate|tauto]]. cbn [negb].
  split.
  - intros E. destruct (gen_challenge sha g h n (gp_dummy_gs pf) R) as [cs|?| | |] eqn:Ec; try discriminate. cbn [bind] in E.
    apply gen_challenge_inv in Ec; [|lia]. destruct Ec as (b & c & Eb & Er & Hc & ->).
    match type of E with check_responses _ _ _ ?cs ?ds ?zs = _ => assert (LL : length cs = length ds /\ length cs = length zs) by (rewrite map_length, seq_length; lia); destruct LL as [LL1 LL2]; pose proof (proj1 (check_responses_iff g h n cs ds zs LL1 LL2) E) as E0 end. clear E. rename E0 into E. rewrite map_length, seq_length in E.
    split; [lia|]. split; [lia|]. split; [lia|]. split; [exact G|]. split; [apply (E 0%nat); lia|]. exists b, c. split; [exact Eb|]. split; [exact Er|].
    intros i d z Ed Ez. assert (Hi : (i < Z.to_nat R)%nat) by (assert (i < length (gp_dummy_gs pf))%nat by (apply nth_error_Some; congruence); lia).
    specialize (E i Hi). rewrite (nth_map _ _ _ 0%nat) in E by (rewrite seq_length; exact Hi). rewrite seq_nth in E by exact Hi.
    rewrite (nth_error_nth _ _ 0 Ed), (nth_error_nth _ _ 0 Ez) in E. destruct E as (_ & E). exact E.
  - intros (_ & _ & _ & _ & Hn & b & c & Eb & Er & H1). rewrite (gen_challenge_ok sha g h n _ R b c) by (assumption || lia). cbn [bind].
    apply check_responses_iff; try (rewrite map_length, seq_length; lia). rewrite map_length, seq_length. intros i Hi.
    rewrite (nth_map _ _ _ 0%nat) by (rewrite seq_length; exact Hi). rewrite seq_nth by exact Hi.
    split; [exact Hn|]. apply H1; apply nth_error_nth'; lia.
Qed.
Print Assumptions C48_verify_iff.

(** Two accepting proofs with the same first message whose challenges, given by two hash functions, differ at some repetition
    yield a discrete logarithm of g: the difference of the two responses there. *)
Theorem C48_special_soundness : forall H1 H2 g h n pf1 pf2 b c1 c2,
  gp_reps pf1 = gp_reps pf2 -> gp_dummy_gs pf1 = gp_dummy_gs pf2 ->
  verify_params H1 g h n pf1 = Ok tt -> verify_params H2 g h n pf2 = Ok tt ->
  gen_bytes g h n (gp_dummy_gs pf1) = Ok b ->
  random_oracle 512 H1 b (2 ^ gp_reps pf1) = Ok c1 -> random_oracle 512 H2 b (2 ^ gp_reps pf1) = Ok c2 -> c1 <> c2 ->
  exists i z1 z2, nth_error (gp_responses pf1) i = Some z1 /\ nth_error (gp_responses pf2) i = Some z2 /\
    (discrete_log n h g (z1 - z2) \/ discrete_log n h g (z2 - z1)).
Proof.
  intros H1 H2 g h n pf1 pf2 b c1 c2 ER ED V1 V2 Eb E1 E2 Hne.
  apply C48_verify_iff in V1. apply C48_verify_iff in V2. rewrite <- ER, <- ED in V2.
  destruct V1 as (R & LD1 & LR1 & G & Hn & b1 & k1 & B1 & K1 & F1). destruct V2 as (_ & _ & LR2 & _ & _ & b2 & k2 & B2 & K2 & F2).
  assert (b1 = b) by congruence. assert (b2 = b) by congruence. subst b1 b2. assert (k1 = c1) by congruence. assert (k2 = c2) by congruence. subst k1 k2.
  set (Rn := gp_reps pf1) in *. assert (P2 : 0 < 2 ^ Rn) by (apply Z.pow_pos_nonneg; lia).
  assert (Hc1 : 0 <= c1 < 2 ^ Rn) by (apply (random_oracle_range 512 H1 b); (lia || assumption)).
  assert (Hc2 : 0 <= c2 < 2 ^ Rn) by (apply (random_oracle_range 512 H2 b); (lia || assumption)).
  assert (Hi : exists i, (i < Z.to_nat Rn)%nat /\ Z.testbit c1 (Z.of_nat i) <> Z.testbit c2 (Z.of_nat i)).
  { destruct (existsb (fun i => negb (Bool.eqb (Z.testbit c1 (Z.of_nat i)) (Z.testbit c2 (Z.of_nat i)))) (seq 0 (Z.to_nat Rn))) eqn:Ex.
    - apply existsb_exists in Ex. destruct Ex as (i & Hin & Hb). apply in_seq in Hin. exists i. split; [lia|]. apply Bool.negb_true_iff in Hb. apply Bool.eqb_false_iff in Hb. exact Hb.
    - exfalso. apply Hne. apply Z.bits_inj'. intros k Hk. destruct (Z_lt_le_dec k Rn) as [D|D].
      + destruct (Bool.bool_dec (Z.testbit c1 k) (Z.testbit c2 k)) as [|Hd]; [assumption|exfalso].
        assert (existsb (fun i => negb (Bool.eqb (Z.testbit c1 (Z.of_nat i)) (Z.testbit c2 (Z.of_nat i)))) (seq 0 (Z.to_nat Rn)) = true); [|congruence].
        apply existsb_exists. exists (Z.to_nat k). split; [apply in_seq; lia|]. rewrite Z2Nat.id by lia. apply Bool.negb_true_iff, Bool.eqb_false_iff. exact Hd.
      + rewrite <- (Z.mod_small c1 (2 ^ Rn)), <- (Z.mod_small c2 (2 ^ Rn)) by assumption. rewrite !Z.mod_pow2_bits_high by lia. reflexivity. }
  destruct Hi as (i & Hi & Hb).
  destruct (nth_error (gp_dummy_gs pf1) i) as [d|] eqn:Ed; [|apply nth_error_None in Ed; lia].
  destruct (nth_error (gp_responses pf1) i) as [z1|] eqn:Ez1; [|apply nth_error_None in Ez1; lia].
  destruct (nth_error (gp_responses pf2) i) as [z2|] eqn:Ez2; [|apply nth_error_None in Ez2; lia].
  exists i, z1, z2. split; [exact Ez1|]. split; [exact Ez2|].
  destruct (F1 i d z1 Ed Ez1) as [P1 Q1], (F2 i d z2 Ed Ez2) as [P2' Q2].
  destruct (Z.testbit c1 (Z.of_nat i)), (Z.testbit c2 (Z.of_nat i)); try congruence; [left|right]; apply dlog_intro; try assumption.
  - apply eq_eqmod. rewrite Q1, <- Q2. rewrite Z.mul_mod_idemp_l by lia. f_equal. lia.
  - apply eq_eqmod. rewrite Q2, <- Q1. rewrite Z.mul_mod_idemp_l by lia. f_equal. lia.
Qed.
Print Assumptions C48_special_soundness.

(** The variant for a trusted modulus: honest proofs verify. *)
Theorem C48_trusted_honest_verifies : forall sha512 g h n r len zk raw,
  1 < n -> 0 <= h -> Z.gcd h n = 1 -> 0 <= r -> g = h ^ r mod n -> 0 < len <= 120000 -> 0 < zk ->
  exists pf, prove_trusted sha512 g h n r len zk raw = Ok pf /\ verify_trusted sha512 g h n pf = Ok tt.
Proof.
  intros sha g h n r len zk raw Hn Hh G Hr Hg Hlen Hzk.
  unfold prove_trusted. destruct (Z.leb_spec len 0); [lia|]. destruct (Z.leb_spec zk 0); [lia|]. unfold bn_gcd. rewrite G. cbn [Z.eqb Pos.eqb negb].
  rewrite bn_mod_exp_ok by lia. cbn [bind]. rewrite <- Hg, Z.eqb_refl. cbn [negb]. rewrite lshift_ok by lia. cbn [bind].
  set (B := n * 2 ^ (len + zk)). assert (0 < B) by (unfold B; pose proof (Z.pow_pos_nonneg 2 (len + zk)); nia).
  rewrite rand_ok by assumption. cbn [bind]. set (x := raw mod B). assert (0 <= x < B) by (apply Z.mod_pos_bound; assumption).
  rewrite bn_mod_exp_ok by lia. cbn [bind].
  assert (Hg0 : 0 <= g) by (rewrite Hg; apply Z.mod_pos_bound; lia). assert (Hd : 0 <= h ^ x mod n) by (apply Z.mod_pos_bound; lia).
  destruct (gen_bytes_ok g h n [h ^ x mod n] Hg0 Hh ltac:(lia) ltac:(repeat constructor; exact Hd)) as (b & Eb).
  assert (P2 : 0 < 2 ^ len) by (apply Z.pow_pos_nonneg; lia).
  assert (exists c, random_oracle 512 sha b (2 ^ len) = Ok c /\ 0 <= c < 2 ^ len) as (c & Ec & Hc).
  { destruct (random_oracle_total 512 sha b (2 ^ len) ltac:(lia) P2) as [T _]. apply T.
    unfold bit_length. rewrite Z.abs_eq by lia. destruct (Z.eqb_spec (2 ^ len) 0); [lia|]. rewrite Z.log2_pow2 by lia.
      unfold ro_iterations. Z.to_euclidean_division_equations. lia. }
  assert (Et : trusted_challenge sha g h n (h ^ x mod n) len = Ok c).
  { unfold trusted_challenge. rewrite Eb. cbn [bind]. rewrite lshift_ok, Z.mul_1_l by lia. cbn [bind]. exact Ec. }
  rewrite Et. cbn [bind]. eexists. split; [reflexivity|]. unfold verify_trusted. cbn [tp_len tp_dummy_g tp_response].
  destruct (Z.leb_spec len 0); [lia|]. unfold bn_gcd. rewrite G. cbn [Z.eqb Pos.eqb negb]. rewrite Et. cbn [bind].
  rewrite !bn_mod_exp_ok by nia. cbn [bind]. rewrite bn_mod_mul_ok by lia. cbn [bind].
  assert (E : h ^ (x + c * r) mod n = (g ^ c mod n * (h ^ x mod n)) mod n).
  { apply eqmod_eq; [lia|]. rewrite !eqmod_mod. rewrite Hg. rewrite (eqmod_mod n (h ^ r)). rewrite <- Z.pow_mul_r by lia. rewrite <- Z.pow_add_r by nia. apply eq_eqmod. f_equal. f_equal. lia. }
  rewrite E, Z.eqb_refl. reflexivity.
Qed.
Print Assumptions C48_trusted_honest_verifies.

(** It accepts exactly when h^response = g^challenge * first message. *)
Theorem C48_trusted_verify_iff : forall sha512 g h n pf,
  verify_trusted sha512 g h n pf = Ok tt <->
  0 < tp_len pf /\ Z.gcd h n = 1 /\ 0 < n /\ 0 <= tp_response pf /\
  exists b c, gen_bytes g h n [tp_dummy_g pf] = Ok b /\ random_oracle 512 sha512 b (2 ^ tp_len pf) = Ok c /\
    h ^ tp_response pf mod n = (g ^ c * tp_dummy_g pf) mod n.
Proof.
  intros sha g h n pf. unfold verify_trusted, trusted_challenge.
  destruct (Z.leb_spec (tp_len pf) 0); [split; [discriminate|lia]|].
  unfold bn_gcd. destruct (Z.eqb_spec (Z.gcd h n) 1) as [G|]; [|split; [discriminate|tauto]]. cbn [negb].
  destruct (gen_bytes g h n [tp_dummy_g pf]) as [b|?| | |] eqn:Eb; cbn [bind];
    try (split; [discriminate|intros (_ & _ & _ & _ & b' & c' & Eb' & _); discriminate]).
  rewrite lshift_ok, Z.mul_1_l by lia. cbn [bind].
  destruct (random_oracle 512 sha b (2 ^ tp_len pf)) as [c|?| | |] eqn:Ec; cbn [bind];
    try (split; [discriminate|intros (_ & _ & _ & _ & b' & c' & Eb' & Ec' & _); injection Eb' as <-; rewrite Ec in Ec'; discriminate]).
  assert (P2 : 0 < 2 ^ tp_len pf) by (apply Z.pow_pos_nonneg; lia).
  assert (Hc : 0 <= c < 2 ^ tp_len pf) by (apply (random_oracle_range 512 sha b); (lia || assumption)).
  split.
  - intros E. destruct (bn_mod_exp h (tp_response pf) n) as [v|?| | |] eqn:Ev; try discriminate. cbn [bind] in E. apply mod_exp_inv in Ev. destruct Ev as (Hn & Hz & ->).
    rewrite bn_mod_exp_ok in E by lia. cbn [bind] in E. rewrite bn_mod_mul_ok in E by lia. cbn [bind] in E. rewrite Z.mul_mod_idemp_l in E by lia.
    destruct (Z.eqb_spec (h ^ tp_response pf mod n) ((g ^ c * tp_dummy_g pf) mod n)); [|discriminate].
    split; [assumption|]. split; [exact G|]. split; [assumption|]. split; [assumption|]. exists b, c. auto.
  - intros (_ & _ & Hn & Hz & b' & c' & Eb' & Ec' & E). assert (b' = b) by congruence. subst b'. assert (c' = c) by congruence. subst c'.
    rewrite !bn_mod_exp_ok by lia. cbn [bind]. rewrite bn_mod_mul_ok by lia. cbn [bind]. rewrite Z.mul_mod_idemp_l by lia. rewrite E, Z.eqb_refl. reflexivity.
Qed.
Print Assumptions C48_trusted_verify_iff.

(** Two accepting proofs with the same first message and different challenges yield a discrete logarithm of g, provided the difference
    of the challenges is coprime to some exponent E of the group that h and g live in. *)
Theorem C48_trusted_soundness : forall H1 H2 g h n pf1 pf2 b c1 c2 E,
  tp_len pf1 = tp_len pf2 -> tp_dummy_g pf1 = tp_dummy_g pf2 ->
  verify_trusted H1 g h n pf1 = Ok tt -> verify_trusted H2 g h n pf2 = Ok tt ->
  gen_bytes g h n [tp_dummy_g pf1] = Ok b ->
  random_oracle 512 H1 b (2 ^ tp_len pf1) = Ok c1 -> random_oracle 512 H2 b (2 ^ tp_len pf1) = Ok c2 ->
  0 < E -> h ^ E mod n = 1 mod n -> g ^ E mod n = 1 mod n -> Z.gcd (c1 - c2) E = 1 ->
  exists x, 0 <= x /\ h ^ x mod n = g mod n.
Proof.
  intros H1 H2 g h n pf1 pf2 b c1 c2 E EL ED V1 V2 Eb E1 E2 HE Hh Hg HG.
  apply C48_trusted_verify_iff in V1. apply C48_trusted_verify_iff in V2. rewrite <- EL, <- ED in V2.
  destruct V1 as (R & G & Hn & Z1 & b1 & k1 & B1 & K1 & F1). destruct V2 as (_ & _ & _ & Z2 & b2 & k2 & B2 & K2 & F2).
  assert (b1 = b) by congruence. assert (b2 = b) by congruence. subst b1 b2. assert (k1 = c1) by congruence. assert (k2 = c2) by congruence. subst k1 k2.
  assert (P2 : 0 < 2 ^ tp_len pf1) by (apply Z.pow_pos_nonneg; lia).
  assert (Hc1 : 0 <= c1 < 2 ^ tp_len pf1) by (apply (random_oracle_range 512 H1 b); (lia || assumption)).
  assert (Hc2 : 0 <= c2 < 2 ^ tp_len pf1) by (apply (random_oracle_range 512 H2 b); (lia || assumption)).
  set (z1 := tp_response pf1) in *. set (z2 := tp_response pf2) in *. set (d := tp_dummy_g pf1) in *.
  apply eq_eqmod in F1, F2, Hh, Hg.
  assert (Hcross : eqmod n (h ^ z1 * g ^ c2) (h ^ z2 * g ^ c1)).
  { rewrite F1, F2. apply eq_eqmod. f_equal. lia. }
  (* raise the second factors to E - 1 instead of dividing *)
  assert (Hd : eqmod n (h ^ (z1 + z2 * (E - 1))) (g ^ (c1 + c2 * (E - 1)))).
  { apply cross_divide; (assumption || lia). }
  destruct (root_extract n h g (z1 + z2 * (E - 1)) (c1 + c2 * (E - 1)) E) as (x & Hx & Ex); try assumption; try (clear - Z1 Z2 Hc1 Hc2 HE; nia).
  - replace (c1 + c2 * (E - 1)) with ((c1 - c2) + c2 * E) by lia. rewrite Z.gcd_comm, Z.gcd_add_mult_diag_r, Z.gcd_comm. exact HG.
  - exists x. split; [exact Hx|]. apply eqmod_eq; assumption.
Qed.
Print Assumptions C48_trusted_soundness.

(** The proviso cannot be dropped: with challenges 2 and 0 a prover convinces for g = 11, h = 4 modulo 15, although g is no power of h. *)
Definition const_hash (last : byte) : bytes -> bytes := fun _ => repeat last 64.
Theorem C48_trusted_soundness_refuted :
  exists H1 H2 pf1 pf2 b c1 c2,
    tp_len pf1 = tp_len pf2 /\ tp_dummy_g pf1 = tp_dummy_g pf2 /\
    verify_trusted H1 11 4 15 pf1 = Ok tt /\ verify_trusted H2 11 4 15 pf2 = Ok tt /\
    gen_bytes 11 4 15 [tp_dummy_g pf1] = Ok b /\
    random_oracle 512 H1 b (2 ^ tp_len pf1) = Ok c1 /\ random_oracle 512 H2 b (2 ^ tp_len pf1) = Ok c2 /\ c1 <> c2 /\
    forall x, 0 <= x -> 4 ^ x mod 15 <> 11 mod 15.
Proof.
  set (pf := {| tp_len := 2; tp_dummy_g := 1; tp_response := 0 |}).
  exists (const_hash x44), (const_hash x00), pf, pf. do 3 eexists.
  split; [reflexivity|]. split; [reflexivity|]. split; [vm_compute; reflexivity|]. split; [vm_compute; reflexivity|].
  split; [vm_compute; reflexivity|]. split; [vm_compute; reflexivity|]. split; [vm_compute; reflexivity|]. split; [discriminate|].
  intros x Hx.
  assert (H : 4 ^ x mod 15 = 1 \/ 4 ^ x mod 15 = 4).
  { pattern x. apply natlike_ind; [left; reflexivity| |exact Hx]. intros y Hy IH. rewrite Z.pow_succ_r by exact Hy. rewrite <- Z.mul_mod_idemp_r by lia.
    destruct IH as [-> | ->]; cbn; tauto. }
  cbn. destruct H as [-> | ->]; discriminate.
Qed.
Print Assumptions C48_trusted_soundness_refuted.

(** Squares modulo a product of safe primes have exponent p' q'. *)
Lemma square_exponent p' q' u : prime p' -> prime q' -> prime (2 * p' + 1) -> prime (2 * q' + 1) -> p' <> q' -> Z.gcd u ((2 * p' + 1) * (2 * q' + 1)) = 1 ->
  eqmod ((2 * p' + 1) * (2 * q' + 1)) ((u * u) ^ (p' * q')) 1.
Proof.
  intros Pp Pq P Q Hne G. pose proof (prime_ge_2 _ Pp). pose proof (prime_ge_2 _ Pq).
  assert (Hnp : forall a, prime a -> (a | (2 * p' + 1) * (2 * q' + 1)) -> ~ (a | u)).
  { intros a Pa Ha Hu. assert (D : (a | 1)) by (rewrite <- G; apply Z.gcd_greatest; assumption). pose proof (prime_ge_2 _ Pa). apply Z.divide_1_r_nonneg in D; lia. }
  assert (half : forall a, 0 <= a -> prime (2 * a + 1) -> ~ (2 * a + 1 | u) -> eqmod (2 * a + 1) ((u * u) ^ a) 1).
  { intros a Ha Pa Hd. pose proof (fermat _ u Pa Hd) as F. replace (2 * a + 1 - 1) with (2 * a) in F by lia. rewrite Z.pow_mul_r in F by lia. rewrite Z.pow_2_r in F. exact F. }
  apply eqmod_coprime_mul.
  - apply Zgcd_1_rel_prime. apply rel_prime_sym. apply prime_rel_prime; [exact Q|]. intros D. apply prime_div_prime in D; [|assumption|assumption]. lia.
  - rewrite Z.pow_mul_r by lia. rewrite (half p') by (lia || assumption || (apply Hnp; [assumption|apply Z.divide_factor_l])). rewrite Z.pow_1_l by lia. reflexivity.
  - rewrite (Z.mul_comm p' q'). rewrite Z.pow_mul_r by lia. rewrite (half q') by (lia || assumption || (apply Hnp; [assumption|apply Z.divide_factor_r])). rewrite Z.pow_1_l by lia. reflexivity.
Qed.

(** In the intended setting, n a product of two safe primes and h and g squares, any two different challenges shorter than the primes
    yield a discrete logarithm of g. *)
Theorem C48_trusted_soundness_safe_primes : forall H1 H2 g h p' q' u v pf1 pf2 b c1 c2,
  prime p' -> prime q' -> prime (2 * p' + 1) -> prime (2 * q' + 1) -> p' <> q' ->
  let n := (2 * p' + 1) * (2 * q' + 1) in
  h = (u * u) mod n -> g = (v * v) mod n -> Z.gcd u n = 1 -> Z.gcd v n = 1 ->
  tp_len pf1 = tp_len pf2 -> 2 ^ tp_len pf1 <= Z.min p' q' -> tp_dummy_g pf1 = tp_dummy_g pf2 ->
  verify_trusted H1 g h n pf1 = Ok tt -> verify_trusted H2 g h n pf2 = Ok tt ->
  gen_bytes g h n [tp_dummy_g pf1] = Ok b ->
  random_oracle 512 H1 b (2 ^ tp_len pf1) = Ok c1 -> random_oracle 512 H2 b (2 ^ tp_len pf1) = Ok c2 -> c1 <> c2 ->
  exists x, 0 <= x /\ h ^ x mod n = g mod n.
Proof.
  intros H1 H2 g h p' q' u v pf1 pf2 b c1 c2 Pp Pq P Q Hne n Hh Hg Gu Gv EL Hlen ED V1 V2 Eb E1 E2 Hc.
  pose proof (prime_ge_2 _ Pp). pose proof (prime_ge_2 _ Pq). assert (Hn : 0 < n) by (unfold n; apply Z.mul_pos_pos; lia).
  apply (C48_trusted_soundness H1 H2 g h n pf1 pf2 b c1 c2 (p' * q')); try assumption.
  - apply Z.mul_pos_pos; lia.
  - apply eqmod_eq; [exact Hn|]. rewrite Hh. rewrite eqmod_mod. apply square_exponent; assumption.
  - apply eqmod_eq; [exact Hn|]. rewrite Hg. rewrite eqmod_mod. apply square_exponent; assumption.
  - apply C48_trusted_verify_iff in V1. destruct V1 as (Hl & _). assert (P2 : 0 < 2 ^ tp_len pf1) by (apply Z.pow_pos_nonneg; lia).
    assert (Hc1 : 0 <= c1 < 2 ^ tp_len pf1) by (apply (random_oracle_range 512 H1 b); (lia || assumption)).
    assert (Hc2 : 0 <= c2 < 2 ^ tp_len pf1) by (apply (random_oracle_range 512 H2 b); (lia || assumption)).
    assert (R : forall a, prime a -> 2 ^ tp_len pf1 <= a -> rel_prime (c1 - c2) a).
    { intros a Pa Ha. apply rel_prime_sym. apply prime_rel_prime; [exact Pa|]. intros [k Hk]. assert (k = 0) by nia. nia. }
    apply Zgcd_1_rel_prime. apply rel_prime_mult; apply R; (assumption || lia).
Qed.
Print Assumptions C48_trusted_soundness_safe_primes.

(** The hypotheses are met: p' = 11, q' = 23, n = 23 * 47, h = 2^2, g = h^5 = 32^2 mod n, challenges of 3 bits. *)
Example C48_ex_safe : prime 11 /\ prime 23 /\ prime (2 * 11 + 1) /\ prime (2 * 23 + 1) /\ (32 * 32) mod 1081 = 4 ^ 5 mod 1081 /\
  match prove_trusted (const_hash x35) 1024 4 1081 5 3 8 987654, prove_trusted (const_hash x53) 1024 4 1081 5 3 8 987654 with
  | Ok pf1, Ok pf2 => tp_dummy_g pf1 = tp_dummy_g pf2 /\ tp_response pf1 <> tp_response pf2 /\ 2 ^ tp_len pf1 <= 11 /\
      verify_trusted (const_hash x35) 1024 4 1081 pf1 = Ok tt /\ verify_trusted (const_hash x53) 1024 4 1081 pf2 = Ok tt
  | _, _ => False end.
Proof.
  split; [apply prime_check; [lia|vm_compute; reflexivity]|]. split; [apply prime_check; [lia|vm_compute; reflexivity]|].
  split; [apply prime_check; [lia|vm_compute; reflexivity]|]. split; [apply prime_check; [lia|vm_compute; reflexivity]|].
  vm_compute. repeat split; try discriminate; intros; discriminate.
Qed.

(** ** Generated parameters *)
Lemma gen_gs_spec h n raws : 4 <= n -> Z.gcd h n = 1 -> exists gs rs, gen_gs h n raws = Ok (gs, rs) /\ length gs = length raws /\
  Forall2 (fun g r => 0 <= r < n / 4 /\ g = h ^ r mod n) gs rs.
Proof.
  intros Hn G. assert (0 < n / 4) by (apply Z.div_str_pos; lia). induction raws as [|raw raws (gs & rs & E & L & F)].
  - exists [], []. repeat split. constructor.
  - cbn [gen_gs]. unfold bn_div_trunc. destruct (Z.eqb_spec 4 0); [lia|]. rewrite Z.quot_div_nonneg by lia. cbn [bind]. rewrite rand_ok by assumption. cbn [bind].
    assert (0 <= raw mod (n / 4) < n / 4) by (apply Z.mod_pos_bound; assumption). rewrite bn_mod_exp_ok by lia. cbn [bind]. rewrite E. cbn [bind fst snd].
    do 2 eexists. split; [reflexivity|]. split; [cbn; lia|]. constructor; [split; [assumption|reflexivity]|exact F].
Qed.

(** Whenever some draw is coprime to n, parameters come out: h is a unit, one base per requested message, each a known power of h below n. *)
Theorem C48_generated_parameters : forall n xraws raws, 4 <= n -> (exists x, In x xraws /\ Z.gcd (x mod n) n = 1) ->
  exists pp rs, generate_parameters n xraws raws = Ok (pp, rs) /\ pp_n pp = n /\ length (pp_gs pp) = length raws /\
    0 < pp_h pp < n /\ Z.gcd (pp_h pp) n = 1 /\ (exists x, pp_h pp = (x * x) mod n) /\
    Forall2 (fun g r => 0 <= r < n / 4 /\ g = pp_h pp ^ r mod n) (pp_gs pp) rs.
Proof.
  intros n xraws raws Hn Hx. unfold generate_parameters. destruct (relprime_random_ok (fun _ => true) xraws n ltac:(lia) Hx) as (x & Ex). rewrite Ex. cbn [bind].
  destruct (relprime_draw xraws n x ltac:(lia) Ex) as [Bx Gx]. unfold bn_mod_sqr. rewrite bn_mod_ok by lia. cbn [bind].
  assert (Gh : Z.gcd ((x * x) mod n) n = 1).
  { rewrite Z.gcd_mod by lia. rewrite Z.gcd_comm. replace (x * x) with (x ^ 2) by lia. apply gcd_pow_l; [lia|exact Gx]. }
  destruct (gen_gs_spec ((x * x) mod n) n raws Hn Gh) as (gs & rs & E & L & F). rewrite E. cbn [bind fst snd].
  do 2 eexists. split; [reflexivity|]. cbn [pp_n pp_gs pp_h]. split; [reflexivity|]. split; [exact L|].
  assert (B : 0 <= (x * x) mod n < n) by (apply Z.mod_pos_bound; lia).
  split. { destruct (Z.eq_dec ((x * x) mod n) 0) as [E0|]; [|lia]. rewrite E0, Z.gcd_0_l, Z.abs_eq in Gh by lia. lia. }
  split; [exact Gh|]. split; [exists x; reflexivity|exact F].
Qed.
Print Assumptions C48_generated_parameters.

(** ... and both proofs can be given, and verify, for every one of the generated bases. *)
Theorem C48_generated_parameters_provable : forall sha512 n xraws raws pp rs g r count zk rawp rawt, 4 <= n -> 0 < count <= 120000 -> 0 < zk ->
  generate_parameters n xraws raws = Ok (pp, rs) -> In (g, r) (combine (pp_gs pp) rs) ->
  (exists pf, prove_params sha512 g (pp_h pp) n r count zk rawp = Ok pf /\ verify_params sha512 g (pp_h pp) n pf = Ok tt) /\
  (exists pf, prove_trusted sha512 g (pp_h pp) n r count zk rawt = Ok pf /\ verify_trusted sha512 g (pp_h pp) n pf = Ok tt).
Proof.
  intros sha n xraws raws pp rs g r count zk rawp rawt Hn Hc Hzk E Hin.
  assert (Hx : exists x, In x xraws /\ Z.gcd (x mod n) n = 1).
  { unfold generate_parameters in E. destruct (relatively_prime_random xraws n) as [x|?| | |] eqn:Ex; try discriminate. clear - Ex Hn.
    induction xraws as [|y ys IH]; cbn [relatively_prime_random] in Ex; [discriminate|]. rewrite rand_ok in Ex by lia. cbn [bind] in Ex.
    unfold bn_gcd in Ex. destruct (Z.ltb_spec 1 (Z.gcd (y mod n) n)) as [H|H].
    - destruct (IH Ex) as (x' & Hin & G). exists x'. split; [right; exact Hin|exact G].
    - exists y. split; [left; reflexivity|]. pose proof (Z.gcd_nonneg (y mod n) n). destruct (Z.eq_dec (Z.gcd (y mod n) n) 0) as [E0|]; [apply Z.gcd_eq_0 in E0; lia|lia]. }
  destruct (C48_generated_parameters n xraws raws Hn Hx) as (pp' & rs' & E' & _ & _ & Bh & Gh & _ & F).
  rewrite E in E'. assert (pp' = pp) by congruence. assert (rs' = rs) by congruence. subst pp' rs'.
  assert (Hgr : 0 <= r < n / 4 /\ g = pp_h pp ^ r mod n).
  { clear - F Hin. induction F as [|g0 r0 gs rs H F IH]; [destruct Hin|]. destruct Hin as [H0|H0]; [|apply IH; exact H0]. injection H0 as -> ->. exact H. }
  split; [apply C48_honest_proof_verifies|apply C48_trusted_honest_verifies]; (tauto || lia).
Qed.
Print Assumptions C48_generated_parameters_provable.

Example C48_ex_params : match generate_parameters 1081 [23; 100] [200; 7] with
  | Ok (pp, rs) => pp_h pp = 271 /\ length (pp_gs pp) = 2%nat /\ rs = [200; 7] /\
      match combine (pp_gs pp) rs with
      | (g, r) :: _ =>
         match prove_params (const_hash x35) g 271 1081 r 5 8 (fun i => Z.of_nat i * 1234567), prove_trusted (const_hash x35) g 271 1081 r 5 8 987654 with
         | Ok pf, Ok pt => verify_params (const_hash x35) g 271 1081 pf = Ok tt /\ verify_params (const_hash x53) g 271 1081 pf = Err InvalidArgument /\
             verify_trusted (const_hash x35) g 271 1081 pt = Ok tt /\ verify_trusted (const_hash x53) g 271 1081 pt = Err InvalidArgument
         | _, _ => False end
      | _ => False end
  | _ => False end.
Proof. vm_compute. repeat split. Qed.

(** Both verifiers hash the numbers one after the other without separators, so two different statements with different first
    messages are hashed alike. *)
Theorem C51_pedersen_challenge_ambiguous_refuted :
  exists g1 h1 n1 d1 g2 h2 n2 d2, (g1, h1, n1, d1) <> (g2, h2, n2, d2) /\
    gen_bytes g1 h1 n1 [d1] = gen_bytes g2 h2 n2 [d2] /\ is_ok (gen_bytes g1 h1 n1 [d1]) = true /\
    forall sha512 len, trusted_challenge sha512 g1 h1 n1 d1 len = trusted_challenge sha512 g2 h2 n2 d2 len.
Proof.
  exists 257, 4, 1081, 16, 1, 260, 1081, 16. split; [congruence|].
  assert (E : gen_bytes 257 4 1081 [16] = gen_bytes 1 260 1081 [16]) by (vm_compute; reflexivity).
  split; [exact E|]. split; [vm_compute; reflexivity|]. intros sha len. unfold trusted_challenge. rewrite E. reflexivity.
Qed.
Print Assumptions C51_pedersen_challenge_ambiguous_refuted.
Lemma app_len_inj {A} (a b x y : list A) : length a = length b -> a ++ x = b ++ y -> a = b /\ x = y.
Proof.
  revert b. induction a as [|c a IH]; intros [|d b] L E; try discriminate; [split; [reflexivity|exact E]|]. cbn [app] in E. injection E as -> E. injection L as L. destruct (IH b L E) as [-> ->]. split; reflexivity.
Qed.
(** What it does bind: among statements whose numbers have the same sizes in bytes, equal hash inputs mean equal statements, the modulus and every dummy included. *)
Theorem C51_pedersen_challenge_sized_partial : forall g1 h1 n1 d1 g2 h2 n2 d2 gb1 hb1 nb1 db1 gb2 hb2 nb2 db2 b,
  to_bytes g1 = Ok gb1 -> to_bytes h1 = Ok hb1 -> to_bytes n1 = Ok nb1 -> Forall2 (fun d x => to_bytes d = Ok x) d1 db1 ->
  to_bytes g2 = Ok gb2 -> to_bytes h2 = Ok hb2 -> to_bytes n2 = Ok nb2 -> Forall2 (fun d x => to_bytes d = Ok x) d2 db2 ->
  length gb1 = length gb2 -> length hb1 = length hb2 -> length nb1 = length nb2 -> Forall2 (fun x y => length x = length y) db1 db2 ->
  gen_bytes g1 h1 n1 d1 = Ok b -> gen_bytes g2 h2 n2 d2 = Ok b -> g1 = g2 /\ h1 = h2 /\ n1 = n2 /\ d1 = d2.
Proof.
  intros g1 h1 n1 d1 g2 h2 n2 d2 gb1 hb1 nb1 db1 gb2 hb2 nb2 db2 b Eg1 Eh1 En1 Ed1 Eg2 Eh2 En2 Ed2 Lg Lh Ln Ld E1 E2.
  assert (MM : forall ds dbs, Forall2 (fun d x => to_bytes d = Ok x) ds dbs -> mapM to_bytes ds = Ok dbs) by (induction 1 as [|d x ds dbs H _ IH]; [reflexivity|]; cbn [mapM]; rewrite H, IH; reflexivity).
  unfold gen_bytes in E1, E2. rewrite Eg1, Eh1, En1 in E1. rewrite Eg2, Eh2, En2 in E2. cbn [bind] in E1, E2. rewrite (MM _ _ Ed1) in E1. rewrite (MM _ _ Ed2) in E2. cbn [bind] in E1, E2.
  assert (E : gb1 ++ hb1 ++ nb1 ++ concat db1 = gb2 ++ hb2 ++ nb2 ++ concat db2) by congruence. clear E1 E2 MM.
  apply app_len_inj in E; [|exact Lg]. destruct E as [Ea E]. apply app_len_inj in E; [|exact Lh]. destruct E as [Eb E]. apply app_len_inj in E; [|exact Ln]. destruct E as [Ec E]. subst.
  split; [eapply to_bytes_inj; eassumption|]. split; [eapply to_bytes_inj; eassumption|]. split; [eapply to_bytes_inj; eassumption|].
  clear - Ed1 Ed2 Ld E. revert d1 d2 Ed1 Ed2 E. induction Ld as [|x y xs ys Hl _ IH]; intros d1 d2 H1 H2 E; inversion H1; subst; inversion H2; subst; [reflexivity|].
  cbn [concat] in E. apply app_len_inj in E; [|exact Hl]. destruct E as [-> E]. f_equal; [eapply to_bytes_inj; eassumption|apply IH; assumption].
Qed.
Print Assumptions C51_pedersen_challenge_sized_partial.

(** ** Parameters as a proto message *)
Definition valid_params (pp : ped_params) : Prop :=
  Forall (fun g => 0 < g < pp_n pp /\ Z.gcd g (pp_n pp) = 1) (pp_gs pp) /\ 0 < pp_h pp < pp_n pp /\ Z.gcd (pp_h pp) (pp_n pp) = 1.

Lemma base_ok_iff n g : base_ok n g = true <-> 0 < g < n /\ Z.gcd g n = 1.
Proof.
  unfold base_ok, bn_gcd. rewrite Bool.negb_true_iff, !Bool.orb_false_iff, Bool.negb_false_iff, Z.leb_gt, Z.leb_gt, Z.eqb_eq. tauto.
Qed.
Lemma bases_ok_iff n gs : forallb (base_ok n) gs = true <-> Forall (fun g => 0 < g < n /\ Z.gcd g n = 1) gs.
Proof. rewrite forallb_forall, Forall_forall. split; intros H x Hx; apply base_ok_iff; apply H; exact Hx. Qed.

(** Writing valid parameters and parsing them gives the same parameters back. *)
Theorem C52_pedersen_parameters_roundtrip : forall pp, valid_params pp -> exists p, ped_to_proto pp = Ok p /\ ped_parse p = Ok pp.
Proof.
  intros [gs h n] (Hg & Hh & Gh). cbn [pp_gs pp_h pp_n] in *. unfold ped_to_proto. cbn [pp_gs pp_h pp_n].
  destruct (to_bytes_of n ltac:(lia)) as (nb & En & Dn). destruct (to_bytes_of h ltac:(lia)) as (hb & Eh & Dh).
  destruct (mapM_to_bytes gs) as (gb & Eg & Dg); [eapply Forall_impl; [|exact Hg]; cbn beta; intros; lia|].
  unfold bignum_vector_to_proto. rewrite En, Eg, Eh. cbn [bind]. eexists. split; [reflexivity|]. unfold ped_parse. cbn [ppr_n ppr_gs ppr_h].
  unfold parse_bignum_vector. rewrite Dn, Dg, Dh. destruct (Z.leb_spec n 0); [lia|].
  replace (forallb (base_ok n) gs) with true by (symmetry; apply bases_ok_iff; exact Hg). cbn [negb].
  replace (base_ok n h) with true by (symmetry; apply base_ok_iff; tauto). reflexivity.
Qed.
Print Assumptions C52_pedersen_parameters_roundtrip.

(** Parsing accepts exactly the messages whose bases are units below n, and refuses all others with InvalidArgument. *)
Theorem C52_pedersen_parameters_checked : forall p,
  (exists pp, ped_parse p = Ok pp /\ valid_params pp) \/
  (ped_parse p = Err InvalidArgument /\ ~ valid_params {| pp_gs := map of_bytes (ppr_gs p); pp_h := of_bytes (ppr_h p); pp_n := of_bytes (ppr_n p) |}).
Proof.
  intros p. unfold ped_parse, valid_params, parse_bignum_vector. cbn [pp_gs pp_h pp_n]. set (n := of_bytes (ppr_n p)). destruct (Z.leb_spec n 0); [right; split; [reflexivity|lia]|].
  pose proof (bases_ok_iff n (map of_bytes (ppr_gs p))) as F. destruct (forallb (base_ok n) (map of_bytes (ppr_gs p))); cbn [negb].
  2:{ right. split; [reflexivity|]. intros (H1 & _). apply F in H1. discriminate. }
  pose proof (base_ok_iff n (of_bytes (ppr_h p))) as Fh. destruct (base_ok n (of_bytes (ppr_h p))); cbn [negb].
  2:{ right. split; [reflexivity|]. intros (_ & H1). apply Fh in H1. discriminate. }
  left. eexists. split; [reflexivity|]. cbn [pp_gs pp_h pp_n]. split; [apply F; reflexivity|apply Fh; reflexivity].
Qed.
Print Assumptions C52_pedersen_parameters_checked.
Example C52_ex_pedersen : valid_params ex_pp /\ ped_parse {| ppr_n := [x0f]; ppr_gs := [[x05]]; ppr_h := [x04] |} = Err InvalidArgument.
Proof. split; [|reflexivity]. split; [repeat constructor|repeat constructor]. Qed.

(** An object made from a received message is usable: it commits and verifies on every legal vector. *)
Theorem C47_received_parameters : forall p num, (1 <= num <= 30)%nat -> 
  ped_from_proto p num = Err InvalidArgument \/ exists pp pd, ped_from_proto p num = Ok pd /\ ped_parse p = Ok pp /\ created pp num pd.
Proof.
  intros p num Hnum. unfold ped_from_proto. destruct (C52_pedersen_parameters_checked p) as [(pp & -> & Hv)|[-> _]]; [right|left; reflexivity]. cbn [bind].
  destruct Hv as (_ & Hh & _). destruct (C47_create pp num ltac:(lia)) as [H _]. destruct (H ltac:(lia) ltac:(lia)) as (pd & Hc).
  exists pp, pd. split; [apply Hc|]. split; [reflexivity|exact Hc].
Qed.
Print Assumptions C47_received_parameters.
