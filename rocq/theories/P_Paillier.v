(** C23-C27: Paillier / Damgard-Jurik encryption. *)
From Coq Require Import Znumtheory.
From Verif Require Import Base M_BigNum L_BigNum M_Num L_Mod L_Num L_DJ M_Paillier S_Paillier L_Paillier L_PaillierKey L_Toy.

(** A concrete key used in the examples: the safe primes 23 = 2*11+1 and 47 = 2*23+1, with s = 2. *)
Definition ex_safe (z : Z) : bool := (z =? 23) || (z =? 47).
Lemma safe_23 : safe_prime 23.
Proof. split; [apply prime_check; [lia|vm_compute; reflexivity]|]. exists 11. split; [apply prime_check; [lia|vm_compute; reflexivity]|lia]. Qed.
Lemma safe_47 : safe_prime 47.
Proof. split; [apply prime_check; [lia|vm_compute; reflexivity]|]. exists 23. split; [apply prime_check; [lia|vm_compute; reflexivity]|lia]. Qed.
Definition ex_sk : outcome private_paillier := private_create ex_safe false 23 47 2.
Definition ex_pk : outcome public_paillier := public_create false (23 * 47) 2 [23; 7].

(** ** C23 *)

(** For every private key object over safe primes and every s >= 1, every message in range and all randomness: encryption succeeds and
    decrypts to the message. *)
Theorem C23_private_roundtrip : forall is_safe_prime flag p q s sk m raw_p raw_q, safe_prime p -> safe_prime q -> (1 <= s)%nat ->
  private_create is_safe_prime flag p q s = Ok sk -> 0 <= m < (p * q) ^ Z.of_nat s ->
  exists c, priv_encrypt flag sk m raw_p raw_q = Ok c /\ priv_decrypt sk c = Ok m.
Proof.
  intros isp flag p q s sk m raw_p raw_q Hp Hq Hs E Hm. pose proof (private_inv isp flag p q s sk Hp Hq Hs E) as K.
  destruct (priv_encrypt_ok flag p q s sk K m raw_p raw_q Hm) as (c & Ec & Bc & Hc). exists c. split; [exact Ec|].
  rewrite (decrypt_encrypts p q s sk K c m Bc (proj1 Hm) Hc), Z.mod_small by exact Hm. reflexivity.
Qed.
Print Assumptions C23_private_roundtrip.
Example C23_ex : match ex_sk with
  | Ok sk => match priv_encrypt false sk 1000000 12345 678 with Ok c => priv_decrypt sk c = Ok 1000000 /\ c <> 1000000 | _ => False end | _ => False end.
Proof. vm_compute. split; [reflexivity|discriminate]. Qed.

(** Distinct safe primes larger than s give a key object, provided each has a small element that is a quadratic non-residue (the
    constructor searches for a generator among 2..1001 only). *)
Theorem C23_key_creation : forall is_safe_prime flag p q s, safe_prime p -> safe_prime q -> is_safe_prime p = true -> is_safe_prime q = true ->
  p <> q -> (1 <= s)%nat -> Z.of_nat s < p -> Z.of_nat s < q ->
  (exists x, 2 <= x <= 1001 /\ x < p - 1 /\ x ^ ((p - 1) / 2) mod p <> 1) -> (exists x, 2 <= x <= 1001 /\ x < q - 1 /\ x ^ ((q - 1) / 2) mod q <> 1) ->
  exists sk, private_create is_safe_prime flag p q s = Ok sk.
Proof. exact private_create_ok. Qed.
Print Assumptions C23_key_creation.
Example C23_creation_ex : exists sk, private_create ex_safe true 23 47 3 = Ok sk.
Proof.
  apply C23_key_creation; try reflexivity; try lia; [exact safe_23|exact safe_47| |].
  - exists 5. vm_compute. repeat split; discriminate.
  - exists 5. vm_compute. repeat split; discriminate.
Qed.

(** Equal primes abort in the constructor. *)
Theorem C23_equal_primes_abort : forall is_safe_prime flag p s, 1 < p -> (1 <= s)%nat -> private_create is_safe_prime flag p p s = Crash.
Proof. exact private_create_same. Qed.
Print Assumptions C23_equal_primes_abort.
Example C23_equal_ex : private_create ex_safe true 47 47 1 = Crash.
Proof. apply C23_equal_primes_abort; lia. Qed.

(** Key generation: whatever primes are drawn, the stored key has two different primes and their product as modulus. *)
Theorem C23_generated_key : forall primes len s nb s1 pb qb s2, (forall b, Forall (fun z => 0 <= z) (primes b)) ->
  generate_key_pair primes len s = Ok ((nb, s1), (pb, qb, s2)) ->
  of_bytes nb = of_bytes pb * of_bytes qb /\ of_bytes pb <> of_bytes qb /\ In (of_bytes pb) (primes (Z.quot len 2)) /\ In (of_bytes qb) (primes (Z.quot len 2)) /\
  s1 = s /\ s2 = s /\ 2 <= len /\ 1 <= s.
Proof.
  intros primes len s nb s1 pb qb s2 Hpos E. unfold generate_key_pair in E. destruct (Z.leb_spec (Z.quot len 2) 0) as [H0|H0]; [discriminate|].
  destruct (Z.leb_spec s 0) as [H1|H1]; [discriminate|]. cbn [orb] in E. specialize (Hpos (Z.quot len 2)). destruct (primes (Z.quot len 2)) as [|p rest]; [discriminate|].
  apply Forall_cons_iff in Hpos. destruct Hpos as [Hp Hrest].
  apply bind_ok in E. destruct E as (q & Eq & E).
  assert (Hq : In q rest /\ q <> p).
  { clear -Eq. revert Eq. induction rest as [|x rest IH]; cbn [draw_distinct]; intros E; [discriminate|]. destruct (Z.eqb_spec x p) as [->|Hx].
    - destruct (IH E) as [A B]. split; [right; exact A|exact B].
    - injection E as <-. split; [left; reflexivity|exact Hx]. }
  destruct Hq as [Hin Hne]. assert (Hq0 : 0 <= q) by (rewrite Forall_forall in Hrest; apply Hrest; exact Hin).
  destruct (to_bytes_of p Hp) as (bp & Ep & Vp). destruct (to_bytes_of q Hq0) as (bq & Eqb & Vq). destruct (to_bytes_of (p * q) ltac:(nia)) as (bn & En & Vn).
  rewrite Ep, Eqb, En in E. cbn [bind] in E. assert (bn = nb /\ bp = pb /\ bq = qb /\ s1 = s /\ s2 = s) as (-> & -> & -> & -> & ->) by (injection E; intuition congruence).
  rewrite Vp, Vq, Vn. split; [reflexivity|]. split; [congruence|]. split; [left; reflexivity|]. split; [right; exact Hin|]. do 2 (split; [reflexivity|]). split; [|lia].
  pose proof (Z.quot_small len 2). destruct (Z.lt_ge_cases len 2) as [Hl|]; [|assumption]. destruct (Z.le_gt_cases 0 len); [rewrite Z.quot_small in H0 by lia; lia|].
  pose proof (Z.quot_opp_l (- len) 2 ltac:(lia)) as Q. rewrite Z.opp_involutive in Q. pose proof (Z.quot_pos (- len) 2 ltac:(lia) ltac:(lia)). lia.
Qed.
Print Assumptions C23_generated_key.
Example C23_generated_ex : match generate_key_pair (fun _ => [23; 23; 47]) 12 2 with
  | Ok ((nb, _), (pb, qb, _)) => (of_bytes nb, of_bytes pb, of_bytes qb) = (1081, 23, 47) | _ => False end.
Proof. vm_compute. reflexivity. Qed.

Theorem C23_generate_rejects : forall primes len s, len <= 1 \/ s <= 0 -> generate_key_pair primes len s = Err InvalidArgument.
Proof.
  intros primes len s H. unfold generate_key_pair. destruct (Z.leb_spec (Z.quot len 2) 0) as [H0|H0]; [reflexivity|].
  destruct (Z.leb_spec s 0) as [H1|H1]; [reflexivity|]. exfalso. assert (Z.quot len 2 <= 0); [|lia]. assert (len <= 1) as Hl by lia.
  destruct (Z.le_gt_cases 0 len); [rewrite Z.quot_small by lia; lia|].
  pose proof (Z.quot_opp_l (- len) 2 ltac:(lia)) as Q. rewrite Z.opp_involutive in Q. pose proof (Z.quot_pos (- len) 2 ltac:(lia) ltac:(lia)). lia.
Qed.
Print Assumptions C23_generate_rejects.
Example C23_generate_rejects_ex : generate_key_pair (fun _ => [23; 47]) (-7) 1 = Err InvalidArgument.
Proof. apply C23_generate_rejects. left. lia. Qed.

(** ** C24 *)

(** The three public encryption paths all decrypt to the message, for every key pair with n = pq. The paths with caller-supplied
    randomness accept any integer message and encrypt its residue modulo n^s. *)
Theorem C24_public_roundtrip : forall is_safe_prime flag p q s sk raws pk m raw, safe_prime p -> safe_prime q -> (1 <= s)%nat ->
  private_create is_safe_prime flag p q s = Ok sk -> public_create flag (p * q) s raws = Ok pk -> 0 <= m < (p * q) ^ Z.of_nat s ->
  exists c, pub_encrypt flag pk m raw = Ok c /\ priv_decrypt sk c = Ok m.
Proof.
  intros isp flag p q s sk raws pk m raw Hp Hq Hs E Epk Hm. pose proof (private_inv isp flag p q s sk Hp Hq Hs E) as K.
  destruct (safe_prime_facts p Hp) as (_ & Hp5 & Op). destruct (safe_prime_facts q Hq) as (_ & Hq5 & Oq).
  pose proof (public_inv flag (p * q) s raws pk ltac:(nia) ltac:(rewrite Z.odd_mul, Op, Oq; reflexivity) Epk) as U.
  destruct (pub_encrypt_ok isp flag (p * q) s pk U m raw Hm) as (c & Ec & Bc & Hc). exists c. split; [exact Ec|].
  rewrite (decrypt_encrypts p q s sk K c m Bc (proj1 Hm) Hc), Z.mod_small by exact Hm. reflexivity.
Qed.
Print Assumptions C24_public_roundtrip.
Example C24_ex : match ex_sk, ex_pk with
  | Ok sk, Ok pk => match pub_encrypt false pk 1000000 99 with Ok c => priv_decrypt sk c = Ok 1000000 | _ => False end | _, _ => False end.
Proof. vm_compute. reflexivity. Qed.

Theorem C24_generator_path : forall is_safe_prime flag p q s sk raws pk m r, safe_prime p -> safe_prime q -> (1 <= s)%nat ->
  private_create is_safe_prime flag p q s = Ok sk -> public_create flag (p * q) s raws = Ok pk -> 0 <= r <= p * q ->
  exists c, pub_encrypt_using_generator_and_rand flag pk m r = Ok c /\ priv_decrypt sk c = Ok (m mod (p * q) ^ Z.of_nat s).
Proof.
  intros isp flag p q s sk raws pk m r Hp Hq Hs E Epk Hr. pose proof (private_inv isp flag p q s sk Hp Hq Hs E) as K.
  destruct (safe_prime_facts p Hp) as (_ & Hp5 & Op). destruct (safe_prime_facts q Hq) as (_ & Hq5 & Oq).
  pose proof (public_inv flag (p * q) s raws pk ltac:(nia) ltac:(rewrite Z.odd_mul, Op, Oq; reflexivity) Epk) as U.
  destruct (pub_encrypt_gen_ok flag (p * q) s pk U m r Hr) as (c & Ec & Bc & Hc). exists c. split; [exact Ec|].
  assert (B : 0 <= m mod (p * q) ^ Z.of_nat s < (p * q) ^ Z.of_nat s) by (apply Z.mod_pos_bound, Z.pow_pos_nonneg; [nia|lia]).
  rewrite (decrypt_encrypts p q s sk K c _ Bc (proj1 B) Hc), Z.mod_small by exact B. reflexivity.
Qed.
Print Assumptions C24_generator_path.
Example C24_generator_ex : match ex_sk, ex_pk with
  | Ok sk, Ok pk => match pub_encrypt_using_generator_and_rand true pk (-5) 1081 with Ok c => priv_decrypt sk c = Ok (1081 ^ 2 - 5) | _ => False end | _, _ => False end.
Proof. vm_compute. reflexivity. Qed.

Theorem C24_explicit_randomness : forall is_safe_prime flag p q s sk raws pk m r, safe_prime p -> safe_prime q -> (1 <= s)%nat ->
  private_create is_safe_prime flag p q s = Ok sk -> public_create flag (p * q) s raws = Ok pk -> Z.gcd r (p * q) = 1 ->
  exists c, pub_encrypt_with_rand pk m r = Ok c /\ priv_decrypt sk c = Ok (m mod (p * q) ^ Z.of_nat s).
Proof.
  intros isp flag p q s sk raws pk m r Hp Hq Hs E Epk Hr. pose proof (private_inv isp flag p q s sk Hp Hq Hs E) as K.
  destruct (safe_prime_facts p Hp) as (_ & Hp5 & Op). destruct (safe_prime_facts q Hq) as (_ & Hq5 & Oq).
  pose proof (public_inv flag (p * q) s raws pk ltac:(nia) ltac:(rewrite Z.odd_mul, Op, Oq; reflexivity) Epk) as U.
  destruct (pub_encrypt_with_rand_ok (p * q) s pk U m r Hr) as (c & Ec & Bc & Hc). exists c. split; [exact Ec|].
  assert (B : 0 <= m mod (p * q) ^ Z.of_nat s < (p * q) ^ Z.of_nat s) by (apply Z.mod_pos_bound, Z.pow_pos_nonneg; [nia|lia]).
  rewrite (decrypt_encrypts p q s sk K c _ Bc (proj1 B)), Z.mod_small by (try exact B; exists r; exact Hc). reflexivity.
Qed.
Print Assumptions C24_explicit_randomness.
Example C24_explicit_ex : match ex_sk, ex_pk with
  | Ok sk, Ok pk => match pub_encrypt_with_rand pk 1081 100 with Ok c => priv_decrypt sk c = Ok 1081 | _ => False end | _, _ => False end.
Proof. vm_compute. reflexivity. Qed.

Theorem C24_reported_randomness : forall is_safe_prime flag p q s sk raws pk m raws' c r, safe_prime p -> safe_prime q -> (1 <= s)%nat ->
  private_create is_safe_prime flag p q s = Ok sk -> public_create flag (p * q) s raws = Ok pk -> pub_encrypt_and_get_rand pk m raws' = Ok (c, r) ->
  priv_decrypt sk c = Ok (m mod (p * q) ^ Z.of_nat s) /\ pub_encrypt_with_rand pk m r = Ok c.
Proof.
  intros isp flag p q s sk raws pk m raws' c r Hp Hq Hs E Epk Er.
  assert (Ew : pub_encrypt_with_rand pk m r = Ok c).
  { unfold pub_encrypt_and_get_rand in Er. apply bind_ok in Er. destruct Er as (r' & _ & Er). apply bind_ok in Er. destruct Er as (c' & Ec & Er). congruence. }
  split; [|exact Ew].
  destruct (safe_prime_facts p Hp) as (_ & Hp5 & Op). destruct (safe_prime_facts q Hq) as (_ & Hq5 & Oq).
  pose proof (public_inv flag (p * q) s raws pk ltac:(nia) ltac:(rewrite Z.odd_mul, Op, Oq; reflexivity) Epk) as U.
  destruct (Z.eq_dec (Z.gcd r (p * q)) 1) as [G|G].
  - destruct (C24_explicit_randomness isp flag p q s sk raws pk m r Hp Hq Hs E Epk G) as (c' & Ec' & D). rewrite Ew in Ec'. assert (c = c') as -> by congruence. exact D.
  - rewrite (pub_encrypt_with_rand_bad (p * q) s pk U m r G) in Ew. discriminate.
Qed.
Print Assumptions C24_reported_randomness.
Example C24_reported_ex : match ex_sk, ex_pk with
  | Ok sk, Ok pk => match pub_encrypt_and_get_rand pk 31337 [46; 47; 5000] with Ok (c, r) => priv_decrypt sk c = Ok 31337 /\ r = 5000 mod 1081 | _ => False end | _, _ => False end.
Proof. vm_compute. split; reflexivity. Qed.

(** ** C25 *)

(** Whatever ciphertexts one starts from (as long as they decrypt), evaluating any expression built from Add, Multiply and LeftShift
    succeeds, and the result decrypts to the value of the expression over the plaintexts, modulo n^s. *)
Theorem C25_homomorphism : forall is_safe_prime flag p q s sk raws pk, safe_prime p -> safe_prime q -> (1 <= s)%nat ->
  private_create is_safe_prime flag p q s = Ok sk -> public_create flag (p * q) s raws = Ok pk ->
  forall (cs ms : nat -> Z) e, (forall i, priv_decrypt sk (cs i) = Ok (ms i)) -> scalars_ok e ->
  exists c, cipher_eval pk cs e = Ok c /\ priv_decrypt sk c = Ok (plain_eval ms e mod (p * q) ^ Z.of_nat s).
Proof.
  intros isp flag p q s sk raws pk Hp Hq Hs E Epk cs ms e Hd Hsc. pose proof (private_inv isp flag p q s sk Hp Hq Hs E) as K.
  destruct (safe_prime_facts p Hp) as (_ & Hp5 & Op). destruct (safe_prime_facts q Hq) as (_ & Hq5 & Oq).
  pose proof (public_inv flag (p * q) s raws pk ltac:(nia) ltac:(rewrite Z.odd_mul, Op, Oq; reflexivity) Epk) as U.
  assert (H : forall i, in_range (p * q) s (cs i) /\ 0 <= ms i < (p * q) ^ Z.of_nat s /\ plain_of p q s (cs i) (ms i)) by (intros i; apply (decrypt_plain p q s sk _ _ K (Hd i))).
  assert (Hm : forall i, 0 <= ms i) by (intros i; destruct (H i) as (_ & ? & _); lia).
  destruct (cipher_eval_plain p q s sk pk cs ms e K U) as (c & Ec & Bc & Pc); [intros i; apply (H i)|exact Hm|intros i; apply (H i)|exact Hsc|].
  exists c. split; [exact Ec|]. apply (priv_decrypt_is p q s sk K); [exact Bc|apply plain_eval_nonneg; assumption|exact Pc].
Qed.
Print Assumptions C25_homomorphism.
Example C25_ex : match ex_sk, ex_pk with
  | Ok sk, Ok pk =>
      match pub_encrypt false pk 1000 77, priv_encrypt false sk 900000 3 4 with
      | Ok c0, Ok c1 =>
          match cipher_eval pk (fun i => match i with O => c0 | S O => c1 | _ => 1 end) (PShl (PAdd (PMul (PLeaf 0) 13) (PAdd (PLeaf 1) (PLeaf 7))) 3) with
          | Ok c => priv_decrypt sk c = Ok (((1000 * 13 + (900000 + 0)) * 8) mod 1081 ^ 2)
          | _ => False end
      | _, _ => False end
  | _, _ => False end.
Proof. vm_compute. reflexivity. Qed.

(** ** C26 *)

(** The randomness reported by PrivatePaillierWithRand reproduces exactly the same ciphertext on the public side. *)
Theorem C26_reported_randomness : forall is_safe_prime flag p q s sk k raws pk m raw_p raw_q, safe_prime p -> safe_prime q -> (1 <= s)%nat ->
  private_create is_safe_prime flag p q s = Ok sk -> private_with_rand_create flag sk = Ok k -> public_create flag (p * q) s raws = Ok pk ->
  0 <= m < (p * q) ^ Z.of_nat s ->
  exists c r, pwr_encrypt_and_get_rand flag k m raw_p raw_q = Ok (c, r) /\ 0 <= r < p * q /\ pub_encrypt_with_rand pk m r = Ok c /\ pwr_decrypt k c = Ok m.
Proof.
  intros isp flag p q s sk k raws pk m raw_p raw_q Hp Hq Hs E Ek Epk Hm. pose proof (private_inv isp flag p q s sk Hp Hq Hs E) as K.
  destruct (safe_prime_facts p Hp) as (_ & Hp5 & Op). destruct (safe_prime_facts q Hq) as (_ & Hq5 & Oq).
  pose proof (public_inv flag (p * q) s raws pk ltac:(nia) ltac:(rewrite Z.odd_mul, Op, Oq; reflexivity) Epk) as U.
  destruct (pwr_encrypt_ok flag p q s sk K k m raw_p raw_q Ek Hm) as (c & r & Ec & Bc & Br & Hc). exists c, r. split; [exact Ec|]. split; [exact Br|]. destruct Hc as [G Hc].
  destruct (pub_encrypt_with_rand_ok (p * q) s pk U m r G) as (c' & Ec' & Bc' & _ & Hc'). rewrite Z.mod_small in Hc' by exact Hm.
  assert (c' = c) as ->.
  { unfold in_range in *. change (eqmod ((p * q) ^ (Z.of_nat s + 1)) c' ((1 + p * q) ^ m * r ^ ((p * q) ^ Z.of_nat s))) in Hc'.
    change (eqmod ((p * q) ^ (Z.of_nat s + 1)) c ((1 + p * q) ^ m * r ^ ((p * q) ^ Z.of_nat s))) in Hc.
    apply (eqmod_small ((p * q) ^ (Z.of_nat s + 1))); [exact Bc'|exact Bc|]. rewrite Hc', Hc. reflexivity. }
  split; [exact Ec'|]. assert (Ekey : pwr_key k = sk).
  { unfold private_with_rand_create in Ek. do 7 (apply bind_ok in Ek; destruct Ek as (? & _ & Ek)). injection Ek as <-. reflexivity. }
  unfold pwr_decrypt. rewrite Ekey. rewrite (decrypt_encrypts p q s sk K c m Bc (proj1 Hm)), Z.mod_small by (try exact Hm; exists r; split; assumption). reflexivity.
Qed.
Print Assumptions C26_reported_randomness.
(** Encrypt of the same object, given the same draws, makes the very same ciphertext: the two only differ in what they report. *)
Theorem C26_plain_encrypt : forall is_safe_prime flag p q s sk k m raw_p raw_q, safe_prime p -> safe_prime q -> (1 <= s)%nat ->
  private_create is_safe_prime flag p q s = Ok sk -> private_with_rand_create flag sk = Ok k ->
  (0 <= m < (p * q) ^ Z.of_nat s -> exists c r, pwr_encrypt_and_get_rand flag k m raw_p raw_q = Ok (c, r) /\ pwr_encrypt flag k m raw_p raw_q = Ok c /\ pwr_decrypt k c = Ok m) /\
  (~ 0 <= m < (p * q) ^ Z.of_nat s -> pwr_encrypt_and_get_rand flag k m raw_p raw_q = Err InvalidArgument /\ pwr_encrypt flag k m raw_p raw_q = Err InvalidArgument).
Proof.
  intros isp flag p q s sk k m raw_p raw_q Hp Hq Hs E Ek. pose proof (private_inv isp flag p q s sk Hp Hq Hs E) as K.
  assert (Ekey : pwr_key k = sk).
  { unfold private_with_rand_create in Ek. do 7 (apply bind_ok in Ek; destruct Ek as (? & _ & Ek)). injection Ek as <-. reflexivity. }
  split; intros Hm.
  - destruct (pwr_encrypt_ok flag p q s sk K k m raw_p raw_q Ek Hm) as (c & r & Ec & Bc & _ & Hc). exists c, r. split; [exact Ec|]. split.
    + revert Ec. unfold pwr_encrypt_and_get_rand, pwr_encrypt, priv_encrypt, pc_encrypt_and_get_rand, pc_encrypt. destruct (negb (is_non_negative m)); [discriminate|]. destruct (priv_n_to_s (pwr_key k) <=? m); [discriminate|].
      intros Ec. apply bind_ok in Ec. destruct Ec as ([cp rp] & Ep & Ec). apply bind_ok in Ec. destruct Ec as ([cq rq] & Eq & Ec). apply bind_ok in Ec. destruct Ec as (c0 & E0 & Ec). apply bind_ok in Ec. destruct Ec as (r0 & _ & Ec). injection Ec as -> ->.
      apply bind_ok in Ep. destruct Ep as (x & X1 & Ep). apply bind_ok in Ep. destruct Ep as (ct & X2 & Ep). apply bind_ok in Ep. destruct Ep as (? & _ & Ep). apply bind_ok in Ep. destruct Ep as (? & _ & Ep). injection Ep as -> _.
      apply bind_ok in Eq. destruct Eq as (y & Y1 & Eq). apply bind_ok in Eq. destruct Eq as (dt & Y2 & Eq). apply bind_ok in Eq. destruct Eq as (? & _ & Eq). apply bind_ok in Eq. destruct Eq as (? & _ & Eq). injection Eq as -> _.
      rewrite X1. cbn [bind]. rewrite X2. cbn [bind]. rewrite Y1. cbn [bind]. rewrite Y2. cbn [bind]. exact E0.
    + unfold pwr_decrypt. rewrite Ekey. rewrite (decrypt_encrypts p q s sk K c m Bc (proj1 Hm)), Z.mod_small by (try exact Hm; exists r; exact Hc). reflexivity.
  - split.
    + unfold pwr_encrypt_and_get_rand, is_non_negative. rewrite Ekey. destruct (Z.ltb_spec m 0); [reflexivity|]. cbn [negb]. rewrite (k_ns _ _ _ _ K). destruct (Z.leb_spec ((p * q) ^ Z.of_nat s) m); [reflexivity|lia].
    + unfold pwr_encrypt. rewrite Ekey. apply (priv_encrypt_bad flag p q s sk K). exact Hm.
Qed.
Print Assumptions C26_plain_encrypt.
Example C26_ex : match ex_sk, ex_pk with
  | Ok sk, Ok pk => match private_with_rand_create false sk with Ok k =>
      match pwr_encrypt_and_get_rand false k 424242 1717 2929 with
      | Ok (c, r) => pub_encrypt_with_rand pk 424242 r = Ok c /\ pwr_encrypt false k 424242 1717 2929 = Ok c | _ => False end | _ => False end | _, _ => False end.
Proof. vm_compute. split; reflexivity. Qed.

(** ** C27 *)

(** Messages outside [0, n^s) and ciphertexts outside [0, n^(s+1)) are rejected with InvalidArgument. *)
Theorem C27_out_of_range_rejected : forall is_safe_prime flag p q s sk raws pk m c raw raw', safe_prime p -> safe_prime q -> (1 <= s)%nat ->
  private_create is_safe_prime flag p q s = Ok sk -> public_create flag (p * q) s raws = Ok pk ->
  (~ 0 <= m < (p * q) ^ Z.of_nat s -> pub_encrypt flag pk m raw = Err InvalidArgument /\ priv_encrypt flag sk m raw raw' = Err InvalidArgument) /\
  (~ 0 <= c < (p * q) ^ (Z.of_nat s + 1) -> priv_decrypt sk c = Err InvalidArgument) /\
  (Z.gcd c (p * q) <> 1 -> pub_encrypt_with_rand pk m c = Err InvalidArgument).
Proof.
  intros isp flag p q s sk raws pk m c raw raw' Hp Hq Hs E Epk. pose proof (private_inv isp flag p q s sk Hp Hq Hs E) as K.
  destruct (safe_prime_facts p Hp) as (_ & Hp5 & Op). destruct (safe_prime_facts q Hq) as (_ & Hq5 & Oq).
  pose proof (public_inv flag (p * q) s raws pk ltac:(nia) ltac:(rewrite Z.odd_mul, Op, Oq; reflexivity) Epk) as U.
  split; [intros H; split|split; intros H].
  - apply (pub_encrypt_bad flag (p * q) s pk U m raw H).
  - apply (priv_encrypt_bad flag p q s sk K m raw raw' H).
  - apply (priv_decrypt_bad p q s sk K c H).
  - apply (pub_encrypt_with_rand_bad (p * q) s pk U m c H).
Qed.
Print Assumptions C27_out_of_range_rejected.
Example C27_reject_ex : match ex_sk, ex_pk with
  | Ok sk, Ok pk => pub_encrypt false pk (1081 ^ 2) 5 = Err InvalidArgument /\ priv_encrypt false sk (-1) 5 5 = Err InvalidArgument /\
      priv_decrypt sk (1081 ^ 3) = Err InvalidArgument /\ priv_decrypt sk (-1) = Err InvalidArgument /\ pub_encrypt_with_rand pk 3 46 = Err InvalidArgument | _, _ => False end.
Proof. vm_compute. repeat split. Qed.

(** Every unit in range decrypts, to a value in [0, n^s). *)
Theorem C27_units_decrypt : forall is_safe_prime flag p q s sk c, safe_prime p -> safe_prime q -> (1 <= s)%nat ->
  private_create is_safe_prime flag p q s = Ok sk -> 0 <= c < (p * q) ^ (Z.of_nat s + 1) -> Z.gcd c (p * q) = 1 ->
  exists m, priv_decrypt sk c = Ok m /\ 0 <= m < (p * q) ^ Z.of_nat s.
Proof.
  intros isp flag p q s sk c Hp Hq Hs E Hc G. pose proof (private_inv isp flag p q s sk Hp Hq Hs E) as K.
  destruct (unit_plain p q s sk K c G) as (d & Bd & Pd). exists d. split; [|exact Bd].
  rewrite (priv_decrypt_is p q s sk K c d Hc (proj1 Bd) Pd), Z.mod_small by exact Bd. reflexivity.
Qed.
Print Assumptions C27_units_decrypt.
Example C27_unit_ex : match ex_sk with Ok sk => exists m, priv_decrypt sk 123456 = Ok m | _ => False end.
Proof. destruct ex_sk as [sk|c| | |] eqn:E; try (vm_compute in E; discriminate). destruct (C27_units_decrypt ex_safe false 23 47 2 sk 123456 safe_23 safe_47 ltac:(lia) E ltac:(cbn; lia) ltac:(reflexivity)) as (m & Hm & _). exists m. exact Hm. Qed.

(** What the contract does not say: an in-range ciphertext that shares a factor with n (0, for instance) aborts the process. *)
Theorem C27_non_units_abort : forall is_safe_prime flag p q s sk c, safe_prime p -> safe_prime q -> (1 <= s)%nat ->
  private_create is_safe_prime flag p q s = Ok sk -> 0 <= c < (p * q) ^ (Z.of_nat s + 1) -> Z.gcd c (p * q) <> 1 -> priv_decrypt sk c = Crash.
Proof.
  intros isp flag p q s sk c Hp Hq Hs E Hc G. pose proof (private_inv isp flag p q s sk Hp Hq Hs E) as K. exact (decrypt_nonunit p q s sk K c Hc G).
Qed.
Print Assumptions C27_non_units_abort.
Example C27_zero_ex : match ex_sk with Ok sk => priv_decrypt sk 0 = Crash | _ => False end.
Proof. vm_compute. reflexivity. Qed.
