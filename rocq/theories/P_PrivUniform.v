(** C100: encrypting with the private Paillier key is exactly as random as encrypting with the public key. *)
From Coq Require Import Znumtheory.
From Verif Require Import Base M_BigNum M_Num M_DJ M_Paillier S_Paillier S_HideSum L_BigNum L_Num L_Mod L_NT L_DJ L_Paillier L_PaillierKey L_Jacobi L_HideSum L_HideLeak S_Hide L_Hide L_HideKey S_Dcr L_DcrUnits
  S_Uniform L_Uniform L_PrivUniform L_Toy P_Paillier.

Lemma count_pair a b (t : Z -> Z -> bool) : count [a; b] (fun ds => t (nth 0 ds 0) (nth 1 ds 0)) = zsum (Z.to_nat a) (fun x => zsum (Z.to_nat b) (fun y => if t x y then 1 else 0)).
Proof. reflexivity. Qed.
Lemma count_one a (t : Z -> bool) : count [a] (fun ds => t (nth 0 ds 0)) = zsum (Z.to_nat a) (fun x => if t x then 1 else 0).
Proof. reflexivity. Qed.

(** Any test succeeds for as many pairs of draws of the private key holder as there are units r below n for which it succeeds on the public-key encryption with the random number r. *)
Theorem C100_private_encryption : forall is_safe_prime flag p q s sk raws pk m test, safe_prime p -> safe_prime q -> (1 <= s)%nat ->
  private_create is_safe_prime flag p q s = Ok sk -> public_create flag (p * q) s raws = Ok pk -> 0 <= m < (p * q) ^ Z.of_nat s ->
  count [p - 1; q - 1] (fun ds => test (priv_encrypt flag sk m (nth 0 ds 0) (nth 1 ds 0))) =
  count [p * q] (fun ds => (Z.gcd (nth 0 ds 0) (p * q) =? 1) && test (pub_encrypt_with_rand pk m (nth 0 ds 0))).
Proof.
  intros isp flag p q s sk raws pk m test Hp Hq Hs E Epk Hm.
  destruct (safe_prime_facts p Hp) as (_ & Hp5 & Op). destruct (safe_prime_facts q Hq) as (_ & Hq5 & Oq).
  pose proof (public_inv flag (p * q) s raws pk ltac:(nia) ltac:(rewrite Z.odd_mul, Op, Oq; reflexivity) Epk) as U.
  rewrite (count_pair (p - 1) (q - 1) (fun x y => test (priv_encrypt flag sk m x y))), (count_one (p * q) (fun x => (Z.gcd x (p * q) =? 1) && test (pub_encrypt_with_rand pk m x))).
  set (F := fun r => if test (Ok (sealed (p * q) s m r)) then 1 else 0).
  transitivity (zsum (Z.to_nat (p * q)) (fun x => if Z.gcd x (p * q) =? 1 then F x else 0)).
  - rewrite <- (gens_sum isp flag p q s sk Hp Hq Hs E F).
    + apply zsum_ext. intros x Hx. apply zsum_ext. intros y Hy. rewrite (priv_encrypt_sealed isp flag p q s sk Hp Hq Hs E m x y Hm). unfold F, exponent. rewrite (Z.mod_small x (p - 1)), (Z.mod_small y (q - 1)) by lia. reflexivity.
    + intros x y E1 E2. unfold F. rewrite (sealed_depends isp flag p q s sk Hp Hq Hs E m x y E1 E2). reflexivity.
  - apply zsum_ext. intros x _. destruct (Z.eqb_spec (Z.gcd x (p * q)) 1) as [G|G]; [|reflexivity]. cbn [andb]. unfold F.
    destruct (pub_encrypt_with_rand_ok (p * q) s pk U m x G) as (c & Ec & Bc & Hc). rewrite Z.mod_small in Hc by exact Hm. rewrite Ec, (sealed_is p q s c m x Bc Hc). reflexivity.
Qed.
Print Assumptions C100_private_encryption.

(** The same together with the random number that is reported. *)
Theorem C100_reported : forall is_safe_prime flag p q s sk k raws pk m test, safe_prime p -> safe_prime q -> (1 <= s)%nat ->
  private_create is_safe_prime flag p q s = Ok sk -> private_with_rand_create flag sk = Ok k -> public_create flag (p * q) s raws = Ok pk -> 0 <= m < (p * q) ^ Z.of_nat s ->
  count [p - 1; q - 1] (fun ds => test (pwr_encrypt_and_get_rand flag k m (nth 0 ds 0) (nth 1 ds 0))) =
  count [p * q] (fun ds => let r := nth 0 ds 0 in (Z.gcd r (p * q) =? 1) && test (let* c := pub_encrypt_with_rand pk m r in Ok (c, r))).
Proof.
  intros isp flag p q s sk k raws pk m test Hp Hq Hs E Ek Epk Hm.
  destruct (safe_prime_facts p Hp) as (_ & Hp5 & Op). destruct (safe_prime_facts q Hq) as (_ & Hq5 & Oq).
  pose proof (public_inv flag (p * q) s raws pk ltac:(nia) ltac:(rewrite Z.odd_mul, Op, Oq; reflexivity) Epk) as U. pose proof (private_inv isp flag p q s sk Hp Hq Hs E) as K.
  cbv zeta. rewrite (count_pair (p - 1) (q - 1) (fun x y => test (pwr_encrypt_and_get_rand flag k m x y))), (count_one (p * q) (fun x => (Z.gcd x (p * q) =? 1) && test (let* c := pub_encrypt_with_rand pk m x in Ok (c, x)))).
  set (F := fun r => if test (Ok (sealed (p * q) s m (r mod (p * q)), r mod (p * q))) then 1 else 0).
  transitivity (zsum (Z.to_nat (p * q)) (fun x => if Z.gcd x (p * q) =? 1 then F x else 0)).
  - rewrite <- (gens_sum isp flag p q s sk Hp Hq Hs E F).
    + apply zsum_ext. intros x Hx. apply zsum_ext. intros y Hy. rewrite (pwr_reported isp flag p q s sk Hp Hq Hs E k m x y Ek Hm). unfold F, exponent. rewrite (Z.mod_small x (p - 1)), (Z.mod_small y (q - 1)) by lia. reflexivity.
    + intros x y E1 E2. unfold F. replace (y mod (p * q)) with (x mod (p * q)); [reflexivity|]. apply mod_eqmod_iff; [nia|].
      replace (p * q) with ((p * q) ^ 1) by ring. apply eqmod_join_pow; [lia|apply (priv_coprime p q s sk K)|rewrite Z.pow_1_r; exact E1|rewrite Z.pow_1_r; exact E2].
  - apply zsum_ext. intros x Hx. rewrite Z2Nat.id in Hx by nia. destruct (Z.eqb_spec (Z.gcd x (p * q)) 1) as [G|G]; [|reflexivity]. cbn [andb]. unfold F. rewrite (Z.mod_small x) by exact Hx.
    destruct (pub_encrypt_with_rand_ok (p * q) s pk U m x G) as (c & Ec & Bc & Hc). rewrite Z.mod_small in Hc by exact Hm. rewrite Ec. cbn [bind]. rewrite (sealed_is p q s c m x Bc Hc). reflexivity.
Qed.
Print Assumptions C100_reported.

(** So the reported number is an unbiased unit: each comes about for exactly one pair of draws. *)
Theorem C100_unbiased : forall is_safe_prime flag p q s sk k m, safe_prime p -> safe_prime q -> (1 <= s)%nat ->
  private_create is_safe_prime flag p q s = Ok sk -> private_with_rand_create flag sk = Ok k -> 0 <= m < (p * q) ^ Z.of_nat s ->
  let process := fun ds => let* (_, r) := pwr_encrypt_and_get_rand flag k m (nth 0 ds 0) (nth 1 ds 0) in Ok r in
  unbiased Z.eqb [p - 1; q - 1] process (unit_below (p * q)) /\ forall r, unit_below (p * q) r -> frequency Z.eqb [p - 1; q - 1] process r = 1.
Proof.
  intros isp flag p q s sk k m Hp Hq Hs E Ek Hm process.
  destruct (safe_prime_facts p Hp) as (_ & Hp5 & Op). destruct (safe_prime_facts q Hq) as (_ & Hq5 & Oq). pose proof (private_inv isp flag p q s sk Hp Hq Hs E) as K.
  assert (Q : forall r, frequency Z.eqb [p - 1; q - 1] process r = zsum (Z.to_nat (p * q)) (fun x => if (Z.gcd x (p * q) =? 1) && (x =? r) then 1 else 0)).
  { intros r. unfold frequency, process. rewrite (count_pair (p - 1) (q - 1) (fun x y => gives Z.eqb (let* (_, r) := pwr_encrypt_and_get_rand flag k m x y in Ok r) r)).
    set (F := fun x => if x mod (p * q) =? r then 1 else 0).
    transitivity (zsum (Z.to_nat (p * q)) (fun x => if Z.gcd x (p * q) =? 1 then F x else 0)).
    - rewrite <- (gens_sum isp flag p q s sk Hp Hq Hs E F).
      + apply zsum_ext. intros x Hx. apply zsum_ext. intros y Hy. rewrite (pwr_reported isp flag p q s sk Hp Hq Hs E k m x y Ek Hm). cbn [bind gives]. unfold F, exponent. rewrite (Z.mod_small x (p - 1)), (Z.mod_small y (q - 1)) by lia. reflexivity.
      + intros x y E1 E2. unfold F. replace (y mod (p * q)) with (x mod (p * q)); [reflexivity|]. apply mod_eqmod_iff; [nia|].
        replace (p * q) with ((p * q) ^ 1) by ring. apply eqmod_join_pow; [lia|apply (priv_coprime p q s sk K)|rewrite Z.pow_1_r; exact E1|rewrite Z.pow_1_r; exact E2].
    - apply zsum_ext. intros x Hx. rewrite Z2Nat.id in Hx by nia. destruct (Z.gcd x (p * q) =? 1); [|reflexivity]. unfold F. rewrite (Z.mod_small x) by exact Hx. reflexivity. }
  assert (P1 : forall r, unit_below (p * q) r -> frequency Z.eqb [p - 1; q - 1] process r = 1).
  { intros r [[R1 R2] G]. rewrite Q, (zsum_single _ r (fun x => Z.gcd x (p * q) =? 1)), G, Z2Nat.id by nia. destruct (Z.leb_spec 0 r), (Z.ltb_spec r (p * q)); [reflexivity|lia|lia|lia]. }
  split; [|exact P1]. exists 1. split; [lia|]. split; [exact P1|]. intros r N. rewrite Q, (zsum_single _ r (fun x => Z.gcd x (p * q) =? 1)), Z2Nat.id by nia.
  destruct (Z.eqb_spec (Z.gcd r (p * q)) 1) as [G|]; [|reflexivity]. destruct (Z.leb_spec 0 r); [|reflexivity]. destruct (Z.ltb_spec r (p * q)); [|reflexivity]. exfalso. apply N. split; [lia|exact G].
Qed.
Print Assumptions C100_unbiased.

(** A key that meets the hypotheses, and the counts for it: 60 pairs of draws, the ciphertexts of 3 with r = 5 and r = 7 made by one and by none of them. *)
Lemma safe_7 : safe_prime 7.
Proof. split; [apply prime_check; [lia|vm_compute; reflexivity]|]. exists 3. split; [apply prime_check; [lia|vm_compute; reflexivity]|lia]. Qed.
Lemma safe_11 : safe_prime 11.
Proof. split; [apply prime_check; [lia|vm_compute; reflexivity]|]. exists 5. split; [apply prime_check; [lia|vm_compute; reflexivity]|lia]. Qed.
Definition ex_small {A} (k : private_paillier -> private_with_rand -> public_paillier -> outcome A) : outcome A :=
  let* sk := private_create (fun _ => true) false 7 11 1 in let* w := private_with_rand_create false sk in let* pk := public_create false (7 * 11) 1 [77; 5] in k sk w pk.
Example C100_ex : ex_small (fun sk w pk =>
  let freq c := count [6; 10] (fun ds => match priv_encrypt false sk 3 (nth 0 ds 0) (nth 1 ds 0) with Ok c' => c' =? c | _ => false end) in
  let rep r := frequency Z.eqb [6; 10] (fun ds => let* (_, r) := pwr_encrypt_and_get_rand false w 3 (nth 0 ds 0) (nth 1 ds 0) in Ok r) r in
  let* c := pub_encrypt_with_rand pk 3 5 in Ok (freq c, rep 5, rep 7, rep 76)) = Ok (1, 1, 0, 1).
Proof. vm_compute. reflexivity. Qed.
