(** Counting over the keys of a group of prime order. *)
From Coq Require Import Znumtheory Permutation.
From Verif Require Import Base M_BigNum L_BigNum L_Mod L_DJ M_EC L_EC M_Group M_Cipher S_Cipher L_Cipher S_Hide L_Hide L_HideCom M_ElGamal S_ElGamal L_ElGamal S_HideKey.

Definition total (l : list Z) : Z := fold_right Z.add 0 l.
Definition range (n : nat) : list Z := map Z.of_nat (seq 0 n).
Lemma total_app a b : total (a ++ b) = total a + total b.
Proof. induction a as [|x a IH]; [reflexivity|]. cbn [total fold_right app]. fold (total (a ++ b)). fold (total a). rewrite IH. lia. Qed.
Lemma total_perm a b : Permutation a b -> total a = total b.
Proof. induction 1; cbn [total fold_right]; try fold (total l); try fold (total l'); lia. Qed.
Lemma zsum_total n f : zsum n f = total (map f (range n)).
Proof.
  unfold range. induction n as [|n IH]; [reflexivity|]. rewrite seq_S, !map_app, total_app. cbn [zsum]. rewrite IH. cbn [map total fold_right plus]. lia.
Qed.
Lemma range_in n d : In d (range n) <-> 0 <= d < Z.of_nat n.
Proof.
  unfold range. rewrite in_map_iff. split.
  - intros (i & <- & Hi). apply in_seq in Hi. lia.
  - intros H. exists (Z.to_nat d). split; [lia|]. apply in_seq. lia.
Qed.
Lemma range_nodup n : NoDup (range n).
Proof. apply FinFun.Injective_map_NoDup; [intros a b; lia|apply seq_NoDup]. Qed.
(** Renaming the draws by a bijection does not change a count. *)
Lemma zsum_rename n f s : (forall d, 0 <= d < Z.of_nat n -> 0 <= s d < Z.of_nat n) ->
  (forall d e, 0 <= d < Z.of_nat n -> 0 <= e < Z.of_nat n -> s d = s e -> d = e) -> zsum n (fun d => f (s d)) = zsum n f.
Proof.
  intros R I. rewrite !zsum_total, <- (map_map s f). apply total_perm, Permutation_map, NoDup_Permutation_bis.
  - assert (G : forall l, NoDup l -> (forall d, In d l -> In d (range n)) -> NoDup (map s l)).
    { intros l N. induction N as [|x l Nx N IH]; intros In1; [constructor|]. cbn [map]. constructor.
      - intros Hi. apply in_map_iff in Hi. destruct Hi as (y & Ey & Hy). apply Nx. rewrite <- (I y x); [exact Hy| | |exact Ey]; apply range_in, In1; cbn; tauto.
      - apply IH. intros d Hd. apply In1. right. exact Hd. }
    apply G; [apply range_nodup|auto].
  - rewrite map_length. lia.
  - intros y Hy. apply in_map_iff in Hy. destruct Hy as (d & <- & Hd). apply range_in, R, range_in, Hd.
Qed.

Section K.
Variable C : ec.
Hypothesis L : ec_laws C.
Notation n := (ec_order C).
Local Notation "k [*] P" := (pmul C k P) (at level 35).
Local Notation "P [+] Q" := (padd C P Q) (at level 50).

(** Every point is a multiple of every point that is not the identity. *)
Lemma log_exists g U : g <> pinf C -> exists k, 0 <= k < n /\ U = k [*] g.
Proof.
  intros Ng. destruct (gen_generates C L g) as [b Eb]. destruct (gen_generates C L U) as [a Ea]. pose proof (order_gt1 C L) as N1. pose proof (order_prime C L) as Np.
  assert (Hb : ~ (n | b)). { intros D. apply Ng. rewrite Eb. apply (pmul_inf_iff C L); [apply (gen_not_inf C L)|exact D]. }
  assert (R : rel_prime b n) by (apply rel_prime_sym, prime_rel_prime; assumption).
  destruct (rel_prime_bezout _ _ R) as [u v E].
  exists ((a * u) mod n). split; [apply Z.mod_pos_bound; lia|]. rewrite (pmul_mod C L), Ea, Eb, <- (pmul_mul C L). apply (pmul_eqmod C L).
  exists (a * v). replace a with (a * (u * b + v * n)) at 1 by (rewrite E; ring). ring.
Qed.
Lemma log_unit g U : g <> pinf C -> U <> pinf C -> exists k, 0 < k < n /\ U = k [*] g.
Proof.
  intros Ng NU. destruct (log_exists g U Ng) as (k & Hk & E). exists k. split; [|exact E].
  destruct (Z.eq_dec k 0) as [->|]; [|lia]. exfalso. apply NU. rewrite E. apply pmul_0.
Qed.

(** The multiples of P by all keys are the multiples of g by all keys. *)
Lemma keys_rename g P (f : pt C -> Z) : g <> pinf C -> P <> pinf C ->
  zsum (Z.to_nat (n - 1)) (fun d => f ((d + 1) [*] P)) = zsum (Z.to_nat (n - 1)) (fun d => f ((d + 1) [*] g)).
Proof.
  intros Ng NP. pose proof (order_gt1 C L) as N1. destruct (log_unit g P Ng NP) as (l & Hl & ->).
  assert (U : forall d, 0 <= d < n - 1 -> ((d + 1) * l) mod n <> 0).
  { intros d Hd E. apply Z.mod_divide in E; [|lia]. apply prime_mult in E; [|apply (order_prime C L)]. destruct E as [E|E]; apply Z.divide_pos_le in E; lia. }
  rewrite <- (zsum_rename (Z.to_nat (n - 1)) (fun d => f ((d + 1) [*] g)) (fun d => ((d + 1) * l) mod n - 1)).
  - apply zsum_ext. intros d Hd. rewrite Z2Nat.id in Hd by lia. cbn beta. f_equal. rewrite <- (pmul_mul C L). replace (((d + 1) * l) mod n - 1 + 1) with (((d + 1) * l) mod n) by lia. rewrite (pmul_mod C L). reflexivity.
  - intros d Hd. rewrite Z2Nat.id in * by lia. pose proof (U d Hd). pose proof (Z.mod_pos_bound ((d + 1) * l) n). lia.
  - intros d e Hd He E. rewrite Z2Nat.id in * by lia.
    assert (E' : ((d + 1) * l) mod n = ((e + 1) * l) mod n) by lia.
    assert (M : eqmod n (d + 1) (e + 1)).
    { apply (eqmod_cancel n l); [apply (key_unit C L); exact Hl|]. rewrite !(Z.mul_comm l). apply eq_eqmod. exact E'. }
    assert (d + 1 = e + 1); [|lia]. rewrite <- (Z.mod_small (d + 1) n), <- (Z.mod_small (e + 1) n) by lia. apply eqmod_eq; [lia|exact M].
Qed.

(** A new cipher uses key draw + 1. *)
Lemma cipher_new_key d h : 0 <= d < n - 1 -> validate_hash_type h = true -> exists c, cipher_new C d h = Ok c /\ ci_key c = d + 1 /\ ci_hash c = h /\ good C c.
Proof.
  intros Hd V. unfold cipher_new. rewrite V. cbn [negb].
  assert (K : generate_private_key C d = d + 1) by (unfold generate_private_key; rewrite Z.mod_small by lia; lia). rewrite K.
  destruct (cipher_make_ok C L (d + 1) h) as (c & E & Ek & Eh & _). exists c. split; [exact E|]. split; [exact Ek|]. split; [exact Eh|].
  apply (cipher_make_good C L (d + 1) h); [lia|exact E].
Qed.
Lemma random_point_key d : 0 <= d < n - 1 -> random_point C d = Ok (ec_enc C ((d + 1) [*] pgen C)).
Proof.
  intros Hd. unfold random_point. rewrite (point_mul_eq C L).
  replace (generate_private_key C d) with (d + 1) by (unfold generate_private_key; rewrite Z.mod_small by lia; lia).
  apply (point_to_bytes_ok C L). apply (pmul_not_inf C L); [apply (gen_not_inf C L)|]. rewrite Z.mod_small; lia.
Qed.
Lemma encrypt_fresh_is X sq sw fuel h m s d : validate_hash_type h = true -> 0 <= d < n - 1 -> forall P, hash_internal C X sq sw fuel h m = Ok P -> point_to_bytes C P = Ok s ->
  encrypt_fresh C X sq sw fuel h m d = Ok (ec_enc C ((d + 1) [*] P)).
Proof.
  intros V Hd P EP Es. destruct (cipher_new_key d h Hd V) as (c & Ec & Ek & Eh & G). unfold encrypt_fresh. rewrite Ec. cbn [bind].
  rewrite (encrypt_factor C L) by exact G. unfold cipher_hash. rewrite Eh, EP. cbn [bind]. rewrite Es, Ek. reflexivity.
Qed.
Lemma reencrypt_fresh_is h s d P : validate_hash_type h = true -> 0 <= d < n - 1 -> point_of_bytes C s = Ok P ->
  reencrypt_fresh C h s d = Ok (ec_enc C ((d + 1) [*] P)).
Proof.
  intros V Hd EP. destruct (cipher_new_key d h Hd V) as (c & Ec & Ek & Eh & G). unfold reencrypt_fresh. rewrite Ec. cbn [bind].
  unfold cipher_reencrypt. rewrite EP. cbn [bind]. rewrite Ek, (point_mul_eq C L). apply (point_to_bytes_ok C L).
  apply (pmul_not_inf C L); [apply (point_of_bytes_not_inf C L _ _ EP)|]. rewrite Z.mod_small; lia.
Qed.
Lemma fresh_uniform (f : Z -> outcome bytes) P (test : outcome bytes -> bool) : P <> pinf C -> (forall d, 0 <= d < n - 1 -> f d = Ok (ec_enc C ((d + 1) [*] P))) ->
  count [n - 1] (fun ds => test (f (draw ds))) = count [n - 1] (fun ds => test (random_point C (draw ds))).
Proof.
  intros NP Hf. pose proof (order_gt1 C L) as N1. cbn [count]. unfold draw. cbn [nth].
  transitivity (zsum (Z.to_nat (n - 1)) (fun d => (fun Q => if test (Ok (ec_enc C Q)) then 1 else 0) ((d + 1) [*] P))).
  { apply zsum_ext. intros d Hd. rewrite Z2Nat.id in Hd by lia. rewrite (Hf d Hd). reflexivity. }
  etransitivity; [exact (keys_rename (pgen C) P (fun Q => if test (Ok (ec_enc C Q)) then 1 else 0) (gen_not_inf C L) NP)|]. apply zsum_ext. intros d Hd. rewrite Z2Nat.id in Hd by lia. rewrite (random_point_key d Hd). reflexivity.
Qed.

(** An ElGamal ciphertext of m is determined by the exponent. *)
Definition masked (g y m : pt C) (k : Z) : eg_ct C := {| eg_u := k [*] g; eg_e := m [+] (k [*] y) |}.
Lemma masked_period g y m k : masked g y m (k + n) = masked g y m k.
Proof. unfold masked. f_equal; [|f_equal]; apply (pmul_eqmod C L); exists 1; ring. Qed.
Lemma key_draw d : 0 <= d < n - 1 -> generate_private_key C d = d + 1.
Proof. intros Hd. unfold generate_private_key. rewrite Z.mod_small by lia. lia. Qed.
Lemma encrypt_masked g y m d : 0 <= d < n - 1 -> eg_encrypt C {| eg_g := g; eg_y := y |} m d = masked g y m (d + 1).
Proof. intros Hd. unfold eg_encrypt, masked. cbn [eg_g eg_y]. rewrite (key_draw d Hd), !(point_mul_eq C L). reflexivity. Qed.
(** Whatever the ciphertext, re-randomizing shifts the exponent. *)
Lemma rerandomize_masked g x c m : g <> pinf C -> eg_decrypt C x c = m -> exists k, 0 <= k < n /\
  forall d, 0 <= d < n - 1 -> eg_rerandomize C {| eg_g := g; eg_y := x [*] g |} c d = masked g (x [*] g) m (d + 1 + k).
Proof.
  intros Ng E. destruct (log_exists g (eg_u C c) Ng) as (k & Hk & Eu). exists k. split; [exact Hk|]. intros d Hd.
  apply (decrypt_encrypts C L) in E. unfold encrypts in E. unfold eg_rerandomize, masked. cbn [eg_g eg_y]. rewrite (key_draw d Hd), !(point_mul_eq C L), E, Eu.
  f_equal.
  - rewrite (pmul_add C L (d + 1) k). apply (padd_comm C L).
  - rewrite (pmul_add C L (d + 1) k), <- (padd_assoc C L). f_equal. rewrite (padd_comm C L). f_equal. rewrite <- !(pmul_mul C L). f_equal. ring.
Qed.
(** All exponents but one against all exponents but another. *)
Lemma shifted_close (F : Z -> Z) k j : (forall d, 0 <= d -> F (d + n) = F d) -> (forall d, 0 <= F d <= 1) -> 0 <= k -> 0 <= j ->
  Z.abs (zsum (Z.to_nat (n - 1)) (fun d => F (d + 1 + k)) - zsum (Z.to_nat (n - 1)) (fun d => F (d + 1 + j))) <= 1.
Proof.
  intros Per B Hk Hj. pose proof (order_gt1 C L) as N1.
  assert (W : forall w, 0 <= w -> zsum (Z.to_nat (n - 1)) (fun d => F (d + 1 + w)) = zsum (Z.to_nat n) F - F (n + w)).
  { intros w Hw. pose proof (window F (Z.to_nat n)) as Wd. rewrite Z2Nat.id in Wd by lia. specialize (Wd Per (Z.to_nat (w + 1))). rewrite Z2Nat.id in Wd by lia.
    replace (Z.to_nat n) with (S (Z.to_nat (n - 1))) in Wd at 1 by lia. cbn [zsum] in Wd. rewrite Z2Nat.id in Wd by lia.
    replace (n - 1 + (w + 1)) with (n + w) in Wd by lia. rewrite <- Wd.
    rewrite (zsum_ext (Z.to_nat (n - 1)) (fun d => F (d + 1 + w)) (fun d => F (d + (w + 1)))); [lia|]. intros d _. f_equal. lia. }
  rewrite !W by assumption. pose proof (B (n + k)). pose proof (B (n + j)). lia.
Qed.
End K.
