(** Lemmas about the Damgard-Jurik helpers. *)
From Coq Require Import Znumtheory Zpow_facts.
From Verif Require Import Base M_BigNum L_BigNum L_Mod L_NT M_DJ.

Lemma bn_mod_ok a m : 0 < m -> bn_mod a m = Ok (a mod m).
Proof. intros H. unfold bn_mod. destruct (Z.eqb_spec m 0); [lia|]. rewrite Z.abs_eq by lia. reflexivity. Qed.
Lemma bn_mod_mul_ok a b m : 0 < m -> bn_mod_mul a b m = Ok ((a * b) mod m).
Proof. apply bn_mod_ok. Qed.

Lemma gcd_pow_r a b k : 0 <= k -> Z.gcd a b = 1 -> Z.gcd a (b ^ k) = 1.
Proof. intros Hk H. apply Zgcd_1_rel_prime. apply rel_prime_Zpower_r; [exact Hk|]. apply Zgcd_1_rel_prime. exact H. Qed.
Lemma gcd_pow_l a b k : 0 <= k -> Z.gcd a b = 1 -> Z.gcd (a ^ k) b = 1.
Proof. intros Hk H. rewrite Z.gcd_comm. apply gcd_pow_r; [exact Hk|]. rewrite Z.gcd_comm. exact H. Qed.
Lemma gcd_mul_l a b c : Z.gcd a c = 1 -> Z.gcd b c = 1 -> Z.gcd (a * b) c = 1.
Proof.
  intros Ha Hb. rewrite Z.gcd_comm. apply Zgcd_1_rel_prime. apply rel_prime_mult; apply Zgcd_1_rel_prime; rewrite Z.gcd_comm; assumption.
Qed.
Lemma gcd_divide_r a b c : (b | c) -> Z.gcd a c = 1 -> Z.gcd a b = 1.
Proof.
  intros D H. pose proof (Z.gcd_nonneg a b). assert (D1 : (Z.gcd a b | 1)).
  { rewrite <- H. apply Z.gcd_greatest; [apply Z.gcd_divide_l|]. apply Z.divide_trans with b; [apply Z.gcd_divide_r|exact D]. }
  apply Z.divide_1_r_nonneg in D1; assumption.
Qed.
Lemma gcd_divide_l a b c : (a | b) -> Z.gcd b c = 1 -> Z.gcd a c = 1.
Proof. intros D H. rewrite Z.gcd_comm. apply gcd_divide_r with b; [exact D|]. rewrite Z.gcd_comm. exact H. Qed.
Lemma gcd_pow_inv_r a b k : 0 < k -> Z.gcd a (b ^ k) = 1 -> Z.gcd a b = 1.
Proof. intros Hk H. apply gcd_divide_r with (b ^ k); [|exact H]. exists (b ^ (k - 1)). rewrite Z.mul_comm, <- Z.pow_succ_r by lia. f_equal. lia. Qed.
Lemma gcd_eqmod a b m : eqmod m a b -> Z.gcd b m = 1 -> Z.gcd a m = 1.
Proof.
  intros [k H] G. assert (E : a = b + k * m) by lia. subst a. pose proof (Z.gcd_nonneg (b + k * m) m).
  assert (D1 : (Z.gcd (b + k * m) m | 1)).
  { rewrite <- G. apply Z.gcd_greatest; [|apply Z.gcd_divide_r]. 
    assert (E : b = (b + k * m) - k * m) by lia. rewrite E at 2. apply Z.divide_sub_r; [apply Z.gcd_divide_l|].
    apply Z.divide_mul_r, Z.gcd_divide_r. }
  apply Z.divide_1_r_nonneg in D1; assumption.
Qed.

Lemma pow_divide_pow b i j : 0 <= i <= j -> (b ^ i | b ^ j).
Proof. intros H. exists (b ^ (j - i)). rewrite <- Z.pow_add_r by lia. f_equal. lia. Qed.
Lemma divide_pow a b k : (a | b) -> (a ^ k | b ^ k).
Proof. intros [w ->]. exists (w ^ k). rewrite Z.pow_mul_l. reflexivity. Qed.

(** ** Powers *)

Lemma powers_loop_nth num n : forall last i, (i < n)%nat -> nth_error (powers_loop n last num) i = Some (last * num ^ Z.of_nat (S i)).
Proof.
  induction n as [|n IH]; intros last i Hi; [lia|]. cbn [powers_loop]. destruct i as [|i]; cbn [nth_error].
  - change (Z.of_nat 1) with 1. rewrite Z.pow_1_r. reflexivity.
  - rewrite IH by lia. rewrite (Nat2Z.inj_succ (S i)), (Z.pow_succ_r _ (Z.of_nat (S i))) by lia. f_equal. ring.
Qed.
Lemma get_powers_at num s i : (i <= s + 1)%nat -> vec_at (get_powers num s) i = Ok (num ^ Z.of_nat i).
Proof.
  intros Hi. unfold vec_at, get_powers. destruct i as [|i]; [reflexivity|]. cbn [nth_error]. rewrite powers_loop_nth by lia.
  rewrite Z.mul_1_l. reflexivity.
Qed.
Lemma powers_loop_length num n : forall last, length (powers_loop n last num) = n.
Proof. induction n as [|n IH]; intros last; [reflexivity|]. cbn. rewrite IH. reflexivity. Qed.
Lemma get_powers_length num s : length (get_powers num s) = S (s + 1).
Proof. cbn [get_powers length]. rewrite powers_loop_length. reflexivity. Qed.

(** ** Inverse factorials *)

Definition fact_coprime (b : Z) (s : nat) : Prop := forall i, (1 <= i <= s)%nat -> Z.gcd (Z.of_nat i) b = 1.
Lemma fact_coprime_zfact b s k : fact_coprime b s -> (k <= s)%nat -> Z.gcd (zfact k) b = 1.
Proof.
  intros H. induction k as [|k IH]; intros Hk; [apply Z.gcd_1_l|]. rewrite zfact_S. apply gcd_mul_l; [|apply IH; lia].
  replace (Z.of_nat k + 1) with (Z.of_nat (S k)) by lia. apply H. lia.
Qed.

Definition pre_spec (b num : Z) (s : nat) (pre : list Z) : Prop :=
  length pre = S s /\ forall j, (j <= s)%nat -> exists a, vec_at pre j = Ok a /\ eqmod (b ^ (Z.of_nat s + 1)) (a * zfact j) (num ^ Z.of_nat j).

Lemma bind_ok {A B} (x : outcome A) (f : A -> outcome B) r : (let* a := x in f a) = Ok r -> exists a, x = Ok a /\ f a = Ok r.
Proof. destruct x as [a|c| | |]; cbn; intros H; try discriminate. exists a. split; [reflexivity|exact H]. Qed.
Lemma value_or_crash_ok {A} (x : outcome A) r : value_or_crash x = Ok r -> x = Ok r.
Proof. destruct x; cbn; intros H; try discriminate. exact H. Qed.

Lemma precomp_loop_inv M num n : 0 < M -> forall k last pre, precomp_loop n (Z.of_nat k + 1) last num M = Ok pre ->
  eqmod M (last * zfact k) (num ^ Z.of_nat k) ->
  length pre = n /\
  (forall j, (j < n)%nat -> exists a, nth_error pre j = Some a /\ eqmod M (a * zfact (k + S j)) (num ^ Z.of_nat (k + S j))) /\
  (forall j, (j < n)%nat -> Z.gcd (Z.of_nat (k + S j)) M = 1).
Proof.
  intros HM. induction n as [|n IH]; intros k last pre E Hl; cbn [precomp_loop] in E.
  - injection E as <-. split; [reflexivity|]. split; intros; lia.
  - apply bind_ok in E. destruct E as (inv & E1 & E). apply value_or_crash_ok in E1. apply bn_mod_inverse_inv in E1. destruct E1 as (_ & G & _ & I).
    rewrite !bn_mod_mul_ok in E by exact HM. cbn [bind] in E. rewrite bn_mod_mul_ok in E by exact HM. cbn [bind] in E.
    apply bind_ok in E. destruct E as (rest & E & E'). injection E' as <-.
    set (y := (last * ((inv * num) mod M)) mod M) in *.
    assert (Hy : eqmod M (y * zfact (S k)) (num ^ Z.of_nat (S k))).
    { unfold y. rewrite !eqmod_mod. rewrite zfact_S.
      replace (last * (inv * num) * ((Z.of_nat k + 1) * zfact k)) with ((last * zfact k) * num * ((Z.of_nat k + 1) * inv)) by ring.
      rewrite Hl. apply eq_eqmod in I. rewrite I. rewrite Z.mul_1_r, Z.mul_comm, Nat2Z.inj_succ, Z.pow_succ_r by lia. reflexivity. }
    replace (Z.of_nat k + 1 + 1) with (Z.of_nat (S k) + 1) in E by lia.
    destruct (IH _ _ _ E Hy) as (L & F & C). split; [cbn; rewrite L; reflexivity|]. split.
    + intros [|j] Hj; cbn [nth_error].
      * exists y. split; [reflexivity|]. replace (k + 1)%nat with (S k) by lia. exact Hy.
      * destruct (F j ltac:(lia)) as (a & Ea & Ha). exists a. split; [exact Ea|]. replace (k + S (S j))%nat with (S k + S j)%nat by lia. exact Ha.
    + intros [|j] Hj.
      * replace (Z.of_nat (k + 1)) with (Z.of_nat k + 1) by lia. exact G.
      * replace (k + S (S j))%nat with (S k + S j)%nat by lia. apply C. lia.
Qed.

Lemma get_precomp_inv b num s pre : 1 < b -> get_precomp num (b ^ (Z.of_nat s + 1)) s = Ok pre -> pre_spec b num s pre /\ fact_coprime b s.
Proof.
  intros Hb E. unfold get_precomp in E. apply bind_ok in E. destruct E as (rest & E & E'). injection E' as <-.
  assert (HM : 0 < b ^ (Z.of_nat s + 1)) by (apply Z.pow_pos_nonneg; lia).
  change 1 with (Z.of_nat 0 + 1) in E at 1. apply (precomp_loop_inv _ _ _ HM) in E; [|reflexivity]. destruct E as (L & F & C). split.
  - split; [cbn; rewrite L; reflexivity|]. intros [|j] Hj; unfold vec_at; cbn [nth_error].
    + exists 1. split; reflexivity.
    + destruct (F j ltac:(lia)) as (a & Ea & Ha). exists a. rewrite Ea. split; [reflexivity|exact Ha].
  - intros [|i] Hi; [lia|]. apply gcd_pow_inv_r with (Z.of_nat s + 1); [lia|]. apply (C i). lia.
Qed.

Lemma precomp_loop_ok M num n : 0 < M -> forall i last, (forall j, i <= j < i + Z.of_nat n -> Z.gcd j M = 1) ->
  exists pre, precomp_loop n i last num M = Ok pre.
Proof.
  intros HM. induction n as [|n IH]; intros i last H; cbn [precomp_loop]; [eexists; reflexivity|].
  destruct (bn_mod_inverse_ok i M HM) as (inv & E & _); [apply H; lia|]. rewrite E. cbn [value_or_crash bind].
  rewrite bn_mod_mul_ok by exact HM. cbn [bind]. rewrite bn_mod_mul_ok by exact HM. cbn [bind].
  destruct (IH (i + 1) ((last * ((inv * num) mod M)) mod M)) as (pre & Ep); [intros j Hj; apply H; lia|].
  rewrite Ep. cbn [bind]. eexists. reflexivity.
Qed.
Lemma get_precomp_ok b num s : 1 < b -> fact_coprime b s -> exists pre, get_precomp num (b ^ (Z.of_nat s + 1)) s = Ok pre.
Proof.
  intros Hb H. assert (HM : 0 < b ^ (Z.of_nat s + 1)) by (apply Z.pow_pos_nonneg; lia). unfold get_precomp.
  destruct (precomp_loop_ok _ num s HM 1 1) as (pre & E).
  - intros j Hj. apply gcd_pow_r; [lia|]. rewrite <- (Z2Nat.id j) by lia. apply H. lia.
  - rewrite E. cbn [bind]. eexists. reflexivity.
Qed.

(** The i-th entry is a multiple of b^i. *)
Lemma pre_divides b num s pre j a : 1 < b -> (b | num) -> pre_spec b num s pre -> fact_coprime b s -> (j <= s)%nat -> vec_at pre j = Ok a -> (b ^ Z.of_nat j | a).
Proof.
  intros Hb D [_ P] F Hj Ea. destruct (P j Hj) as (a' & Ea' & Ha). rewrite Ea in Ea'. injection Ea' as <-.
  apply Z.gauss with (zfact j).
  - rewrite Z.mul_comm. apply eqmod_0. rewrite (eqmod_divide (b ^ Z.of_nat j) (b ^ (Z.of_nat s + 1)) _ _ (pow_divide_pow b (Z.of_nat j) (Z.of_nat s + 1) ltac:(lia)) Ha).
    apply eqmod_0. apply divide_pow, D.
  - rewrite Z.gcd_comm. apply gcd_pow_r; [lia|]. apply (fact_coprime_zfact b s); assumption.
Qed.

(** ** The expansion *)

Section Expansion.
Variables (b num : Z) (s : nat) (pre : list Z).
Hypothesis Hb : 1 < b.
Hypothesis Hd : (b | num).
Hypothesis Hpre : pre_spec b num s pre.
Hypothesis Hf : fact_coprime b s.
Let M := b ^ (Z.of_nat s + 1).
Let powers := get_powers b s.

Lemma pow_b_pos k : 0 < b ^ Z.of_nat k.
Proof. apply Z.pow_pos_nonneg; lia. Qed.

Lemma expansion_term r j a : 0 <= r -> (j <= s)%nat -> vec_at pre j = Ok a ->
  eqmod M (ff r j * a) (binom (Z.to_nat r) j * num ^ Z.of_nat j).
Proof.
  intros Hr Hj Ea. destruct Hpre as [_ P]. destruct (P j Hj) as (a' & Ea' & Ha). rewrite Ea in Ea'. injection Ea' as <-.
  rewrite <- (Z2Nat.id r) at 1 by exact Hr. rewrite <- binom_ff. rewrite <- Z.mul_assoc, (Z.mul_comm (zfact j)). fold M in Ha. rewrite Ha. reflexivity.
Qed.

Lemma expansion_loop_ok r n : 0 <= r -> forall j c tmp, (j + n = s)%nat ->
  eqmod (b ^ Z.of_nat (s - j + 1)) tmp (ff r j) ->
  eqmod M c (bin_sum num (Z.to_nat r) (S j)) ->
  exists c', expansion_loop n (S j) s pre powers r c tmp = Ok c' /\ eqmod M c' (bin_sum num (Z.to_nat r) (S s)).
Proof.
  intros Hr. induction n as [|n IH]; intros j c tmp Hj Ht Hc; cbn [expansion_loop].
  - exists c. split; [reflexivity|]. replace s with j by lia. exact Hc.
  - destruct (Z.ltb_spec r (Z.of_nat (S j))) as [Hlt|Hge].
    + exists c. split; [reflexivity|]. rewrite Hc.
      assert (E : bin_sum num (Z.to_nat r) (S s) = bin_sum num (Z.to_nat r) (S j)); [|rewrite E; reflexivity].
      replace (S s) with (S n + S j)%nat by lia. clear -Hlt. unfold bin_sum. induction (S n) as [|m IH]; [reflexivity|].
      change (S m + S j)%nat with (S (m + S j)). cbn [zsum]. rewrite IH, (binom_big (Z.to_nat r) (m + S j)) by lia. cbn [zsum]. lia.
    + replace (s - S j + 1)%nat with (s - j)%nat by lia. unfold powers. rewrite get_powers_at by lia. cbn [bind].
      rewrite bn_mod_mul_ok by apply pow_b_pos. cbn [bind].
      destruct (proj2 Hpre (S j) ltac:(lia)) as (a & Ea & _). rewrite Ea. cbn [bind].
      rewrite get_powers_at by lia. cbn [bind]. rewrite bn_mod_mul_ok by apply pow_b_pos. cbn [bind].
      replace (Z.of_nat (s + 1)) with (Z.of_nat s + 1) by lia. fold M.
      set (tmp' := (tmp * (r - Z.of_nat (S j) + 1)) mod b ^ Z.of_nat (s - j)).
      assert (Ht' : eqmod (b ^ Z.of_nat (s - j)) tmp' (ff r (S j))).
      { unfold tmp'. rewrite eqmod_mod. cbn [ff]. replace (r - Z.of_nat (S j) + 1) with (r - Z.of_nat j) by lia.
        apply eqmod_mul; [|reflexivity]. apply (eqmod_divide _ _ _ _ (pow_divide_pow b (Z.of_nat (s - j)) (Z.of_nat (s - j + 1)) ltac:(lia)) Ht). }
      assert (Hterm : eqmod M (tmp' * a) (binom (Z.to_nat r) (S j) * num ^ Z.of_nat (S j))).
      { rewrite <- (expansion_term r (S j) a Hr ltac:(lia) Ea).
        destruct (pre_divides b num s pre (S j) a Hb Hd Hpre Hf ltac:(lia) Ea) as [w Hw]. subst a.
        destruct Ht' as [v Hv]. exists (v * w). unfold M. replace (Z.of_nat s + 1) with (Z.of_nat (s - j) + Z.of_nat (S j)) by lia.
        rewrite Z.pow_add_r by lia. replace tmp' with (ff r (S j) + v * b ^ Z.of_nat (s - j)) by lia. ring. }
      replace (S j + 1)%nat with (S (S j)) by lia. apply IH; [lia| |].
      * replace (s - S j + 1)%nat with (s - j)%nat by lia. exact Ht'.
      * rewrite eqmod_mod, Hterm, Hc. reflexivity.
Qed.

Lemma one_plus_period m : 0 <= m -> eqmod M ((1 + num) ^ m) ((1 + num) ^ (m mod b ^ Z.of_nat s)).
Proof.
  intros Hm. pose proof (pow_b_pos s) as Hp. pose proof (Z.mod_pos_bound m _ Hp). pose proof (Z.div_pos m _ Hm Hp).
  rewrite (Z.div_mod m (b ^ Z.of_nat s)) at 1 by lia. rewrite Z.pow_add_r by nia. rewrite Z.pow_mul_r by lia. unfold M.
  rewrite (lift b s (1 + num) 1); [|lia|].
  - rewrite Z.pow_1_l by lia. rewrite Z.pow_1_l by assumption. rewrite Z.mul_1_l. reflexivity.
  - apply eqmod_0 in Hd. rewrite Hd. reflexivity.
Qed.

Lemma binomial_expansion_ok m : exists c, binomial_expansion pre powers m = Ok c /\
  eqmod M c ((1 + num) ^ (m mod b ^ Z.of_nat s)).
Proof.
  unfold binomial_expansion. rewrite (proj1 Hpre). replace (S s - 1)%nat with s by lia. unfold powers. rewrite get_powers_at by lia. cbn [bind].
  pose proof (pow_b_pos s) as Hp. rewrite bn_mod_ok by exact Hp. cbn [bind]. pose proof (Z.mod_pos_bound m _ Hp) as Hr.
  set (r := m mod b ^ Z.of_nat s) in *.
  destruct (expansion_loop_ok r s (proj1 Hr) 0 1 1) as (c & E & Ec); [lia|cbn [ff]; reflexivity| |].
  - assert (E : bin_sum num (Z.to_nat r) 1 = 1); [|rewrite E; reflexivity]. unfold bin_sum. cbn [zsum]. rewrite binom_0_r.
    change (Z.of_nat 0) with 0. rewrite Z.pow_0_r. reflexivity.
  - unfold powers in E. rewrite E. exists c. split; [reflexivity|]. rewrite Ec. symmetry. rewrite <- (Z2Nat.id r) at 1 by lia.
    apply (eqmod_divide M (num ^ Z.of_nat (S s))); [|apply binomial_trunc]. unfold M. replace (Z.of_nat s + 1) with (Z.of_nat (S s)) by lia.
    apply divide_pow, Hd.
Qed.
End Expansion.

(** ** The decryption table *)

Definition tget (s : nat) (t : table) (x y : nat) : option Z := table_find t (x * (s + 1) + y).
Lemma key_inj s x y x' y' : (y <= s -> y' <= s -> x * (s + 1) + y = x' * (s + 1) + y' -> x = x' /\ y = y')%nat.
Proof. intros H H' E. assert (x = x')%nat by nia. subst. lia. Qed.

Lemma table_get_tget s t x y v : (y <= s)%nat -> tget s t x y = Some v -> table_get (s + 1) t x y = Ok v.
Proof. intros Hy H. unfold table_get. destruct (Nat.ltb_spec y (s + 1)); [|lia]. cbn [negb]. unfold tget in H. rewrite H. reflexivity. Qed.
Lemma table_insert_ok s t x y v : (y <= s)%nat -> tget s t x y = None -> exists t', table_insert (s + 1) t x y v = Ok t' /\
  tget s t' x y = Some v /\ forall x' y', (y' <= s)%nat -> (x' <> x \/ y' <> y) -> tget s t' x' y' = tget s t x' y'.
Proof.
  intros Hy H. unfold table_insert. destruct (Nat.ltb_spec y (s + 1)); [|lia]. cbn [negb]. unfold tget in H. rewrite H.
  eexists. split; [reflexivity|]. unfold tget. cbn [table_find]. rewrite Nat.eqb_refl. split; [reflexivity|].
  intros x' y' Hy' Hne. destruct (Nat.eqb_spec (x * (s + 1) + y) (x' * (s + 1) + y')) as [E|]; [|reflexivity].
  apply key_inj in E; [|assumption|assumption]. destruct E as [E1 E2]. subst. exfalso. destruct Hne; contradiction.
Qed.

Section Table.
Variables (b num : Z) (s : nat) (pre : list Z).
Hypothesis Hb : 1 < b.
Hypothesis Hpre : pre_spec b num s pre.
Hypothesis Hf : fact_coprime b s.
Let powers := get_powers b s.

Definition entry_ok (k j : nat) (v : Z) : Prop := eqmod (b ^ Z.of_nat j) (v * zfact k) (num ^ Z.of_nat (k - 1)).

Lemma decrypt_row_ok k : (2 <= k <= s)%nat -> forall n t, (k + n <= s)%nat ->
  (forall j, (k + n <= j <= s)%nat -> exists v, tget s t k j = Some v /\ entry_ok k j v) ->
  (forall j, (j < k + n)%nat -> tget s t k j = None) ->
  exists t', decrypt_row n (s + 1) k powers t = Ok t' /\
    (forall j, (k <= j <= s)%nat -> exists v, tget s t' k j = Some v /\ entry_ok k j v) /\
    (forall x y, (y <= s)%nat -> x <> k -> tget s t' x y = tget s t x y).
Proof.
  intros Hk. induction n as [|n IH]; intros t Hn Hin Hout; cbn [decrypt_row].
  - exists t. split; [reflexivity|]. split; [|reflexivity]. intros j Hj. apply Hin. lia.
  - destruct (Hin (k + n + 1)%nat ltac:(lia)) as (v & Ev & Hv). rewrite (table_get_tget s t k (k + n + 1) v) by (try exact Ev; lia). cbn [bind].
    unfold powers. rewrite get_powers_at by lia. cbn [bind]. rewrite bn_mod_ok by (apply Z.pow_pos_nonneg; lia). cbn [bind].
    destruct (table_insert_ok s t k (k + n) (v mod b ^ Z.of_nat (k + n)) ltac:(lia) (Hout (k + n)%nat ltac:(lia))) as (t1 & E1 & G1 & O1). rewrite E1. cbn [bind].
    destruct (IH t1) as (t2 & E2 & G2 & O2); [lia| | |].
    + intros j Hj. destruct (Nat.eq_dec j (k + n)) as [->|Hne].
      * eexists. split; [exact G1|]. unfold entry_ok in *. rewrite eqmod_mod. 
        apply (eqmod_divide _ _ _ _ (pow_divide_pow b (Z.of_nat (k + n)) (Z.of_nat (k + n + 1)) ltac:(lia)) Hv).
      * rewrite O1 by (try lia; right; exact Hne). apply Hin. lia.
    + intros j Hj. rewrite O1 by (try lia; right; lia). apply Hout. lia.
    + unfold powers in E2. rewrite E2. exists t2. split; [reflexivity|]. split; [exact G2|]. intros x y Hy Hx. rewrite O2 by assumption. apply O1; [exact Hy|left; exact Hx].
Qed.

Lemma decrypt_rows_ok n : forall k t, (k + n = s + 1)%nat -> (2 <= k)%nat ->
  (forall x y, (y <= s)%nat -> (k <= x)%nat -> tget s t x y = None) ->
  (forall x j, (2 <= x < k)%nat -> (x <= j <= s)%nat -> exists v, tget s t x j = Some v /\ entry_ok x j v) ->
  exists t', decrypt_rows n k s pre powers t = Ok t' /\
    (forall x j, (2 <= x)%nat -> (x <= j <= s)%nat -> exists v, tget s t' x j = Some v /\ entry_ok x j v).
Proof.
  induction n as [|n IH]; intros k t Hk H2 Hout Hin; cbn [decrypt_rows].
  - exists t. split; [reflexivity|]. intros x j Hx Hj. apply Hin; lia.
  - unfold powers. rewrite get_powers_at by lia. cbn [bind].
    assert (Hps : 0 < b ^ Z.of_nat s) by (apply Z.pow_pos_nonneg; lia).
    destruct (bn_mod_inverse_ok (Z.of_nat k) _ Hps) as (inv & Ei & _ & I); [apply gcd_pow_r; [lia|apply Hf; lia]|].
    rewrite Ei. cbn [value_or_crash bind]. destruct (proj2 Hpre (k - 1)%nat ltac:(lia)) as (a & Ea & Ha). rewrite Ea. cbn [bind].
    rewrite bn_mod_mul_ok by exact Hps. cbn [bind].
    destruct (table_insert_ok s t k s ((inv * a) mod b ^ Z.of_nat s) (le_n s) (Hout k s (le_n s) (le_n k))) as (t1 & E1 & G1 & O1). rewrite E1. cbn [bind].
    assert (Hent : entry_ok k s ((inv * a) mod b ^ Z.of_nat s)).
    { unfold entry_ok. rewrite eqmod_mod. apply eq_eqmod in I.
      apply (eqmod_divide _ _ _ _ (pow_divide_pow b (Z.of_nat s) (Z.of_nat s + 1) ltac:(lia))) in Ha.
      replace k with (S (k - 1)) at 1 by lia. rewrite zfact_S. replace (Z.of_nat (k - 1) + 1) with (Z.of_nat k) by lia.
      replace (inv * a * (Z.of_nat k * zfact (k - 1))) with ((Z.of_nat k * inv) * (a * zfact (k - 1))) by ring. rewrite I, Ha, Z.mul_1_l. reflexivity. }
    destruct (decrypt_row_ok k ltac:(lia) (s - k) t1) as (t2 & E2 & G2 & O2); [lia| | |].
    + intros j Hj. assert (j = s) by lia. subst j. eexists. split; [exact G1|exact Hent].
    + intros j Hj. rewrite O1 by (try lia; right; lia). apply Hout; lia.
    + unfold powers in E2. rewrite E2. cbn [bind]. apply IH; [lia|lia| |].
      * intros x y Hy Hx. rewrite O2 by lia. rewrite O1 by (try assumption; left; lia). apply Hout; lia.
      * intros x j Hx Hj. destruct (Nat.eq_dec x k) as [->|Hne]; [apply G2; lia|].
        rewrite O2 by lia. rewrite O1 by (try lia; left; lia). apply Hin; lia.
Qed.

Lemma get_decrypt_precomp_ok : exists t, get_decrypt_precomp pre powers s = Ok t /\
  (forall x j, (2 <= x)%nat -> (x <= j <= s)%nat -> exists v, table_get (s + 1) t x j = Ok v /\ entry_ok x j v).
Proof.
  unfold get_decrypt_precomp. destruct (Nat.eq_dec s 0) as [Es|Es].
  - replace (s - 1)%nat with 0%nat by lia. eexists. split; [reflexivity|]. intros; lia.
  - destruct (decrypt_rows_ok (s - 1) 2 []) as (t & E & H); [lia|lia|reflexivity|intros; lia|].
    rewrite E. exists t. split; [reflexivity|]. intros x j Hx Hj. destruct (H x j Hx Hj) as (v & Ev & Hv). exists v. split; [|exact Hv].
    apply table_get_tget; [lia|exact Ev].
Qed.
End Table.

(** ** Extracting the exponent *)

(** One subtracted term of the decryption loop: if [t] is congruent to ff i k modulo b^(j-1) and [v] is the table entry (k, j),
    then t * v is the k-th term of the expansion divided by n. *)
Lemma extract_term b num s k j i t v : 1 < b -> (b | num) -> fact_coprime b s -> (2 <= k <= j)%nat -> (j <= s)%nat -> 0 <= i ->
  entry_ok b num k j v -> eqmod (b ^ Z.of_nat (j - 1)) t (ff i k) ->
  eqmod (b ^ Z.of_nat j) (t * v) (binom (Z.to_nat i) k * num ^ Z.of_nat (k - 1)).
Proof.
  intros Hb Hd Hf Hk Hj Hi Hv [w Hw]. unfold entry_ok in Hv.
  assert (Dv : (b | v)).
  { apply Z.gauss with (zfact k).
    - rewrite Z.mul_comm. apply eqmod_0. 
      assert (D : (b | b ^ Z.of_nat j)) by (exists (b ^ (Z.of_nat j - 1)); rewrite Z.mul_comm, <- Z.pow_succ_r by lia; f_equal; lia).
      rewrite (eqmod_divide _ _ _ _ D Hv). apply eqmod_0. apply Z.divide_trans with num; [exact Hd|].
      exists (num ^ (Z.of_nat (k - 1) - 1)). rewrite Z.mul_comm, <- Z.pow_succ_r by lia. f_equal. lia.
    - rewrite Z.gcd_comm. apply (fact_coprime_zfact b s); [exact Hf|lia]. }
  assert (E : eqmod (b ^ Z.of_nat j) (t * v) (ff i k * v)).
  { destruct Dv as [x ->]. exists (w * x). replace (Z.of_nat j) with (Z.of_nat (j - 1) + 1) by lia. rewrite Z.pow_add_r, Z.pow_1_r by lia.
    replace t with (ff i k + w * b ^ Z.of_nat (j - 1)) by lia. ring. }
  rewrite E. rewrite <- (Z2Nat.id i) at 1 by exact Hi. rewrite <- binom_ff, <- Z.mul_assoc, (Z.mul_comm (zfact k)), Hv. reflexivity.
Qed.

(** The sum that [L((1+n)^i)] equals: sum for k = 1..s of binom i k * n^(k-1). *)
Definition lsum (num i : Z) (s : nat) : Z := zsum (fun k => binom (Z.to_nat i) (S k) * num ^ Z.of_nat k) s.

Lemma lsum_mod b num i s j : (b | num) -> (j <= s)%nat -> eqmod (b ^ Z.of_nat j) (lsum num i s) (lsum num i j).
Proof.
  intros Hd Hj. unfold lsum. replace s with ((s - j) + j)%nat by lia. induction (s - j)%nat as [|m IH]; [reflexivity|].
  change (S m + j)%nat with (S (m + j)). cbn [zsum]. rewrite IH.
  assert (D : (b ^ Z.of_nat j | num ^ Z.of_nat (m + j))).
  { apply Z.divide_trans with (num ^ Z.of_nat j); [apply divide_pow, Hd|]. apply pow_divide_pow. lia. }
  apply eqmod_0 in D. rewrite D, Z.mul_0_r, Z.add_0_r. reflexivity.
Qed.

Lemma one_plus_lsum num i s : 0 <= i -> eqmod (num ^ Z.of_nat (S s)) ((1 + num) ^ i) (1 + num * lsum num i s).
Proof.
  intros Hi. rewrite <- (Z2Nat.id i) at 1 by exact Hi. rewrite binomial_trunc.
  assert (E : bin_sum num (Z.to_nat i) (S s) = 1 + num * lsum num i s); [|rewrite E; reflexivity].
  unfold bin_sum, lsum. induction s as [|s IH].
  - cbn [zsum]. rewrite binom_0_r. change (Z.of_nat 0) with 0. rewrite Z.pow_0_r. lia.
  - cbn [zsum] in IH |- *. rewrite IH, Nat2Z.inj_succ, Z.pow_succ_r by lia. ring.
Qed.

Lemma lsum_first num i j : (1 <= j)%nat -> 0 <= i -> lsum num i j = i + zsum (fun k => binom (Z.to_nat i) (S (S k)) * num ^ Z.of_nat (S k)) (j - 1).
Proof.
  intros Hj Hi. unfold lsum. replace j with (S (j - 1)) at 1 by lia. induction (j - 1)%nat as [|m IH].
  - cbn [zsum]. pose proof (binom_ff (Z.to_nat i) 1) as B. change (zfact 1) with 1 in B. cbn [ff] in B. rewrite Z2Nat.id in B by lia.
    change (Z.of_nat 0) with 0 in *. rewrite Z.pow_0_r. lia.
  - cbn [zsum] in IH |- *. rewrite IH. lia.
Qed.

(** (1+n) has order b^s modulo b^(s+1). *)
Lemma one_plus_inj b o s i i' : 1 < b -> Z.gcd o b = 1 -> fact_coprime b s -> 0 <= i -> 0 <= i' ->
  eqmod (b ^ (Z.of_nat s + 1)) ((1 + b * o) ^ i) ((1 + b * o) ^ i') -> eqmod (b ^ Z.of_nat s) i i'.
Proof.
  intros Hb Ho Hf Hi Hi' H. set (num := b * o) in *.
  assert (Hd : (b | num)) by (exists o; unfold num; ring).
  assert (HL : eqmod (b ^ Z.of_nat s) (lsum num i s) (lsum num i' s)).
  { apply (eqmod_cancel _ o); [apply gcd_pow_r; [lia|exact Ho]|].
    assert (D : (b ^ (Z.of_nat s + 1) | num ^ Z.of_nat (S s))) by (replace (Z.of_nat s + 1) with (Z.of_nat (S s)) by lia; apply divide_pow, Hd).
    rewrite (eqmod_divide _ _ _ _ D (one_plus_lsum num i s Hi)), (eqmod_divide _ _ _ _ D (one_plus_lsum num i' s Hi')) in H.
    destruct H as [w Hw]. exists w. rewrite Z.pow_add_r, Z.pow_1_r in Hw by lia. unfold num in Hw at 1 3. nia. }
  (* induction on the exponent *)
  assert (Hj : forall j, (j <= s)%nat -> eqmod (b ^ Z.of_nat j) i i'); [|apply (Hj s); lia].
  induction j as [|j IH]; intros Hj; [change (Z.of_nat 0) with 0; rewrite Z.pow_0_r; exists (i - i'); lia|].
  specialize (IH ltac:(lia)).
  assert (HLj : eqmod (b ^ Z.of_nat (S j)) (lsum num i (S j)) (lsum num i' (S j))).
  { rewrite <- (lsum_mod b num i s (S j) Hd Hj), <- (lsum_mod b num i' s (S j) Hd Hj).
    apply (eqmod_divide _ _ _ _ (pow_divide_pow b (Z.of_nat (S j)) (Z.of_nat s) ltac:(lia)) HL). }
  rewrite !lsum_first in HLj by lia. replace (S j - 1)%nat with j in HLj by lia.
  assert (Ht : eqmod (b ^ Z.of_nat (S j)) (zsum (fun k => binom (Z.to_nat i) (S (S k)) * num ^ Z.of_nat (S k)) j) (zsum (fun k => binom (Z.to_nat i') (S (S k)) * num ^ Z.of_nat (S k)) j)).
  { apply zsum_eqmod. intros k Hk.
    (* binom i k * k! depends on i modulo b^j; num^(k+1) supplies another b *)
    apply (eqmod_cancel _ (zfact (S (S k)))); [apply gcd_pow_r; [lia|]; apply (fact_coprime_zfact b s); [exact Hf|lia]|].
    rewrite !(Z.mul_assoc (zfact _)), !(Z.mul_comm (zfact _)), !binom_ff, !Z2Nat.id by lia.
    assert (Hff : forall m, eqmod (b ^ Z.of_nat j) (ff i m) (ff i' m)).
    { induction m as [|m IHm]; [reflexivity|]. cbn [ff]. rewrite IHm, IH. reflexivity. }
    destruct (Hff (S (S k))) as [w Hw]. destruct Hd as [o' Ho']. exists (w * o' * num ^ Z.of_nat k).
    rewrite !Nat2Z.inj_succ, !Z.pow_succ_r by lia. replace (ff i (S (S k))) with (ff i' (S (S k)) + w * b ^ Z.of_nat j) by lia.
    generalize (num ^ Z.of_nat k). intros X. rewrite Ho'. ring. }
  rewrite Ht in HLj. destruct HLj as [w Hw]. exists w. lia.
Qed.
