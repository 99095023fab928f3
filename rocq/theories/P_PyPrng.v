(** C89: the Python PRNG cuts its numbers one after the other from the stream of the hashed counters. *)
From Verif Require Import Base M_BigNum S_BigNum L_BigNum L_Num M_Python L_Port M_PyPrng S_PyPrng L_PyPrng.
From Verif Require L_Euler.

Lemma new_at H seed len g : prng_new seed len = Ok g -> exists s, message_bytes seed = Ok s /\ (32 <= length s)%nat /\ at_ H s len g 0.
Proof.
  unfold prng_new. destruct (message_bytes seed) as [s| | | |]; cbn [bind]; try discriminate. destruct (Nat.ltb_spec (length s) 32); [discriminate|].
  intros E. injection E as <-. exists s. repeat split; auto; cbn; lia.
Qed.

(** Whatever calls are made on a generator, their answers are the ones the specification reads off the stream, from its beginning on: numbers are
    taken from consecutive bytes, none of them used twice; rejected candidates are skipped; when the blocks run out the call fails. *)
Theorem C89_stream : forall H seed len g fuel uppers, (forall s, length (H s) = 64%nat) -> prng_new seed len = Ok g ->
  ~ In Diverge (get_rands H fuel g uppers) -> exists s, message_bytes seed = Ok s /\ draws H s len uppers 0 (get_rands H fuel g uppers).
Proof.
  intros H seed len g fuel uppers H64 E. destruct (new_at H seed len g E) as (s & Es & _ & A). intros N. exists s. split; [exact Es|]. clear E Es.
  revert g A N. generalize 0 as p. induction uppers as [|u uppers IH]; intros p g A N; cbn [get_rands] in *; [constructor|].
  destruct (get_rand H fuel g u) as [g' answer] eqn:R. unfold get_rand in R. fold (bits u) in R.
  destruct (get_rand_draw H H64 s len fuel g p u g' answer A R) as (p' & D & A'); [intros ->; apply N; left; reflexivity|].
  apply draws_cons with (p' := p'); [exact D|]. apply IH; [exact A'|]. intros I. apply N. right. exact I.
Qed.
Print Assumptions C89_stream.
(** The calls end: with more rounds than there are bytes in the stream no call runs on. *)
Theorem C89_terminates : forall H seed len g fuel uppers, (forall s, length (H s) = 64%nat) -> prng_new seed len = Ok g ->
  available len < Z.of_nat fuel -> ~ In Diverge (get_rands H fuel g uppers).
Proof.
  intros H seed len g fuel uppers H64 E F. destruct (new_at H seed len g E) as (s & _ & _ & A). clear E.
  assert (Q : 0 <= 0 <= available len) by (unfold available; pose proof (Z.pow_nonneg 256 (Z.of_nat len)); lia).
  assert (K : exists p, 0 <= p <= available len /\ at_ H s len g p) by eauto. clear A Q. destruct K as (p & Q & A). revert g p Q A. induction uppers as [|u uppers IH]; intros g p Q A; cbn [get_rands]; [auto|].
  destruct (get_rand H fuel g u) as [g' answer] eqn:R. unfold get_rand in R. fold (bits u) in R.
  assert (N : answer <> Diverge) by (apply (get_rand_terminates H H64 s len fuel g p u g' answer A); auto; lia).
  destruct (get_rand_draw H H64 s len fuel g p u g' answer A R N) as (p' & D & A').
  intros [I|I]; [congruence|]. revert I. apply (IH g' p'); [|exact A']. clear - D Q. pose proof (width_pos u). induction D; lia.
Qed.
Print Assumptions C89_terminates.
(** Every number is in [0, upper); for an upper limit that is not positive there is no answer but the failure at the end of the stream. *)
Theorem C89_range : forall H s len upper p answer p', draw H s len upper p answer p' ->
  match answer with Ok v => 0 <= v < upper /\ 0 < upper | Err Internal => True | _ => False end.
Proof.
  intros H s len upper p answer p' D. induction D; auto. pose proof (candidate_range H s len upper p). lia.
Qed.
Print Assumptions C89_range.
(** The answer at a position is unique: the seed determines all numbers. *)
Theorem C89_deterministic : forall H s len upper p a1 p1 a2 p2, draw H s len upper p a1 p1 -> draw H s len upper p a2 p2 -> a1 = a2 /\ p1 = p2.
Proof.
  intros H s len upper p a1 p1 a2 p2 D. revert a2 p2. induction D; intros a2 p2 E; inversion E; subst; try lia; auto.
Qed.
Print Assumptions C89_deterministic.

(** Counting: every number below the power of two comes from the same number of byte strings, so that uniform bytes give uniform candidates and,
    after rejection, uniform numbers. *)
Definition strings (n : nat) : list bytes := map (fun i => bn2bin n (Z.of_nat i)) (seq 0 (Z.to_nat (256 ^ Z.of_nat n))).
Lemma strings_all n s : In s (strings n) <-> length s = n.
Proof.
  unfold strings. rewrite in_map_iff. split.
  - intros (i & <- & _). apply bn2bin_length.
  - intros <-. pose proof (be_value_range s). exists (Z.to_nat (be_value s)). rewrite in_seq. split; [|lia].
    apply be_value_inj; [apply bn2bin_length|]. rewrite bn2bin_value, Z2Nat.id by lia. apply Z.mod_small. lia.
Qed.
Lemma strings_nodup n : NoDup (strings n).
Proof.
  unfold strings. apply L_Euler.distinct_map; [|apply seq_NoDup]. intros i j I J E. rewrite in_seq in I, J.
  apply (f_equal be_value) in E. rewrite !bn2bin_value, !Z.mod_small in E by lia. lia.
Qed.
Lemma filter_none {A} (f : A -> bool) l : (forall x, In x l -> f x = false) -> filter f l = [].
Proof. induction l as [|a l IH]; intros H; [reflexivity|]. cbn. rewrite (H a) by (left; auto). apply IH. intros; apply H; right; auto. Qed.
Lemma filter_every {A} (f : A -> bool) l : (forall x, In x l -> f x = true) -> filter f l = l.
Proof. induction l as [|a l IH]; intros H; [reflexivity|]. cbn. rewrite (H a) by (left; auto). f_equal. apply IH. intros; apply H; right; auto. Qed.
Lemma count_interval f a b n : (a <= b <= n)%nat -> (forall i, (i < n)%nat -> f i = true <-> (a <= i < b)%nat) -> length (filter f (seq 0 n)) = (b - a)%nat.
Proof.
  intros R F. replace n with (a + ((b - a) + (n - b)))%nat by lia. rewrite !seq_app, !filter_app, !app_length.
  rewrite (filter_none f (seq 0 a)), (filter_every f (seq _ (b - a))), (filter_none f (seq _ (n - b))); cbn; rewrite ?seq_length; try lia; intros x Hx; apply in_seq in Hx.
  - destruct (f x) eqn:E; [apply F in E; lia|reflexivity].
  - apply F; lia.
  - destruct (f x) eqn:E; [apply F in E; lia|reflexivity].
Qed.
Lemma filter_map_length {A B} (g : A -> B) f l : length (filter f (map g l)) = length (filter (fun x => f (g x)) l).
Proof. induction l as [|a l IH]; [reflexivity|]. cbn. destruct (f (g a)); cbn; rewrite IH; reflexivity. Qed.
Theorem C89_unbiased : forall upper v, let w := width upper in let excess := 8 * w - bits upper in 0 <= v < 2 ^ bits upper ->
  (forall s, In s (strings (Z.to_nat w)) <-> length s = Z.to_nat w) /\ NoDup (strings (Z.to_nat w)) /\
  Z.of_nat (length (filter (fun s => of_bytes s / 2 ^ excess =? v) (strings (Z.to_nat w)))) = 2 ^ excess /\ 0 <= excess < 8 /\ (0 < upper -> upper <= 2 ^ bits upper).
Proof.
  intros upper v w excess Hv. split; [apply strings_all|]. split; [apply strings_nodup|].
  assert (B0 : 0 <= bits upper) by apply bit_length_nonneg. pose proof (width_pos upper) as W. fold w in W.
  assert (Ex : 0 <= excess < 8) by (unfold excess, w, width; rewrite <- excess_eq by exact B0; apply Z.mod_pos_bound; lia).
  split; [|split; [exact Ex|]].
  - unfold strings. rewrite filter_map_length, Z2Nat.id by exact W.
    assert (P : 256 ^ w = 2 ^ excess * 2 ^ bits upper) by (rewrite <- Z.pow_add_r by lia; replace (excess + bits upper) with (8 * w) by lia; rewrite Z.pow_mul_r by lia; reflexivity).
    assert (P1 : 0 < 2 ^ excess) by (apply Z.pow_pos_nonneg; lia).
    rewrite (count_interval _ (Z.to_nat (v * 2 ^ excess)) (Z.to_nat ((v + 1) * 2 ^ excess))); [nia| |].
    + split; [apply Z2Nat.inj_le; nia|]. apply Z2Nat.inj_le; nia.
    + intros i Hi. rewrite of_bytes_value, bn2bin_value, Z2Nat.id, Z.mod_small by lia. rewrite Z.eqb_eq. split.
      * intros <-. pose proof (Z.div_mod (Z.of_nat i) (2 ^ excess) ltac:(lia)). pose proof (Z.mod_pos_bound (Z.of_nat i) (2 ^ excess) P1). nia.
      * intros [I1 I2]. symmetry. apply (Z.div_unique_pos _ _ _ (Z.of_nat i - v * 2 ^ excess)); nia.
  - intros U. unfold bits, bit_length. destruct (Z.eqb_spec (upper - 1) 0); [cbn; lia|]. rewrite Z.abs_eq by lia.
    pose proof (Z.log2_spec (upper - 1) ltac:(lia)) as [_ L2]. replace (Z.log2 (upper - 1) + 1) with (Z.succ (Z.log2 (upper - 1))) by lia. lia.
Qed.
Print Assumptions C89_unbiased.

(** No block is hashed twice, and generators of the same counter width with different seeds never hash the same string. *)
Theorem C89_inputs : forall len s s' i j, 0 <= i < 256 ^ Z.of_nat len -> 0 <= j < 256 ^ Z.of_nat len -> counter len i ++ s = counter len j ++ s' -> i = j /\ s = s'.
Proof.
  intros len s s' i j I J E. unfold counter in E. assert (M : 256 ^ Z.of_nat len <= 256 ^ Z.of_nat (Nat.max 1 len)) by (apply Z.pow_le_mono_r; lia).
  pose proof (f_equal (firstn (Nat.max 1 len)) E) as F. pose proof (f_equal (skipn (Nat.max 1 len)) E) as K.
  rewrite !firstn_app, !bn2bin_length, !Nat.sub_diag, !firstn_O, !app_nil_r in F. rewrite !firstn_all2 in F by (rewrite bn2bin_length; lia).
  rewrite !skipn_app, !bn2bin_length, !Nat.sub_diag, !skipn_O in K. rewrite !skipn_all2 in K by (rewrite bn2bin_length; lia).
  split; [|exact K]. apply (f_equal be_value) in F. rewrite !bn2bin_value, !Z.mod_small in F by lia. exact F.
Qed.
Print Assumptions C89_inputs.
(** Generators of different counter widths may: the first block of width 5 with a seed is the first block of width 4 with a zero byte and that seed. *)
Theorem C89_inputs_refuted : forall H s, (32 <= length s)%nat -> exists g g', prng_new (MBytes s) 5 = Ok g /\ prng_new (MBytes (x00 :: s)) 4 = Ok g' /\
  block H s 5 0 = block H (x00 :: s) 4 0.
Proof.
  intros H s L. unfold prng_new. cbn [message_bytes bind length]. destruct (Nat.ltb_spec (length s) 32); [lia|]. destruct (Nat.ltb_spec (S (length s)) 32); [lia|].
  eexists _, _. split; [reflexivity|]. split; reflexivity.
Qed.
Print Assumptions C89_inputs_refuted.

(** Seeds: bytes are accepted from 32 bytes on, numbers from 256^31 on, and a number stands for its big-endian bytes. *)
Theorem C89_seed : forall len,
  (forall s, (exists g, prng_new (MBytes s) len = Ok g) <-> (32 <= length s)%nat) /\
  (forall z, (exists g, prng_new (MInt z) len = Ok g) <-> 256 ^ 31 <= z) /\
  (forall z, 256 ^ 31 <= z -> exists s, to_bytes z = Ok s /\ prng_new (MInt z) len = prng_new (MBytes s) len) /\
  (forall seed, (exists g, prng_new seed len = Ok g) \/ prng_new seed len = Err InvalidArgument).
Proof.
  intros len.
  assert (B : forall s, (exists g, prng_new (MBytes s) len = Ok g) <-> (32 <= length s)%nat).
  { intros s. unfold prng_new. cbn [message_bytes bind]. destruct (Nat.ltb_spec (length s) 32); split; intros X; try lia; [destruct X as [g X]; discriminate X|eexists; reflexivity]. }
  assert (P : forall z, 0 < z -> exists s, to_bytes z = Ok s /\ prng_new (MInt z) len = prng_new (MBytes s) len /\ length s = num_bytes z).
  { intros z Z0. unfold prng_new. cbn [message_bytes]. rewrite long_to_bytes_pos by exact Z0. unfold to_bytes. destruct (Z.ltb_spec z 0); [lia|].
    eexists. split; [reflexivity|]. split; [reflexivity|]. apply bn2bin_length. }
  assert (NB : forall z, 0 < z -> (32 <= num_bytes z)%nat <-> 256 ^ 31 <= z).
  { intros z Z0. split; intros Hh.
    - destruct (Z.lt_ge_cases z (256 ^ 31)) as [L|L]; [|exact L]. pose proof (num_bytes_le z 31 ltac:(split; [lia|exact L])). lia.
    - unfold num_bytes, bit_length. destruct (Z.eqb_spec z 0); [lia|]. rewrite Z.abs_eq by lia.
      assert (248 <= Z.log2 z) by (apply Z.log2_le_pow2; [lia|]; change (2 ^ 248) with (256 ^ 31); exact Hh).
      assert (32 <= (Z.log2 z + 1 + 7) / 8) by (apply Z.div_le_lower_bound; lia). lia. }
  split; [exact B|]. split; [|split].
  - intros z. destruct (Z.lt_trichotomy z 0) as [N|[->|N]].
    + split; [|intros Hh; assert (0 < 256 ^ 31) by reflexivity; lia]. intros [g X]. unfold prng_new in X. cbn [message_bytes] in X. unfold long_to_bytes in X. apply Z.ltb_lt in N. rewrite N in X. discriminate X.
    + split; [intros [g X]; discriminate X|]. intros Hh. assert (0 < 256 ^ 31) by reflexivity. lia.
    + destruct (P z N) as (s & _ & -> & L). rewrite B, L. apply NB, N.
  - intros z Hz. assert (0 < 256 ^ 31) by reflexivity. destruct (P z ltac:(lia)) as (s & E & F & _). eauto.
  - intros [z|s]; unfold prng_new; cbn [message_bytes].
    + unfold long_to_bytes. destruct (z <? 0); [auto|]. cbn [bind]. destruct (Nat.ltb _ 32); eauto.
    + cbn [bind]. destruct (Nat.ltb _ 32); eauto.
Qed.
Print Assumptions C89_seed.

(** A run with a digest that repeats the last byte of the counter: the draw below 200 rejects nothing, the draw below 3 takes one byte, the draw below 1 none. *)
Definition last_counter (s : bytes) : bytes := repeat (nth 3 s x00) 64.
Example C89_case : exists g, prng_new (MBytes (repeat x01 32)) 4 = Ok g /\
  get_rands last_counter 10 g [200; 1; 3; 2 ^ 512 ] = [Ok 0; Ok 0; Ok 0; Ok (of_bytes (repeat x00 62 ++ [x01; x01]))] /\
  ~ In Diverge (get_rands last_counter 10 g [200; 1; 3; 2 ^ 512]) /\ (forall s, length (last_counter s) = 64%nat).
Proof.
  eexists. split; [reflexivity|]. split; [vm_compute; reflexivity|]. split; [vm_compute; intuition discriminate|]. intros s. reflexivity.
Qed.
(** With a counter of width 0 (one block) and a digest of ones, no draw below 200 can be accepted: the block is used up and the call fails. *)
Example C89_exhausted_case : exists g, prng_new (MBytes (repeat x01 32)) 0 = Ok g /\ get_rands (fun _ => repeat xff 64) 70 g [200; 1] = [Err Internal; Ok 0].
Proof. eexists. split; [reflexivity|]. vm_compute. reflexivity. Qed.
