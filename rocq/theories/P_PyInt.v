(** C90: the Python functions on plain integers and the safe prime test. *)
From Verif Require Import Base M_BigNum L_BigNum M_Python L_Port M_PyNum S_PyNum L_PyNum L_PyNumRes M_PyInt.
From Coq Require Import Znumtheory.

Lemma temp_int z : 0 <= z -> temp_bn (TInt z) = Ok z.
Proof. intros Z0. cbn. destruct (Z.eqb_spec z 0) as [->|]; [reflexivity|]. apply long_to_bn_ok, Z0. Qed.
Lemma temp_negative z : z < 0 -> temp_bn (TInt z) = Err InvalidArgument.
Proof. intros Z0. cbn. destruct (Z.eqb_spec z 0) as [->|]; [lia|]. unfold long_to_bn, long_to_bytes. apply Z.ltb_lt in Z0. rewrite Z0. reflexivity. Qed.

Ltac ints := unfold with_temps; cbn [temp_init]; repeat (first [rewrite temp_int by lia | rewrite temp_negative by lia]); cbn [temp_init temp_bn bind Nat.sub length].

(** GetRandomInRange returns a number of the interval, each one for exactly the draws of one residue class; an empty interval is an AssertionError, a
    negative one a ValueError. *)
Theorem C90_random : forall start stop,
  (start < stop -> (forall e, exists v, py_random_in_range e start stop = (0%nat, Ok v) /\ start <= v < stop /\ (stop - start | v - start - e)) /\
                   (forall v, start <= v < stop -> py_random_in_range (v - start) start stop = (0%nat, Ok v))) /\
  (start = stop -> forall e, py_random_in_range e start stop = (0%nat, Err Internal)) /\
  (stop < start -> forall e, snd (py_random_in_range e start stop) = Err InvalidArgument).
Proof.
  intros start stop. split; [|split].
  - intros L. unfold py_random_in_range. ints. destruct (Z.leb_spec (stop - start) 0); [lia|]. split.
    + intros e. pose proof (Z.mod_pos_bound e (stop - start) ltac:(lia)) as B. eexists. split; [reflexivity|]. rewrite bn_to_long_eq by lia. split; [lia|].
      exists (- (e / (stop - start))). pose proof (Z.div_mod e (stop - start) ltac:(lia)). lia.
    + intros v V. rewrite Z.mod_small by lia. rewrite bn_to_long_eq by lia. do 2 f_equal. lia.
  - intros -> e. unfold py_random_in_range. rewrite Z.sub_diag. reflexivity.
  - intros L e. unfold py_random_in_range. ints. reflexivity.
Qed.
Print Assumptions C90_random.
(** ModExp and ModInverse compute the power and the inverse of numbers that are not negative, as the C++ library does; they refuse negative numbers,
    moduli of zero and numbers without an inverse, with the exceptions named here. *)
Theorem C90_mod_exp : forall g x n,
  (0 <= g -> 0 <= x -> 0 < n -> py_mod_exp (TInt g) (TInt x) (TInt n) = (0%nat, Ok (g ^ x mod n)) /\ bn_mod_exp g x n = Ok (g ^ x mod n)) /\
  (0 <= g -> 0 <= x -> py_mod_exp (TInt g) (TInt x) (TInt 0) = (0%nat, Err Internal)) /\
  (g < 0 \/ x < 0 \/ n < 0 -> snd (py_mod_exp (TInt g) (TInt x) (TInt n)) = Err InvalidArgument).
Proof.
  intros g x n. split; [|split].
  - intros G X N. split; [|apply bn_mod_exp_ok; lia]. unfold py_mod_exp. ints. rewrite bn_mod_exp_ok by lia. cbn [checked bind].
    rewrite bn_to_long_eq; [reflexivity|]. apply Z.mod_pos_bound; lia.
  - intros G X. unfold py_mod_exp. ints. unfold bn_mod_exp. destruct (x <? 0); reflexivity.
  - intros N. unfold py_mod_exp. destruct (Z.lt_ge_cases g 0) as [G|G]; [ints; reflexivity|].
    destruct (Z.lt_ge_cases x 0) as [X|X]; [ints; reflexivity|]. ints. reflexivity.
Qed.
Print Assumptions C90_mod_exp.
Theorem C90_mod_inverse : forall x n,
  (0 <= x -> 0 < n -> Z.gcd x n = 1 -> exists v, py_mod_inverse (TInt x) (TInt n) = (0%nat, Ok v) /\ bn_mod_inverse x n = Ok v /\ 0 <= v < n /\ (n | x * v - 1)) /\
  (0 <= x -> 0 <= n -> Z.gcd x n <> 1 \/ n = 0 -> py_mod_inverse (TInt x) (TInt n) = (0%nat, Err Internal)) /\
  (x < 0 \/ n < 0 -> snd (py_mod_inverse (TInt x) (TInt n)) = Err InvalidArgument).
Proof.
  intros x n. split; [|split].
  - intros X N G. unfold py_mod_inverse. ints. destruct (bn_mod_inverse_ok x n N G) as (v & E & R & M). rewrite E. cbn [checked bind].
    rewrite bn_to_long_eq by lia. exists v. repeat split; try lia. apply (proj1 (Z.mod_divide (x * v - 1) n ltac:(lia))). rewrite Zminus_mod, M, <- Zminus_mod, Z.sub_diag, Zmod_0_l. reflexivity.
  - intros X N G. unfold py_mod_inverse. ints. destruct (bn_mod_inverse x n) as [v| | | |] eqn:E; try reflexivity.
    apply bn_mod_inverse_inv in E. lia.
  - intros N. unfold py_mod_inverse. destruct (Z.lt_ge_cases x 0) as [X|X]; [ints; reflexivity|]. ints. reflexivity.
Qed.
Print Assumptions C90_mod_inverse.
Example C90_case : py_mod_exp (TInt 3) (TInt 5) (TInt 7) = (0%nat, Ok 5) /\ py_mod_inverse (TInt 3) (TInt 7) = (0%nat, Ok 5) /\ py_random_in_range 9 (-3) 2 = (0%nat, Ok 1).
Proof. repeat split. Qed.
(** Whatever is done with them, the temporary numbers are freed when the statement is left, provided every one of them could be made. *)
Theorem C90_freed : forall A ts (body : list Z -> outcome A), Forall (fun t => forall z, t = TInt z -> 0 <= z) ts ->
  exists vs, length vs = length ts /\ with_temps ts body = (0%nat, body vs) /\
  forall i, (forall z, nth_error ts i = Some (TInt z) -> nth_error vs i = Some z) /\ (nth_error ts i = Some TNone -> nth_error vs i = Some 0).
Proof.
  intros A ts body F.
  assert (I : forall m, exists vs, length vs = length ts /\ temp_init m ts = ((m + length ts)%nat, Ok vs) /\
    forall i, (forall z, nth_error ts i = Some (TInt z) -> nth_error vs i = Some z) /\ (nth_error ts i = Some TNone -> nth_error vs i = Some 0)).
  { induction F as [|t ts P F IH]; intros m.
    - exists []. cbn. split; [reflexivity|]. split; [f_equal; lia|]. intros [|i]; split; intros; discriminate.
    - destruct (IH (S m)) as (vs & L & E & N). cbn [temp_init].
      assert (T : exists v, temp_bn t = Ok v /\ (forall z, t = TInt z -> v = z) /\ (t = TNone -> v = 0)).
      { destruct t as [|z|s].
        - exists 0. repeat split; try discriminate.
        - exists z. split; [apply temp_int, P; reflexivity|]. split; [intros z' [= ->]; reflexivity|discriminate].
        - exists 0. repeat split; try discriminate. }
      destruct T as (v & -> & V1 & V2). rewrite E. exists (v :: vs). cbn [length bind]. split; [lia|]. split; [f_equal; lia|].
      intros [|i]; cbn [nth_error]; [|apply N]. split; [intros z [= ->]; f_equal; apply V1; reflexivity|intros [= ->]; f_equal; apply V2; reflexivity]. }
  destruct (I 0%nat) as (vs & L & E & N). exists vs. split; [exact L|]. split; [|exact N]. unfold with_temps. rewrite E, L. rewrite Nat.sub_diag. reflexivity.
Qed.
Print Assumptions C90_freed.
Example C90_freed_case : Forall (fun t => forall z, t = TInt z -> 0 <= z) [TNone; TInt 0; TInt 5] /\
  with_temps [TNone; TInt 0; TInt 5] (fun vs => Ok vs) = (0%nat, Ok [0; 0; 5]).
Proof. split; [|reflexivity]. repeat constructor; intros z [= <-]; lia. Qed.
(** A negative number makes the constructor raise: the numbers made up to that one are never freed. *)
Theorem C90_freed_refuted : forall g x n, 0 <= g -> x < 0 -> fst (py_mod_exp (TInt g) (TInt x) n) = 3%nat.
Proof. intros g x n G X. unfold py_mod_exp. ints. reflexivity. Qed.
Print Assumptions C90_freed_refuted.
(** The documentation of TempBNs promises that bytes can be given instead of numbers. They are taken as zero: the number b'\x03' to the power 5 modulo 7
    is 0 and not 5, and as an exponent the result is 1. *)
Theorem C90_bytes_refuted : (forall s x n, 0 < x -> 0 < n -> snd (py_mod_exp (TBytes s) (TInt x) (TInt n)) = Ok 0) /\
  (forall g s n, 0 <= g -> 0 < n -> snd (py_mod_exp (TInt g) (TBytes s) (TInt n)) = Ok (1 mod n)) /\
  py_mod_exp (TBytes [zb 3]) (TInt 5) (TInt 7) <> py_mod_exp (TInt 3) (TInt 5) (TInt 7).
Proof.
  split; [|split].
  - intros s x n X N. unfold py_mod_exp. ints. rewrite bn_mod_exp_ok by lia. rewrite Z.pow_0_l, Zmod_0_l by lia. reflexivity.
  - intros g s n G N. unfold py_mod_exp. ints. rewrite bn_mod_exp_ok by lia. cbn [checked bind snd]. rewrite bn_to_long_eq; [reflexivity|].
    apply Z.mod_pos_bound; lia.
  - vm_compute. discriminate.
Qed.
Print Assumptions C90_bytes_refuted.

(** The prime test of OpenSSL without errors. *)
Definition tests (prime_test : Z -> Z) : Prop := forall v, (prime v -> prime_test v = 1) /\ (~ prime v -> prime_test v = 0).
(** IsSafePrime tells the safe primes from all other numbers except 2, in every history that respects the shared constants, and changes no object. *)
Theorem C90_safe_prime : forall prime_test mod_sqrt l a v, tests prime_test -> respectful mod_sqrt world_init l -> let w := run mod_sqrt world_init l in
  value w a = Some v -> v <> 2 -> exists w' b, py_is_safe_prime prime_test mod_sqrt w a = (w', Ok b) /\ (b = true <-> prime v /\ prime ((v - 1) / 2)) /\
  (forall r o, nth_error (w_objs w) r = Some o -> nth_error (w_objs w') r = Some o).
Proof.
  intros pt ms l a v T R w V N2. pose proof (good_run ms l world_init good_init R) as G. fold w in G. unfold py_is_safe_prime. rewrite V.
  assert (Tb : forall x, py_is_prime pt x = true <-> prime x).
  { intros x. unfold py_is_prime. destruct (T x) as [T1 T0]. split.
    - intros E. destruct (prime_dec x) as [P|P]; [exact P|]. rewrite (T0 P) in E. discriminate E.
    - intros P. rewrite (T1 P). reflexivity. }
  destruct (py_is_prime pt v) eqn:Ep.
  - apply Tb in Ep. assert (Ev : exists k, v = 2 * k + 1).
    { destruct (Z.eq_dec (v mod 2) 0) as [E|E].
      - exfalso. apply Z.mod_divide in E; [|lia]. apply N2. destruct (prime_divisors v Ep 2 E) as [D|[D|[D|D]]]; pose proof (prime_ge_2 v Ep); lia.
      - exists (v / 2). pose proof (Z.div_mod v 2 ltac:(lia)). pose proof (Z.mod_pos_bound v 2 ltac:(lia)). lia. }
    destruct Ev as [k ->]. destruct (good_one w G) as (G1 & H1 & _). pose proof (extends_one w) as X1. destruct (one w) as [w1 u]. cbn [fst snd] in G1, H1, X1.
    unfold compute. rewrite (values2_intro w1 a u (2 * k + 1) 1 (value_extends _ _ _ _ X1 V) (holds_value _ _ _ H1)). cbn [eval].
    replace (2 * k + 1 - 1) with (2 * k) by lia. pose proof (alloc_value w1 (2 * k)) as Vd. pose proof (extends_alloc w1 (2 * k)) as X2. pose proof (good_alloc w1 (2 * k) G1) as G2.
    destruct (alloc w1 (2 * k)) as [w2 d]. cbn [fst snd] in Vd, X2, G2. destruct (good_two w2 G2) as (G3 & H3 & _). pose proof (extends_two w2) as X3.
    destruct (two w2) as [w3 t]. cbn [fst snd] in G3, H3, X3. unfold divide. rewrite (value_extends _ _ _ _ X3 Vd), (holds_value _ _ _ H3). cbn [Z.eqb].
    replace (Z.quot (2 * k) 2) with k by (rewrite Z.mul_comm, Z.quot_mul; lia).
    pose proof (alloc_value w3 k) as Vk. pose proof (extends_alloc w3 k) as X4. pose proof (good_alloc w3 k G3) as G4.
    destruct (alloc w3 k) as [w4 h]. cbn [fst snd] in Vk, X4, G4. destruct (good_zero w4 G4) as (_ & H5 & _). pose proof (extends_zero w4) as X5.
    destruct (zero w4) as [w5 z]. cbn [fst snd] in H5, X5. rewrite (holds_value _ _ _ H5). replace (Z.rem (2 * k) 2) with 0 by (rewrite Z.mul_comm, Z.rem_mul; lia). cbn [Z.eqb negb].
    rewrite (value_extends _ _ _ _ X5 Vk). exists w5, (py_is_prime pt k). split; [reflexivity|]. split.
    + replace (2 * k / 2) with k by (rewrite Z.mul_comm, Z.div_mul; lia). rewrite Tb. tauto.
    + intros r o E. apply X5, X4, X3, X2, X1, E.
  - exists w, false. split; [reflexivity|]. split; [|auto]. split; [discriminate|]. intros [P _]. apply Tb in P. congruence.
Qed.
Print Assumptions C90_safe_prime.
(** The number 2 is prime and no safe prime, but IsSafePrime raises ValueError for it, because (2 - 1) / 2 leaves a remainder. *)
Theorem C90_safe_prime_refuted : forall prime_test mod_sqrt l a, tests prime_test -> respectful mod_sqrt world_init l -> let w := run mod_sqrt world_init l in
  value w a = Some 2 -> snd (py_is_safe_prime prime_test mod_sqrt w a) = Err InvalidArgument.
Proof.
  intros pt ms l a T R w V. pose proof (good_run ms l world_init good_init R) as G. fold w in G. unfold py_is_safe_prime. rewrite V. unfold py_is_prime at 1. rewrite (proj1 (T 2) prime_2). cbn [Z.eqb negb].
  destruct (good_one w G) as (G1 & H1 & _). pose proof (extends_one w) as X1. destruct (one w) as [w1 u]. cbn [fst snd] in G1, H1, X1.
  unfold compute. rewrite (values2_intro w1 a u 2 1 (value_extends _ _ _ _ X1 V) (holds_value _ _ _ H1)). cbn [eval]. change (2 - 1) with 1.
  pose proof (alloc_value w1 1) as Vd. pose proof (good_alloc w1 1 G1) as G2. destruct (alloc w1 1) as [w2 d]. cbn [fst snd] in Vd, G2.
  destruct (good_two w2 G2) as (G3 & H3 & _). pose proof (extends_two w2) as X3. destruct (two w2) as [w3 t]. cbn [fst snd] in G3, H3, X3.
  unfold divide. rewrite (value_extends _ _ _ _ X3 Vd), (holds_value _ _ _ H3). cbn [Z.eqb]. pose proof (good_alloc w3 (Z.quot 1 2) G3) as G4.
  destruct (alloc w3 (Z.quot 1 2)) as [w4 h]. cbn [fst] in G4. destruct (good_zero w4 G4) as (_ & H5 & _). destruct (zero w4) as [w5 z]. cbn [fst snd] in H5.
  rewrite (holds_value _ _ _ H5). reflexivity.
Qed.
Print Assumptions C90_safe_prime_refuted.
(** An error of OpenSSL's prime test counts as "prime". *)
Theorem C90_prime_error_refuted : forall prime_test v, prime_test v = -1 -> py_is_prime prime_test v = true.
Proof. intros pt v E. unfold py_is_prime. rewrite E. reflexivity. Qed.
Print Assumptions C90_prime_error_refuted.
(** A prime test without errors exists, and a history with the numbers 2, 7 and 9. *)
Definition decided (v : Z) : Z := if prime_dec v then 1 else 0.
Example C90_tests_case : tests decided /\ respectful (fun _ _ => None) world_init [CLong 2; CLong 7; CLong 9] /\ value (run (fun _ _ => None) world_init [CLong 2; CLong 7; CLong 9]) 1 = Some 7.
Proof.
  split; [|split; [cbn; tauto|reflexivity]]. intros v. unfold decided. destruct (prime_dec v); split; intros; try contradiction; auto.
Qed.
