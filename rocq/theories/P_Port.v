(** C86: the C++, Java and Python ciphers agree. *)
From Coq Require Import Znumtheory.
From Verif Require Import Base M_BigNum S_BigNum L_BigNum M_Num L_Num L_Mod M_EC L_EC M_Group S_Group L_Group M_Cipher L_Cipher L_DJ M_Java M_Python S_Port L_Port L_PortMix L_Toy S_Ddh P_Group P_Ddh.
From Verif Require L_Toy2.

(** *** The concrete setting of the examples. *)
Definition port_digest (n : nat) (s : bytes) : bytes := repeat (zb (fold_left (fun a b => (a * 7 + bz b) mod 251) s (Z.of_nat n))) n.
Definition port_ext : externals := {| sha256 := port_digest 32; sha384 := port_digest 48; sha512 := port_digest 64; hmac512 := fun _ _ => [] |}.
Definition toy_root : Z -> option Z := root_of 67 toy_sqrt.
Lemma port_digests : digest_lengths port_ext.
Proof. intros s. cbn [port_ext sha256 sha384 sha512]. unfold port_digest. rewrite !repeat_length. tauto. Qed.
Lemma toy_root_ok : root_ok (ec_p toy) toy_root. Proof. apply (root_of_ok 67); [lia|exact toy_sqrt_ok]. Qed.
Lemma toy_usable : usable toy.
Proof. split; [exact toy_laws|]. split; [|vm_compute; discriminate]. intros P x y E. destruct (toy_mirrors P x y E) as [B _]. lia. Qed.
Lemma toy_decodes : decodes toy (ec_dec toy). Proof. intros P HP. apply (enc_dec toy toy_laws P HP). Qed.
Lemma toy_zero : has_point toy 0. Proof. exists 6. split; [vm_compute; split; reflexivity|]. exists 0. vm_compute. reflexivity. Qed.

(** *** Hashing: the three functions give the same point, or run on together, unless a rejected candidate is zero. *)
Theorem C86_same_hash : forall C X sqrt_p sswu root fuel h m, usable C -> sqrt_ok (ec_p C) sqrt_p -> root_ok (ec_p C) root -> digest_lengths X -> 0 <= h <= 2 -> no_rejected_zero C X h m ->
  java_hash_point C X root fuel h m = hash_internal C X sqrt_p sswu fuel h m /\
  py_hash_point C X sqrt_p fuel h (MBytes m) = hash_internal C X sqrt_p sswu fuel h m.
Proof.
  intros C X sq sw root fuel h m (L & Off & Hb) Hs Hr Hd Hh NZ. split; [exact (java_hash_point_eq C L Off Hb X sq Hs root Hr h m NZ sw fuel Hh)|exact (py_hash_point_eq C L Hb X sq Hs Hd h m NZ sw fuel Hh)].
Qed.
Print Assumptions C86_same_hash.
Example C86_same_hash_ex : java_hash_point toy port_ext toy_root 20 1 [x41] = hash_internal toy port_ext toy_sqrt None 20 1 [x41] /\ py_hash_point toy port_ext toy_sqrt 20 1 (MBytes [x41]) = hash_internal toy port_ext toy_sqrt None 20 1 [x41].
Proof. apply C86_same_hash; [exact toy_usable|exact toy_sqrt_ok|exact toy_root_ok|exact port_digests|lia|left; exact toy_zero]. Qed.
Example C86_same_hash_ok : is_ok (hash_internal toy port_ext toy_sqrt None 20 1 [x41]) = true. Proof. vm_compute. reflexivity. Qed.

(** The bytes that hashIntoTheCurve returns in Java are those of HashIntoTheCurve in C++, whatever the keys. *)
Theorem C86_same_hash_bytes : forall C X sqrt_p sswu root fuel (c : cipher) (j : java_cipher) m, usable C -> sqrt_ok (ec_p C) sqrt_p -> root_ok (ec_p C) root ->
  0 <= ci_hash c <= 2 -> jc_hash j = ci_hash c -> no_rejected_zero C X (ci_hash c) m ->
  java_hash C X root fuel j m = cipher_hash C X sqrt_p sswu fuel c m.
Proof.
  intros C X sq sw root fuel c j m U Hs Hr Hh Ej NZ. pose proof U as (L & Off & Hb). unfold java_hash, cipher_hash. rewrite Ej, (java_hash_point_eq C L Off Hb X sq Hs root Hr (ci_hash c) m NZ sw fuel Hh).
  destruct (hash_internal C X sq sw fuel (ci_hash c) m) as [P|e| | |] eqn:E; try reflexivity. cbn [bind]. apply (hash_not_inf C U) in E; [|exact Hs|exact Hh].
  unfold encoded, point_to_bytes. rewrite (proj2 (is_inf_false C L P) E). reflexivity.
Qed.
Print Assumptions C86_same_hash_bytes.
Example C86_same_hash_bytes_ex : exists c s, cipher_from_key toy [x05] 1 = Ok c /\ cipher_hash toy port_ext toy_sqrt None 20 c [x41] = Ok s /\ java_hash toy port_ext toy_root 20 {| jc_key := 9; jc_hash := 1 |} [x41] = Ok s.
Proof. do 2 eexists. split; [vm_compute; reflexivity|]. split; vm_compute; reflexivity. Qed.

(** *** A message encrypted in one language and handled, layer by layer, in any others: the bytes are those of C++ throughout. *)
Theorem C86_any_mix : forall C X sqrt_p sswu root jdec pdec fuel l0 key0 h m steps, usable C -> sqrt_ok (ec_p C) sqrt_p -> root_ok (ec_p C) root -> digest_lengths X -> decodes C jdec -> decodes C pdec ->
  0 <= h <= 2 -> no_rejected_zero C X h m -> 1 < of_bytes key0 < ec_order C -> (forall l key op, In (l, key, op) steps -> 1 < of_bytes key < ec_order C) ->
  (let* s := first_layer C X sqrt_p sswu root fuel l0 key0 h m in relay C jdec pdec steps h s) =
  (let* s := first_layer C X sqrt_p sswu root fuel Cpp key0 h m in relay C jdec pdec (in_cpp steps) h s).
Proof.
  intros C X sq sw root jd pd fuel l0 key0 h m steps U Hs Hr Hd Hj Hp Hh NZ B0 Bk. rewrite (first_same C U X sq sw root fuel Hs Hr Hd l0 key0 h m B0 Hh NZ).
  destruct (first_layer C X sq sw root fuel Cpp key0 h m) as [s|e| | |] eqn:E; try reflexivity. cbn [bind].
  destruct (first_point C U X sq sw root fuel key0 h m s ltac:(lia) Hh E) as (P & HP & ->). exact (relay_same C U jd pd Hj Hp steps h Hh Bk P HP).
Qed.
Print Assumptions C86_any_mix.
(** Java adds the first layer, Python the second, C++ the third; then Python removes Java's, and Java Python's. *)
Definition demo_steps : list (language * bytes * operation) := [(Python, [zb 9], AddLayer); (Cpp, [zb 33], AddLayer); (Python, [zb 5], TakeLayer); (Java, [zb 9], TakeLayer)].
Example C86_any_mix_ex : (let* s := first_layer toy port_ext toy_sqrt None toy_root 20 Java [zb 5] 2 [x41] in relay toy (ec_dec toy) (ec_dec toy) demo_steps 2 s) = first_layer toy port_ext toy_sqrt None toy_root 20 Cpp [zb 33] 2 [x41] /\
  is_ok (first_layer toy port_ext toy_sqrt None toy_root 20 Cpp [zb 33] 2 [x41]) = true.
Proof. split; vm_compute; reflexivity. Qed.
Example C86_any_mix_hyp : forall l key op, In (l, key, op) demo_steps -> 1 < of_bytes key < ec_order toy.
Proof.
  intros l key op H. cbn [demo_steps In] in H. repeat match goal with H : _ \/ _ |- _ => destruct H as [H|H] end; try contradiction; injection H as <- <- <-; vm_compute; split; reflexivity.
Qed.

(** *** On the curves that Java supports zero is the abscissa of a point, so no message is excluded. *)
Theorem C86_java_curves : forall C X h m, (ec_p C = p256_p /\ ec_b C = p256_b) \/ (ec_p C = p384_p /\ ec_b C = p384_b) -> no_rejected_zero C X h m.
Proof.
  intros C X h m [[Ep Eb]|[Ep Eb]]; left; unfold has_point; rewrite Ep, Eb.
  - exists 46263761741508638697010950048709651021688891777877937875096931459006746039284. split; [split; reflexivity|].
    replace (0 * 0 * 0 + ec_a C * 0 + p256_b) with p256_b by ring. apply Z.mod_divide; [discriminate|]. vm_compute. reflexivity.
  - exists 30017082221388971518894106348991640168976452688271173152896512808593110967955388133152647784159166630880192381431265. split; [split; reflexivity|].
    replace (0 * 0 * 0 + ec_a C * 0 + p384_b) with p384_b by ring. apply Z.mod_divide; [discriminate|]. vm_compute. reflexivity.
Qed.
Print Assumptions C86_java_curves.

(** *** On P-224, Python's default, it is not. *)
Fixpoint square_times (n : nat) (x : Z) : Z := match n with O => x | S k => square_times k (x * x mod p224_p) end.
Lemma square_times_eq n : forall x, eqmod p224_p (square_times n x) (x ^ (2 ^ Z.of_nat n)).
Proof.
  induction n as [|n IH]; intros x; cbn [square_times]; [change (2 ^ Z.of_nat 0) with 1; rewrite Z.pow_1_r; exists 0; ring|].
  rewrite IH, Nat2Z.inj_succ, Z.pow_succ_r by lia. rewrite Z.pow_mul_r by lia. rewrite (eqmod_mod p224_p). rewrite Z.pow_2_r. exists 0. ring.
Qed.
(** x^(2^(2n) - 1) from x^(2^n - 1). *)
Definition double_ones (n : nat) (x : Z) : Z := square_times n x * x mod p224_p.
Lemma double_ones_eq n x y : eqmod p224_p y (x ^ (2 ^ Z.of_nat n - 1)) -> eqmod p224_p (double_ones n y) (x ^ (2 ^ Z.of_nat (n + n) - 1)).
Proof.
  intros E. unfold double_ones. rewrite (eqmod_mod p224_p), square_times_eq. assert (0 < 2 ^ Z.of_nat n) by (apply Z.pow_pos_nonneg; lia). rewrite E. rewrite <- Z.pow_mul_r, <- Z.pow_add_r by nia.
  replace ((2 ^ Z.of_nat n - 1) * 2 ^ Z.of_nat n + (2 ^ Z.of_nat n - 1)) with (2 ^ Z.of_nat (n + n) - 1) by (rewrite Nat2Z.inj_add, Z.pow_add_r by lia; ring). exists 0. ring.
Qed.
Definition ones_power (x : Z) : Z := square_times 95 (double_ones 64 (double_ones 32 (double_ones 16 (double_ones 8 (double_ones 4 (double_ones 2 (double_ones 1 x))))))).
Lemma p224_power_value : ones_power p224_b =? p224_p - 1 = true.
Proof. vm_compute. reflexivity. Qed.
Lemma ones_power_eq x : eqmod p224_p (ones_power x) (x ^ ((2 ^ Z.of_nat (64 + 64) - 1) * 2 ^ Z.of_nat 95)).
Proof.
  unfold ones_power. rewrite square_times_eq. rewrite Z.pow_mul_r by (vm_compute; discriminate).
  assert (E1 : eqmod p224_p x (x ^ (2 ^ Z.of_nat 1 - 1))) by (change (2 ^ Z.of_nat 1 - 1) with 1; rewrite Z.pow_1_r; exists 0; ring).
  pose proof (double_ones_eq 1 _ _ E1) as E2. pose proof (double_ones_eq 2 _ _ E2) as E4. pose proof (double_ones_eq 4 _ _ E4) as E8. pose proof (double_ones_eq 8 _ _ E8) as E16. pose proof (double_ones_eq 16 _ _ E16) as E32.
  pose proof (double_ones_eq 32 _ _ E32) as E64. pose proof (double_ones_eq 64 _ _ E64) as E128. rewrite E128. reflexivity.
Qed.
Lemma p224_exponent : (p224_p - 1) / 2 = (2 ^ Z.of_nat (64 + 64) - 1) * 2 ^ Z.of_nat 95. Proof. vm_compute. reflexivity. Qed.
Theorem C86_p224_zero : forall C, ec_laws C -> ec_p C = p224_p -> ec_b C = p224_b -> ~ has_point C 0.
Proof.
  intros C L Ep Eb H. apply (has_point_square C L) in H. apply (euler C L) in H. rewrite Ep in H. unfold rhs in H. rewrite Eb in H. replace (0 * 0 * 0 + ec_a C * 0 + p224_b) with p224_b in H by ring.
  rewrite p224_exponent in H. pose proof (ones_power_eq p224_b) as Q. pose proof p224_power_value as V. apply Z.eqb_eq in V. rewrite V in Q. rewrite H in Q. destruct Q as [k Hk]. assert (D : (p224_p | 2)) by (exists (1 - k); clear - Hk; lia). apply Z.divide_pos_le in D; [|lia]. vm_compute in D. apply D. reflexivity.
Qed.
Print Assumptions C86_p224_zero.

(** *** What happens at a rejected candidate zero: Java fails, C++ goes on with the hash of no bytes, Python with that of one zero byte. *)
Theorem C86_zero_candidate : forall C X sqrt_p sswu root fuel h m, usable C -> sqrt_ok (ec_p C) sqrt_p -> root_ok (ec_p C) root -> digest_lengths X -> 0 <= h <= 2 ->
  ~ has_point C 0 -> cpp_oracle C X h m = Ok 0 ->
  java_hash_point C X root (S fuel) h m = Crash /\
  hash_internal C X sqrt_p sswu (S fuel) h m = hash_internal C X sqrt_p sswu fuel h [] /\
  py_hash_point C X sqrt_p (S fuel) h (MBytes m) = py_hash_point C X sqrt_p fuel h (MBytes [x00]).
Proof.
  intros C X sq sw root fuel h m (L & Off & Hb) Hs Hr Hd Hh N0 E0. pose proof (p_gt C L) as G.
  assert (EM : map_x C sq 0 = Err Internal) by (destruct (map_x_total C L sq Hs 0) as [[H _]|[_ E]]; [contradiction|exact E]).
  split; [|split].
  - unfold java_hash_point. rewrite (java_oracle_eq C L Hb X h m), E0. cbn [bind java_hash_loop]. pose proof (java_step C L Off sq Hs root Hr 0 ltac:(lia)) as St.
    match goal with |- context [root ?a] => replace a with ((0 * ((0 * 0) mod ec_p C + ec_a C) + ec_b C) mod ec_p C) by reflexivity end.
    destruct (root _) as [y|]; [destruct St as (P & EP & _); congruence|reflexivity].
  - rewrite !(hash_internal_oracle C X sq) by exact Hh. rewrite E0. cbn [bind hash_loop]. rewrite EM. reflexivity.
  - unfold py_hash_point. cbn [py_hash_to_curve]. rewrite (py_oracle_eq C L Hb X Hd h m), E0. cbn [bind]. destruct (py_step C L sq Hs 0 ltac:(lia)) as (e & Ee & Be & St). rewrite Ee. cbn [bind]. rewrite bn_to_long_eq by lia.
    destruct (e =? 1); [cbv zeta in St; destruct St as (P & EP & _); congruence|]. destruct fuel; reflexivity.
Qed.
Print Assumptions C86_zero_candidate.

(** Full agreement is refuted: a curve without a point above zero and digests for which the three functions do different things. *)
Definition sqrt_11 (a : Z) : Z := a ^ 3 mod 11.
Lemma sqrt_11_ok : sqrt_ok (ec_p L_Toy2.toy) sqrt_11.
Proof.
  intros a Ba [r Hr]. change (ec_p L_Toy2.toy) with 11 in *. change (eqmod 11 (r * r) a) in Hr. unfold sqrt_11. split; [apply Z.mod_pos_bound; lia|].
  assert (Hc : a = 0 \/ a = 1 \/ a = 2 \/ a = 3 \/ a = 4 \/ a = 5 \/ a = 6 \/ a = 7 \/ a = 8 \/ a = 9 \/ a = 10) by lia.
  assert (Hm : (r mod 11) * (r mod 11) mod 11 = a). { rewrite <- Z.mul_mod by lia. rewrite <- (Z.mod_small a 11) by lia. apply mod_eqmod_iff; [lia|exact Hr]. }
  assert (Hrm : 0 <= r mod 11 < 11) by (apply Z.mod_pos_bound; lia). set (q := r mod 11) in *. clearbody q.
  assert (Hq : q = 0 \/ q = 1 \/ q = 2 \/ q = 3 \/ q = 4 \/ q = 5 \/ q = 6 \/ q = 7 \/ q = 8 \/ q = 9 \/ q = 10) by lia.
  apply Z.mod_divide; [lia|]. subst a. repeat destruct Hq as [->|Hq]; try (subst q); vm_compute; reflexivity.
Qed.
Definition zero_digest (n : nat) (s : bytes) : bytes := repeat x00 (n - 1) ++ [match tl s with [] => zb 7 | [b] => if bz b =? 5 then x00 else zb 2 | _ => x00 end].
Definition zero_ext : externals := {| sha256 := zero_digest 32; sha384 := zero_digest 48; sha512 := zero_digest 64; hmac512 := fun _ _ => [] |}.
Lemma zero_digests : digest_lengths zero_ext.
Proof. intros s. cbn [zero_ext sha256 sha384 sha512]. unfold zero_digest. rewrite !app_length, !repeat_length. cbn [length]. lia. Qed.
Lemma toy2_usable : usable L_Toy2.toy.
Proof.
  split; [exact L_Toy2.toy_laws|]. split; [|vm_compute; discriminate]. intros P x y E Ey. subst y.
  destruct (xy_curve _ L_Toy2.toy_laws _ _ _ E) as (Bx & _ & H). change (ec_p L_Toy2.toy) with 11 in *. change (ec_a L_Toy2.toy) with (-3) in H || change (ec_a L_Toy2.toy) with 8 in H. change (ec_b L_Toy2.toy) with 10 in H.
  assert (Hc : x = 0 \/ x = 1 \/ x = 2 \/ x = 3 \/ x = 4 \/ x = 5 \/ x = 6 \/ x = 7 \/ x = 8 \/ x = 9 \/ x = 10) by lia.
  repeat destruct Hc as [->|Hc]; try subst x; vm_compute in H; discriminate.
Qed.
Theorem C86_same_hash_refuted : exists C X sqrt_p root h m, usable C /\ sqrt_ok (ec_p C) sqrt_p /\ root_ok (ec_p C) root /\ digest_lengths X /\ 0 <= h <= 2 /\ exists P Q,
  hash_internal C X sqrt_p None 20 h m = Ok P /\ py_hash_point C X sqrt_p 20 h (MBytes m) = Ok Q /\ P <> Q /\ java_hash_point C X root 20 h m = Crash.
Proof.
  exists L_Toy2.toy, zero_ext, sqrt_11, (root_of 11 sqrt_11), 0, [x05]. split; [exact toy2_usable|]. split; [exact sqrt_11_ok|]. split; [apply (root_of_ok 11); [lia|exact sqrt_11_ok]|]. split; [exact zero_digests|]. split; [lia|].
  assert (KP : is_ok (hash_internal L_Toy2.toy zero_ext sqrt_11 None 20 0 [x05]) = true) by (vm_compute; reflexivity). assert (KQ : is_ok (py_hash_point L_Toy2.toy zero_ext sqrt_11 20 0 (MBytes [x05])) = true) by (vm_compute; reflexivity).
  assert (KJ : match java_hash_point L_Toy2.toy zero_ext (root_of 11 sqrt_11) 20 0 [x05] with Crash => true | _ => false end = true) by (vm_compute; reflexivity).
  assert (A : match hash_internal L_Toy2.toy zero_ext sqrt_11 None 20 0 [x05] with Ok R => ec_enc L_Toy2.toy R | _ => [] end <> match py_hash_point L_Toy2.toy zero_ext sqrt_11 20 0 (MBytes [x05]) with Ok R => ec_enc L_Toy2.toy R | _ => [] end) by (vm_compute; discriminate).
  destruct (hash_internal L_Toy2.toy zero_ext sqrt_11 None 20 0 [x05]) as [P|?| | |]; try discriminate KP.
  destruct (py_hash_point L_Toy2.toy zero_ext sqrt_11 20 0 (MBytes [x05])) as [Q|?| | |]; try discriminate KQ.
  destruct (java_hash_point L_Toy2.toy zero_ext (root_of 11 sqrt_11) 20 0 [x05]); try discriminate KJ.
  exists P, Q. split; [reflexivity|]. split; [reflexivity|]. split; [|reflexivity]. intros E. apply A. rewrite E. reflexivity.
Qed.
Print Assumptions C86_same_hash_refuted.
Example C86_zero_ex : ~ has_point L_Toy2.toy 0 /\ cpp_oracle L_Toy2.toy zero_ext 0 [x05] = Ok 0.
Proof.
  split; [|vm_compute; reflexivity]. intros H. destruct (map_x_total L_Toy2.toy L_Toy2.toy_laws sqrt_11 sqrt_11_ok 0) as [(_ & P & E & _)|[N _]]; [|exact (N H)].
  assert (K : is_ok (map_x L_Toy2.toy sqrt_11 0) = false) by (vm_compute; reflexivity). rewrite E in K. discriminate.
Qed.

(** *** Keys. *)
Theorem C86_keys : forall C key h, ec_laws C -> 0 <= h <= 2 ->
  (is_ok (cipher_from_key C key h) = true <-> 0 < of_bytes key < ec_order C) /\
  (is_ok (java_from_key C key h) = true <-> 1 < of_bytes key < ec_order C) /\
  (forall raw, is_ok (py_new C (Some key) raw (Some h)) = true <-> key = [] \/ of_bytes key mod ec_order C <> 0) /\
  (forall c j y raw, key <> [] -> cipher_from_key C key h = Ok c -> java_from_key C key h = Ok j -> py_new C (Some key) raw (Some h) = Ok y ->
     cipher_key_bytes c = Ok (strip_zeros key) /\ java_key_bytes j = Ok (strip_zeros key) /\ py_key_bytes y = strip_zeros key).
Proof.
  intros C key h L Hh. pose proof (order_gt1 C L) as G. split; [|split; [|split]].
  - unfold cipher_from_key. assert (Hv : validate_hash_type h = true) by (unfold validate_hash_type; rewrite !orb_true_iff, !Z.eqb_eq; lia). rewrite Hv. cbn [negb].
    destruct (check_private_key_ok C (of_bytes key)) as [[B Ec]|[B Ec]]; rewrite Ec; cbn [bind]; [|split; [discriminate|tauto]].
    destruct (cipher_make_ok C L (of_bytes key) h) as (c & E & _). rewrite E. tauto.
  - unfold java_from_key, java_check_key. rewrite java_number_eq. destruct (Z.leb_spec (of_bytes key) 1); [cbn; split; [discriminate|lia]|]. destruct (Z.leb_spec (ec_order C) (of_bytes key)); cbn; [split; [discriminate|lia]|]. split; [lia|reflexivity].
  - intros raw. unfold py_new. destruct key as [|b s].
    + assert (Bk : 0 < 1 + raw mod (ec_order C - 1) < ec_order C) by (exact (private_key_range C L raw)). rewrite of_bn_to_bytes by lia.
      destruct (bn_mod_inverse_ok (1 + raw mod (ec_order C - 1)) (ec_order C) ltac:(lia)) as (r & E & _); [exact (key_unit C L _ Bk)|]. rewrite E. cbn. tauto.
    + rewrite of_bn_to_bytes by apply of_bytes_nonneg. set (k := of_bytes (b :: s)). destruct (Z.eq_dec (Z.gcd k (ec_order C)) 1) as [Hg|Hg].
      * destruct (bn_mod_inverse_ok k (ec_order C) ltac:(lia) Hg) as (r & E & _). rewrite E. cbn. split; [intros _; right|reflexivity]. intros E0. apply Z.mod_divide in E0; [|lia]. assert (D : (ec_order C | Z.gcd k (ec_order C))) by (apply Z.gcd_greatest; [exact E0|apply Z.divide_refl]). rewrite Hg in D. apply Z.divide_1_r_nonneg in D; lia.
      * rewrite (bn_mod_inverse_err k (ec_order C) ltac:(lia) Hg). cbn. split; [discriminate|]. intros [E|E]; [discriminate|exfalso]. apply Hg. apply Zgcd_1_rel_prime, rel_prime_sym, prime_rel_prime; [apply (order_prime C L)|]. intros D. apply E. apply Z.mod_divide; [lia|exact D].
  - intros c j y raw Hne Ec Ej Ey. split; [|split].
    + unfold cipher_from_key in Ec. destruct (validate_hash_type h); cbn [negb] in Ec; [|discriminate]. apply bind_ok in Ec. destruct Ec as (u & _ & Ec). destruct (cipher_make_ok C L (of_bytes key) h) as (c' & E & Ek & _). rewrite E in Ec. injection Ec as <-. unfold cipher_key_bytes. rewrite Ek. apply to_bytes_of_bytes.
    + unfold java_from_key, java_check_key in Ej. rewrite java_number_eq in Ej. destruct (Z.leb_spec (of_bytes key) 1); cbn in Ej; [discriminate|]. destruct (Z.leb_spec (ec_order C) (of_bytes key)); cbn in Ej; [discriminate|]. injection Ej as <-. unfold java_key_bytes. cbn [jc_key]. rewrite java_bytes_pos by lia. apply to_bytes_of_bytes.
    + unfold py_new in Ey. destruct key as [|b s]; [contradiction|]. apply bind_ok in Ey. destruct Ey as (inv & _ & Ey). injection Ey as <-. unfold py_key_bytes. cbn [pc_key].
      pose proof (bn_to_bytes_pos (of_bytes (b :: s)) (of_bytes_nonneg _)) as E. rewrite to_bytes_of_bytes in E. injection E as E. symmetry. exact E.
Qed.
Print Assumptions C86_keys.
Example C86_keys_ex : is_ok (cipher_from_key toy [x00; x05] 0) = true /\ is_ok (java_from_key toy [x00; x05] 0) = true /\ is_ok (py_new toy (Some [x00; x05]) 0 (Some 0)) = true /\ strip_zeros [x00; x05] = [x05].
Proof. repeat split; vm_compute; reflexivity. Qed.
(** The same key bytes are not accepted by all three: key 1, a key above the order, no bytes at all. *)
Theorem C86_keys_refuted : forall C h, ec_laws C -> 0 <= h <= 2 ->
  (exists key, of_bytes key = 1 /\ is_ok (cipher_from_key C key h) = true /\ is_ok (py_new C (Some key) 0 (Some h)) = true /\ java_from_key C key h = Err InvalidArgument) /\
  (exists key, of_bytes key = ec_order C + 1 /\ is_ok (py_new C (Some key) 0 (Some h)) = true /\ cipher_from_key C key h = Err InvalidArgument /\ java_from_key C key h = Err InvalidArgument) /\
  (is_ok (py_new C (Some []) 0 (Some h)) = true /\ cipher_from_key C [] h = Err InvalidArgument /\ java_from_key C [] h = Err InvalidArgument).
Proof.
  intros C h L Hh. pose proof (order_gt1 C L) as G.
  assert (Cpp' : forall key, ~ 0 < of_bytes key < ec_order C -> cipher_from_key C key h = Err InvalidArgument).
  { intros key N. unfold cipher_from_key. destruct (validate_hash_type h); cbn [negb]; [|reflexivity]. destruct (check_private_key_ok C (of_bytes key)) as [[B _]|[_ E]]; [contradiction|]. rewrite E. reflexivity. }
  assert (Java' : forall key, ~ 1 < of_bytes key < ec_order C -> java_from_key C key h = Err InvalidArgument).
  { intros key N. unfold java_from_key, java_check_key. rewrite java_number_eq. destruct (Z.leb_spec (of_bytes key) 1); [reflexivity|]. destruct (Z.leb_spec (ec_order C) (of_bytes key)); [reflexivity|lia]. }
  split; [|split].
  - exists [x01]. change (of_bytes [x01]) with 1. destruct (C86_keys C [x01] h L Hh) as (A & _ & B & _). change (of_bytes [x01]) with 1 in A, B. split; [reflexivity|]. split; [apply A; lia|]. split; [apply B; right; rewrite Z.mod_small; lia|]. apply Java'. change (of_bytes [x01]) with 1. lia.
  - destruct (to_bytes_of (ec_order C + 1) ltac:(lia)) as (key & _ & Ek). exists key. destruct (C86_keys C key h L Hh) as (_ & _ & B & _). split; [exact Ek|]. split; [apply B; right; rewrite Ek, <- (Z.mul_1_l (ec_order C)) at 1; rewrite Z.add_comm, Z.mod_add, Z.mod_small; lia|]. split; [apply Cpp'; lia|apply Java'; lia].
  - destruct (C86_keys C [] h L Hh) as (_ & _ & B & _). split; [apply B; left; reflexivity|]. split; [apply Cpp'; cbn; lia|apply Java'; cbn; lia].
Qed.
Print Assumptions C86_keys_refuted.
Example C86_keys_refuted_ex : is_ok (py_new toy (Some [zb 80]) 0 (Some 0)) = true /\ java_from_key toy [zb 80] 0 = Err InvalidArgument /\ java_from_key toy [x01] 0 = Err InvalidArgument.
Proof. repeat split; vm_compute; reflexivity. Qed.

(** A new Java key can be stored and restored unless it is 1. *)
Theorem C86_java_restore : forall C raw h, ec_laws C ->
  (1 + raw mod (ec_order C - 1) <> 1 -> exists kb, java_key_bytes (java_new C raw h) = Ok kb /\ java_from_key C kb h = Ok (java_new C raw h)) /\
  (1 + raw mod (ec_order C - 1) = 1 -> exists kb, java_key_bytes (java_new C raw h) = Ok kb /\ java_from_key C kb h = Err InvalidArgument).
Proof.
  intros C raw h L. pose proof (private_key_range C L raw) as B. unfold generate_private_key in B. unfold java_key_bytes, java_new. cbn [jc_key]. set (k := 1 + raw mod (ec_order C - 1)) in *.
  rewrite java_bytes_pos by lia. destruct (to_bytes_of k ltac:(lia)) as (kb & E & Ek). split; intros Hk; exists kb; (split; [exact E|]); unfold java_from_key, java_check_key; rewrite java_number_eq, Ek.
  - destruct (Z.leb_spec k 1); [lia|]. destruct (Z.leb_spec (ec_order C) k); [lia|]. reflexivity.
  - rewrite Hk. reflexivity.
Qed.
Print Assumptions C86_java_restore.
Theorem C86_java_restore_refuted : forall C h, ec_laws C -> exists raw kb, java_key_bytes (java_new C raw h) = Ok kb /\ java_from_key C kb h = Err InvalidArgument.
Proof. intros C h L. pose proof (order_gt1 C L) as G. exists 0. apply (C86_java_restore C 0 h L). rewrite Z.mod_0_l; [reflexivity|]. intros E. assert (E2 : ec_order C = 1) by lia. lia. Qed.
Print Assumptions C86_java_restore_refuted.
Example C86_java_restore_ex : match java_key_bytes (java_new toy 11 0) with Ok kb => java_from_key toy kb 0 = Ok (java_new toy 11 0) | _ => False end. Proof. vm_compute. reflexivity. Qed.

(** Ciphers created without naming a hash type do not agree. *)
Theorem C86_defaults_refuted : exists C X sqrt_p root key m, usable C /\ sqrt_ok (ec_p C) sqrt_p /\ root_ok (ec_p C) root /\ digest_lengths X /\ 1 < of_bytes key < ec_order C /\ exists j y s t,
  java_from_key C key java_default_hash = Ok j /\ py_new C (Some key) 0 None = Ok y /\ java_encrypt C X root 20 j m = Ok s /\ py_encrypt C X sqrt_p 20 y m = Ok t /\ s <> t.
Proof.
  exists toy, port_ext, toy_sqrt, toy_root, [x05], [x41]. split; [exact toy_usable|]. split; [exact toy_sqrt_ok|]. split; [exact toy_root_ok|]. split; [exact port_digests|]. split; [vm_compute; split; reflexivity|].
  do 4 eexists. split; [vm_compute; reflexivity|]. split; [vm_compute; reflexivity|]. split; [vm_compute; reflexivity|]. split; [vm_compute; reflexivity|]. discriminate.
Qed.
Print Assumptions C86_defaults_refuted.

(** *** Python's EncryptPoint changes the caller's point: a second call on the same object encrypts twice. *)
Theorem C86_encrypt_point : forall C c P, ec_laws C -> P <> pinf C -> pc_key c mod ec_order C <> 0 ->
  snd (py_encrypt_point C c P) = ec_enc C (pmul C (pc_key c) P) /\
  fst (py_encrypt_point C c P) = pmul C (pc_key c) P /\
  (snd (py_encrypt_point C c (fst (py_encrypt_point C c P))) = snd (py_encrypt_point C c P) <-> pc_key c mod ec_order C = 1).
Proof.
  intros C c P L HP Hk. pose proof (order_gt1 C L) as G. unfold py_encrypt_point. cbn [fst snd]. rewrite !(point_mul_eq C L). set (k := pc_key c) in *.
  pose proof (pmul_not_inf C L k P HP Hk) as N1. pose proof (pmul_not_inf C L k _ N1 Hk) as N2. unfold py_encoded. rewrite (proj2 (is_inf_false C L _) N1), (proj2 (is_inf_false C L _) N2). split; [reflexivity|]. split; [reflexivity|]. split.
  - intros E. apply (enc_inj C L) in E; [|exact N2|exact N1]. apply (pmul_pt_inj C L) in E; [|exact Hk]. rewrite <- (pmul_1 C P) in E at 2. apply (pmul_inj_iff C L) in E; [|exact HP]. rewrite E. apply Z.mod_small. lia.
  - intros E. f_equal. rewrite <- (pmul_mod C L k (pmul C k P)), E. apply (pmul_1 C).
Qed.
Print Assumptions C86_encrypt_point.
Theorem C86_encrypt_point_refuted : exists C c P, ec_laws C /\ P <> pinf C /\ snd (py_encrypt_point C c (fst (py_encrypt_point C c P))) <> snd (py_encrypt_point C c P).
Proof.
  exists toy, {| pc_key := 5; pc_inv := 16; pc_hash := 0 |}, (pgen toy). split; [exact toy_laws|]. split; [exact (gen_not_inf toy toy_laws)|]. vm_compute. discriminate.
Qed.
Print Assumptions C86_encrypt_point_refuted.

(** *** Ciphertexts that are refused: exactly those whose decoding fails or is the point at infinity, and Java's validateCiphertext tells which. *)
Theorem C86_refused : forall C jdec pdec (j : java_cipher) (y : py_cipher) s, ec_laws C -> jc_key j mod ec_order C <> 0 ->
  (java_validate C jdec s = true <-> exists P, jdec s = Some P /\ P <> pinf C) /\
  (java_validate C jdec s = true <-> is_ok (java_reencrypt C jdec j s) = true) /\ (java_validate C jdec s = true <-> is_ok (java_decrypt C jdec j s) = true) /\
  (java_validate C jdec s = false -> java_reencrypt C jdec j s = Err InvalidArgument /\ java_decrypt C jdec j s = Err InvalidArgument) /\
  (is_ok (py_reencrypt C pdec y s) = true <-> exists P, pdec s = Some P /\ P <> pinf C) /\ (is_ok (py_decrypt C pdec y s) = true <-> exists P, pdec s = Some P /\ P <> pinf C) /\
  (pdec s = Some (pinf C) -> py_reencrypt C pdec y s = Err InvalidArgument /\ py_decrypt C pdec y s = Err InvalidArgument) /\
  (pdec s = None -> py_reencrypt C pdec y s = Err Internal /\ py_decrypt C pdec y s = Err Internal).
Proof.
  intros C jd pd j y s L Hk. pose proof (order_gt1 C L) as G. assert (Inv : exists r, bn_mod_inverse (jc_key j) (ec_order C) = Ok r).
  { destruct (bn_mod_inverse_ok (jc_key j) (ec_order C) ltac:(lia)) as (r & E & _); [|eauto]. apply Zgcd_1_rel_prime, rel_prime_sym, prime_rel_prime; [apply (order_prime C L)|]. intros D. apply Hk. apply Z.mod_divide; [lia|exact D]. }
  destruct Inv as (r & Er). unfold java_validate, java_reencrypt, java_decrypt, java_point, py_reencrypt, py_decrypt, py_point, message_bytes. rewrite Er. cbn [value_or_crash bind].
  assert (Some_inj : forall (o : option (pt C)) P, o = Some P -> forall Q, o = Some Q -> Q = P) by congruence.
  destruct (jd s) as [P|] eqn:Ej; [destruct (is_inf C P) eqn:Ei; [apply (is_inf_true C L) in Ei|apply (is_inf_false C L) in Ei]|];
  (destruct (pd s) as [Q|] eqn:Ep; [destruct (is_inf C Q) eqn:Eq; [apply (is_inf_true C L) in Eq|apply (is_inf_false C L) in Eq]|]); cbn [bind negb is_ok];
  repeat match goal with |- _ /\ _ => split end; try (split; [intros H|intros H]); try (intros H); try discriminate; try reflexivity; try (eexists; split; [reflexivity|assumption]);
  try (destruct H as (R & HR & NR); try discriminate HR; injection HR as <-; contradiction); try (split; reflexivity); try (injection H as H; contradiction); try (injection H as ->; contradiction).
Qed.
Print Assumptions C86_refused.
Example C86_refused_ex : java_validate toy (ec_dec toy) [x00; x01] = false /\ py_reencrypt toy (ec_dec toy) {| pc_key := 5; pc_inv := 16; pc_hash := 0 |} [xff] = Err Internal /\ java_validate toy (ec_dec toy) (ec_enc toy (pgen toy)) = true.
Proof. repeat split; vm_compute; reflexivity. Qed.
(** Python documents ValueError for them; bytes that do not decode raise AssertionError, so the two implementations refuse differently. *)
Theorem C86_refused_refuted : exists C dec j y s, ec_laws C /\ java_reencrypt C dec j s = Err InvalidArgument /\ py_reencrypt C dec y s = Err Internal.
Proof. exists toy, (ec_dec toy), {| jc_key := 5; jc_hash := 0 |}, {| pc_key := 5; pc_inv := 16; pc_hash := 0 |}, [xff]. split; [exact toy_laws|]. split; vm_compute; reflexivity. Qed.
Print Assumptions C86_refused_refuted.
