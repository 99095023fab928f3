(** Theorems about the commutative cipher (C28-C32) and the point utilities (C55). *)
From Coq Require Import Permutation.
From Verif Require Import Base M_BigNum L_BigNum M_Num L_Mod L_Num L_DJ M_EC L_EC L_Toy M_Group S_Group L_Group P_Group M_Cipher S_Cipher L_Cipher.

(** A concrete setting used by the examples. *)
Definition demo_mac (k d : bytes) : bytes := demo_hash (k ++ d).
Definition demo_ext : externals := {| sha256 := demo_hash; sha384 := demo_hash; sha512 := demo_hash; hmac512 := demo_mac |}.
Definition demo_cipher (k : Z) : cipher := match cipher_from_key toy [zb k] 0 with Ok c => c | _ => {| ci_key := 0; ci_inv := 0; ci_hash := 0 |} end.
Lemma demo_created k : cipher_from_key toy [zb k] 0 = Ok (demo_cipher k) -> created toy demo_ext (demo_cipher k).
Proof. intros E. right; left. exists [zb k], 0. exact E. Qed.
Definition demo_enc (k : Z) (m : bytes) : outcome bytes := cipher_encrypt toy demo_ext toy_sqrt None 20 (demo_cipher k) m.

(** ** C28: decryption inverts encryption. *)
Theorem C28_decrypt_encrypt : forall C X sqrt_p sswu fuel c m s, ec_laws C -> created C X c ->
  cipher_encrypt C X sqrt_p sswu fuel c m = Ok s -> cipher_decrypt C c s = cipher_hash C X sqrt_p sswu fuel c m.
Proof.
  intros C X sq sw fuel c m s L Hc E. apply created_valid in Hc; [|exact L]. destruct (encrypt_inv C L X sq sw fuel c m s Hc E) as (P & _ & NP & -> & NQ & ->).
  change (cipher_decrypt C c (ec_enc C (pmul C (ci_key c) P))) with (apply_layer C (Remove c) (ec_enc C (pmul C (ci_key c) P))).
  rewrite (layer_ok C L (Remove c) _ _ Hc (point_of_bytes_enc C L _ NQ)). cbn [factor]. rewrite <- pmul_mul by exact L.
  rewrite (pmul_eqmod C L _ 1 P (proj2 Hc)). rewrite pmul_1 by exact L. reflexivity.
Qed.
Print Assumptions C28_decrypt_encrypt.

(** Encryption succeeds exactly when hashing to the curve does, and otherwise fails the same way. *)
Theorem C28_encrypt_total : forall C X sqrt_p sswu fuel c m, ec_laws C -> created C X c ->
  (forall h, cipher_hash C X sqrt_p sswu fuel c m = Ok h -> exists s, cipher_encrypt C X sqrt_p sswu fuel c m = Ok s) /\
  ((forall h, cipher_hash C X sqrt_p sswu fuel c m <> Ok h) -> cipher_encrypt C X sqrt_p sswu fuel c m = cipher_hash C X sqrt_p sswu fuel c m).
Proof.
  intros C X sq sw fuel c m L Hc. apply created_valid in Hc; [|exact L]. rewrite (encrypt_factor C L) by exact Hc. split.
  - intros h E. rewrite E. unfold cipher_hash in E. apply bind_ok in E. destruct E as (P & -> & _). eauto.
  - intros Hn. destruct (cipher_hash C X sq sw fuel c m) as [h| | | |]; try reflexivity. exfalso. exact (Hn h eq_refl).
Qed.
Print Assumptions C28_encrypt_total.

(** Re-encryption of anything that decodes to a point succeeds, and decryption gives that point's encoding back; on bytes the library produced
    that is the same bytes. The other order as well. *)
Theorem C28_decrypt_reencrypt : forall C X c s P, ec_laws C -> created C X c -> point_of_bytes C s = Ok P ->
  (exists t, cipher_reencrypt C c s = Ok t /\ cipher_decrypt C c t = Ok (ec_enc C P)) /\
  (exists t, cipher_decrypt C c s = Ok t /\ cipher_reencrypt C c t = Ok (ec_enc C P)).
Proof.
  intros C X c s P L Hc E. apply created_valid in Hc; [|exact L]. pose proof (point_of_bytes_not_inf C L _ _ E) as NP.
  assert (G : forall a b, (a = Add c /\ b = Remove c) \/ (a = Remove c /\ b = Add c) -> exists t, apply_layer C a s = Ok t /\ apply_layer C b t = Ok (ec_enc C P)).
  { intros a b Hab. assert (Ga : good C (layer_cipher a)) by (destruct Hab as [[-> _]|[-> _]]; exact Hc). assert (Gb : good C (layer_cipher b)) by (destruct Hab as [[_ ->]|[_ ->]]; exact Hc).
    rewrite (layer_ok C L a s P Ga E). eexists. split; [reflexivity|].
    rewrite (layer_ok C L b _ _ Gb (point_of_bytes_enc C L _ (pmul_not_inf C L _ P NP (factor_unit C L a Ga)))). rewrite <- pmul_mul by exact L.
    rewrite (pmul_eqmod C L _ 1 P); [rewrite pmul_1 by exact L; reflexivity|]. destruct Hab as [[-> ->]|[-> ->]]; cbn [factor]; [|rewrite Z.mul_comm]; apply Hc. }
  split; [apply (G (Add c) (Remove c)); tauto|apply (G (Remove c) (Add c)); tauto].
Qed.
Print Assumptions C28_decrypt_reencrypt.
Theorem C28_canonical : forall C P s, ec_laws C -> point_to_bytes C P = Ok s -> point_of_bytes C s = Ok P /\ ec_enc C P = s.
Proof. intros C P s L E. apply (point_to_bytes_inv C L) in E. destruct E as [NP ->]. split; [apply point_of_bytes_enc; assumption|reflexivity]. Qed.
Print Assumptions C28_canonical.
Example C28_ex : created toy demo_ext (demo_cipher 5) /\
  match demo_enc 5 [zb 65] with Ok s => cipher_decrypt toy (demo_cipher 5) s = cipher_hash toy demo_ext toy_sqrt None 20 (demo_cipher 5) [zb 65] /\
    cipher_hash toy demo_ext toy_sqrt None 20 (demo_cipher 5) [zb 65] <> Ok s | _ => False end.
Proof. split; [apply demo_created; vm_compute; reflexivity|]. vm_compute. split; [reflexivity|discriminate]. Qed.

(** ** C29: layers commute. Any reordering of any sequence of additions and removals of layers gives the same outcome, on any bytes. *)
Theorem C29_layers_commute : forall C X ls ls' s, ec_laws C -> Forall (fun l => created C X (layer_cipher l)) ls -> Permutation ls ls' ->
  apply_layers C ls s = apply_layers C ls' s.
Proof.
  intros C X ls ls' s L H Hp. assert (G : Forall (fun l => good C (layer_cipher l)) ls) by (eapply Forall_impl; [|exact H]; cbn beta; intros l Hl; apply (created_valid C L X), Hl).
  assert (G' : Forall (fun l => good C (layer_cipher l)) ls') by (eapply Permutation_Forall; eassumption). pose proof (factors_perm ls ls' Hp) as Ef.
  destruct ls as [|l ls]; [apply Permutation_nil in Hp; subst; reflexivity|]. destruct ls' as [|l' ls']; [symmetry in Hp; apply Permutation_nil in Hp; discriminate|].
  inversion G; inversion G'; subst. destruct (point_of_bytes C s) as [P|e| | |] eqn:E.
  - rewrite !(layers_dec C L _ _ s P) by assumption. rewrite Ef. reflexivity.
  - cbn [apply_layers]. rewrite !layer_bad by congruence. reflexivity.
  - unfold point_of_bytes in E. destruct (ec_dec C s) as [Q|]; [destruct (is_inf C Q)|]; discriminate.
  - unfold point_of_bytes in E. destruct (ec_dec C s) as [Q|]; [destruct (is_inf C Q)|]; discriminate.
  - unfold point_of_bytes in E. destruct (ec_dec C s) as [Q|]; [destruct (is_inf C Q)|]; discriminate.
Qed.
Print Assumptions C29_layers_commute.

(** Layers can be removed in any order, interleaved in any way with other operations: what remains is the effect of the rest. *)
Theorem C29_layers_removed : forall C X cs rest ls P, ec_laws C -> Forall (created C X) cs -> Forall (fun l => created C X (layer_cipher l)) rest -> P <> pinf C ->
  Permutation ls (map Add cs ++ map Remove cs ++ rest) -> apply_layers C ls (ec_enc C P) = apply_layers C rest (ec_enc C P).
Proof.
  intros C X cs rest ls P L Hcs Hr NP Hp.
  assert (Gc : Forall (good C) cs) by (eapply Forall_impl; [|exact Hcs]; cbn beta; intros l Hl; apply (created_valid C L X), Hl).
  assert (Gr : Forall (fun l => good C (layer_cipher l)) rest) by (eapply Forall_impl; [|exact Hr]; cbn beta; intros l Hl; apply (created_valid C L X), Hl).
  assert (Gl : Forall (fun l => good C (layer_cipher l)) ls).
  { symmetry in Hp. eapply Permutation_Forall; [exact Hp|]. apply Forall_app. split; [|apply Forall_app; split; [|exact Gr]]; apply Forall_map; exact Gc. }
  rewrite (proj1 (layers_enc C L ls Gl P NP)), (proj1 (layers_enc C L rest Gr P NP)). do 2 f_equal. apply (pmul_eqmod C L).
  rewrite (factors_perm _ _ Hp), app_assoc, factors_app, (factors_cancel C cs Gc), Z.mul_1_l. reflexivity.
Qed.
Print Assumptions C29_layers_removed.

(** Encrypting an identifier with several ciphers: the order, including which one hashes the identifier, is irrelevant. *)
Theorem C29_encryption_order : forall C X sqrt_p sswu fuel cs cs' m h, ec_laws C -> Forall (created C X) cs -> Forall (fun c => ci_hash c = h) cs -> Permutation cs cs' ->
  encrypt_all C X sqrt_p sswu fuel cs m = encrypt_all C X sqrt_p sswu fuel cs' m.
Proof.
  intros C X sq sw fuel cs cs' m h L H Hh Hp.
  assert (G : Forall (good C) cs) by (eapply Forall_impl; [|exact H]; cbn beta; intros l Hl; apply (created_valid C L X), Hl).
  assert (G' : Forall (good C) cs') by (eapply Permutation_Forall; eassumption). assert (Hh' : Forall (fun c => ci_hash c = h) cs') by (eapply Permutation_Forall; eassumption).
  pose proof (factors_perm (map Add cs) (map Add cs') (Permutation_map Add Hp)) as Ef.
  destruct cs as [|c cs]; [apply Permutation_nil in Hp; subst; reflexivity|]. destruct cs' as [|c' cs']; [symmetry in Hp; apply Permutation_nil in Hp; discriminate|].
  cbn [encrypt_all]. inversion G as [|? ? Gc Gcs]; inversion G' as [|? ? Gc' Gcs']; inversion Hh as [|? ? Hc _]; inversion Hh' as [|? ? Hc' _]; subst.
  assert (Eh : cipher_hash C X sq sw fuel c' m = cipher_hash C X sq sw fuel c m) by (unfold cipher_hash; congruence).
  rewrite !(encrypt_factor C L) by assumption. rewrite Eh, Hc'. unfold cipher_hash. destruct (hash_internal C X sq sw fuel (ci_hash c) m) as [P|e| | |]; try reflexivity. cbn [bind].
  destruct (point_to_bytes C P) as [t|e| | |] eqn:Et; try reflexivity. cbn [bind]. apply (point_to_bytes_inv C L) in Et. destruct Et as [NP _].
  assert (K : forall c cs, good C c -> Forall (good C) cs -> apply_layers C (map Add cs) (ec_enc C (pmul C (ci_key c) P)) = Ok (ec_enc C (pmul C (factors (map Add (c :: cs))) P))).
  { intros d ds Gd Gds. cbn [map factors fold_right]. fold (factors (map Add ds)). cbn [factor]. rewrite pmul_mul by exact L.
    apply (layers_enc C L); [apply Forall_map; exact Gds|]. apply (pmul_not_inf C L _ P NP (factor_unit C L (Add d) Gd)). }
  rewrite !K by assumption. rewrite Ef. reflexivity.
Qed.
Print Assumptions C29_encryption_order.
Example C29_ex : Forall (created toy demo_ext) [demo_cipher 5; demo_cipher 9; demo_cipher 33] /\
  match encrypt_all toy demo_ext toy_sqrt None 20 [demo_cipher 5; demo_cipher 9; demo_cipher 33] [zb 65], encrypt_all toy demo_ext toy_sqrt None 20 [demo_cipher 33; demo_cipher 5; demo_cipher 9] [zb 65] with
  | Ok s, Ok t => s = t | _, _ => False end.
Proof. split; [repeat (apply Forall_cons; [apply demo_created; vm_compute; reflexivity|]); apply Forall_nil|]. vm_compute. reflexivity. Qed.

(** ** C30: double encryption compares identifiers. *)
Theorem C30_double_encryption_compares : forall C X sqrt_p sswu fuel a b x y ex ey u v, ec_laws C -> created C X a -> created C X b ->
  cipher_encrypt C X sqrt_p sswu fuel a x = Ok ex -> cipher_reencrypt C b ex = Ok u ->
  cipher_encrypt C X sqrt_p sswu fuel b y = Ok ey -> cipher_reencrypt C a ey = Ok v ->
  (u = v <-> cipher_hash C X sqrt_p sswu fuel a x = cipher_hash C X sqrt_p sswu fuel b y).
Proof.
  intros C X sq sw fuel a b x y ex ey u v L Ha Hb E1 E2 E3 E4. apply created_valid in Ha, Hb; try exact L.
  destruct (encrypt_inv C L X sq sw fuel a x ex Ha E1) as (P & _ & NP & -> & NaP & Hx). destruct (encrypt_inv C L X sq sw fuel b y ey Hb E3) as (Q & _ & NQ & -> & NbQ & Hy).
  change (cipher_reencrypt C b) with (apply_layer C (Add b)) in E2. change (cipher_reencrypt C a) with (apply_layer C (Add a)) in E4.
  rewrite (layer_ok C L (Add b) _ _ Hb (point_of_bytes_enc C L _ NaP)) in E2. rewrite (layer_ok C L (Add a) _ _ Ha (point_of_bytes_enc C L _ NbQ)) in E4.
  cbn [factor] in E2, E4. assert (Eu : u = ec_enc C (pmul C (ci_key b) (pmul C (ci_key a) P))) by congruence. assert (Ev : v = ec_enc C (pmul C (ci_key a) (pmul C (ci_key b) Q))) by congruence.
  rewrite Hx, Hy, Eu, Ev. rewrite <- (pmul_mul C L (ci_key a)). rewrite (Z.mul_comm (ci_key a)), (pmul_mul C L (ci_key b)).
  pose proof (factor_unit C L (Add a) Ha) as Ua. pose proof (factor_unit C L (Add b) Hb) as Ub. cbn [factor] in Ua, Ub.
  pose proof (pmul_not_inf C L _ Q NQ Ua) as NaQ. split.
  - intros E. apply (enc_inj C L) in E; [|apply (pmul_not_inf C L); assumption|apply (pmul_not_inf C L); assumption].
    apply (pmul_pt_inj C L) in E; [|exact Ub]. apply (pmul_pt_inj C L) in E; [|exact Ua]. congruence.
  - intros E. injection E as E. apply (enc_inj C L) in E; [|assumption|assumption]. congruence.
Qed.
Print Assumptions C30_double_encryption_compares.
(** And those operations never fail once the identifier hashed. *)
Theorem C30_double_encryption_total : forall C X sqrt_p sswu fuel a b x h, ec_laws C -> created C X a -> created C X b ->
  cipher_hash C X sqrt_p sswu fuel a x = Ok h -> exists ex u, cipher_encrypt C X sqrt_p sswu fuel a x = Ok ex /\ cipher_reencrypt C b ex = Ok u.
Proof.
  intros C X sq sw fuel a b x h L Ha Hb Eh. destruct (proj1 (C28_encrypt_total C X sq sw fuel a x L Ha) h Eh) as (ex & E). apply created_valid in Ha, Hb; try exact L.
  destruct (encrypt_inv C L X sq sw fuel a x ex Ha E) as (P & _ & NP & Es & NaP & _). exists ex. eexists. split; [exact E|]. rewrite Es.
  apply (layer_ok C L (Add b) _ _ Hb (point_of_bytes_enc C L _ NaP)).
Qed.
Print Assumptions C30_double_encryption_total.
Example C30_ex : let dbl a b x := let* s := demo_enc a x in cipher_reencrypt toy (demo_cipher b) s in
  match dbl 5 9 [zb 65], dbl 9 5 [zb 65], dbl 9 5 [zb 66] with Ok u, Ok v, Ok w => u = v /\ u <> w | _, _, _ => False end.
Proof. vm_compute. split; [reflexivity|discriminate]. Qed.

(** ** C31: key handling. *)
Theorem C31_keys_accepted : forall C key_bytes hash_type, ec_laws C ->
  (0 < of_bytes key_bytes < ec_order C /\ 0 <= hash_type <= 3 /\ exists c, cipher_from_key C key_bytes hash_type = Ok c /\ ci_key c = of_bytes key_bytes /\ ci_hash c = hash_type) \/
  (~ (0 < of_bytes key_bytes < ec_order C /\ 0 <= hash_type <= 3) /\ cipher_from_key C key_bytes hash_type = Err InvalidArgument).
Proof.
  intros C kb h L. unfold cipher_from_key. assert (Hv : validate_hash_type h = true <-> 0 <= h <= 3).
  { unfold validate_hash_type. rewrite !orb_true_iff, !Z.eqb_eq. lia. }
  destruct (validate_hash_type h) eqn:Ev; cbn [negb].
  - destruct (check_private_key_ok C (of_bytes kb)) as [[B Ec]|[B Ec]]; rewrite Ec; cbn [bind]; [left|right; split; [tauto|reflexivity]].
    destruct (cipher_make_ok C L (of_bytes kb) h) as (c & E & Hk & Hh & _). split; [exact B|]. split; [apply Hv; reflexivity|]. eauto.
  - right. split; [|reflexivity]. intros [_ B]. apply Hv in B. discriminate.
Qed.
Print Assumptions C31_keys_accepted.
Example C31_keys_ex : cipher_from_key toy [zb 79] 0 = Err InvalidArgument /\ is_ok (cipher_from_key toy [zb 78] 0) = true /\ cipher_from_key toy [] 0 = Err InvalidArgument /\ cipher_from_key toy [zb 5] 4 = Err InvalidArgument.
Proof. vm_compute. tauto. Qed.

(** Both forms of the check that callers may make beforehand accept exactly the hash types with which ciphers can be created. *)
Theorem C31_hash_type_check : forall C hash_type, ec_laws C ->
  (validate_hash_type_int hash_type = true <-> exists key_bytes c, cipher_from_key C key_bytes hash_type = Ok c) /\
  (validate_hash_type hash_type = true <-> exists key_bytes c, cipher_from_key C key_bytes hash_type = Ok c).
Proof.
  intros C h L.
  assert (W : 0 <= h <= 3 <-> exists kb c, cipher_from_key C kb h = Ok c).
  { split.
    - intros B. pose proof (order_gt1 C L) as Hp.
      destruct (to_bytes_of 1 ltac:(lia)) as (kb & Ek & Eo). exists kb. destruct (C31_keys_accepted C kb h L) as [(_ & _ & c & E & _)|(N & _)]; [eauto|]. exfalso. apply N. rewrite Eo. lia.
    - intros (kb & c & E). destruct (C31_keys_accepted C kb h L) as [(_ & B & _)|(_ & E')]; [exact B|congruence]. }
  rewrite <- W. split.
  - unfold validate_hash_type_int. rewrite andb_true_iff, !Z.leb_le. tauto.
  - unfold validate_hash_type. rewrite !orb_true_iff, !Z.eqb_eq. lia.
Qed.
Print Assumptions C31_hash_type_check.
Example C31_hash_type_ex : validate_hash_type_int 3 = true /\ validate_hash_type_int 4 = false /\ validate_hash_type_int (-1) = false.
Proof. vm_compute. tauto. Qed.

(** A cipher re-created from exported key bytes is the same cipher. *)
Theorem C31_key_roundtrip : forall C X c, ec_laws C -> created C X c -> exists kb, cipher_key_bytes c = Ok kb /\ cipher_from_key C kb (ci_hash c) = Ok c.
Proof.
  intros C X c L Hc. pose proof (created_valid C L X c Hc) as [B _]. destruct (to_bytes_of (ci_key c) ltac:(lia)) as (kb & Ek & Eo). exists kb. split; [exact Ek|].
  assert (Hm : exists k h, validate_hash_type h = true /\ cipher_make C k h = Ok c).
  { destruct Hc as [(raw & h & E)|[(b & h & E)|(fuel & seed & tag & h & E & _)]].
    - unfold cipher_new in E. destruct (validate_hash_type h) eqn:Ev; [|discriminate]. cbn [negb] in E. eauto.
    - unfold cipher_from_key in E. destruct (validate_hash_type h) eqn:Ev; [|discriminate]. apply bind_ok in E. destruct E as (u & _ & E). eauto.
    - unfold cipher_from_seed in E. destruct (_ <? 16); [discriminate|]. destruct (validate_hash_type h) eqn:Ev; [|discriminate]. apply bind_ok in E. destruct E as (k & _ & E). eauto. }
  destruct Hm as (k & h & Ev & E). destruct (cipher_make_ok C L k h) as (c' & E' & Hk & Hh & _). rewrite E in E'. injection E' as <-.
  unfold cipher_from_key. rewrite Hh, Ev. cbn [negb]. rewrite Eo, Hk. destruct (check_private_key_ok C k) as [[_ Ec]|[Nb _]]; [rewrite Ec; exact E|]. rewrite Hk in B. contradiction.
Qed.
Print Assumptions C31_key_roundtrip.

(** A freshly generated key is always usable. *)
Theorem C31_new_key : forall C X raw hash_type, ec_laws C -> 0 <= hash_type <= 3 ->
  exists c, cipher_new C raw hash_type = Ok c /\ created C X c /\ 0 < ci_key c < ec_order C /\ ci_hash c = hash_type.
Proof.
  intros C X raw h L Hh. unfold cipher_new. assert (Hv : validate_hash_type h = true) by (unfold validate_hash_type; rewrite !orb_true_iff, !Z.eqb_eq; lia). rewrite Hv. cbn [negb].
  destruct (cipher_make_ok C L (generate_private_key C raw) h) as (c & E & Hk & Hh' & _). exists c. split; [exact E|]. split; [left; exists raw, h; unfold cipher_new; rewrite Hv; exact E|]. split; [|exact Hh'].
  rewrite Hk. apply private_key_range, L.
Qed.
Print Assumptions C31_new_key.

(** Keys from seeds: short seeds and unknown hash types are rejected, and otherwise (for orders of at most 512 bits) the key is below the order
    and determined by seed and tag. *)
Theorem C31_seeds : forall C X fuel seed tag hash_type, ec_laws C -> bit_length (ec_order C) <= 512 ->
  ((Z.of_nat (length seed) < 16 \/ ~ 0 <= hash_type <= 3) /\ cipher_from_seed C X fuel seed tag hash_type = Err InvalidArgument) \/
  (16 <= Z.of_nat (length seed) /\ 0 <= hash_type <= 3 /\ cipher_from_seed C X fuel seed tag hash_type = Diverge) \/
  (16 <= Z.of_nat (length seed) /\ 0 <= hash_type <= 3 /\ exists c, cipher_from_seed C X fuel seed tag hash_type = Ok c /\ 0 <= ci_key c < ec_order C /\ ci_hash c = hash_type).
Proof.
  intros C X fuel seed tag h L Hb. unfold cipher_from_seed. assert (Hv : validate_hash_type h = true <-> 0 <= h <= 3) by (unfold validate_hash_type; rewrite !orb_true_iff, !Z.eqb_eq; lia).
  destruct (Z.ltb_spec (Z.of_nat (length seed)) 16) as [Hl|Hl]; [left; tauto|]. destruct (validate_hash_type h) eqn:Ev; cbn [negb].
  - right. pose proof (proj1 Hv eq_refl) as Hh. destruct (prf_sound (hmac512 X) seed (ec_order C) ltac:(lia) Hb fuel tag) as [(k & v & _ & E & _)|[E _]]; [right|left; rewrite E; tauto].
    split; [lia|]. split; [exact Hh|]. pose proof (prf_range C (hmac512 X) fuel seed tag v ltac:(lia) Hb E) as Bv. rewrite E. cbn [bind].
    destruct (cipher_make_ok C L v h) as (c & Ec & Hk & Hc & _). exists c. rewrite Hk. tauto.
  - left. split; [right; intros B; apply Hv in B; discriminate|reflexivity].
Qed.
Print Assumptions C31_seeds.
Theorem C31_seeds_deterministic : forall C X fuel fuel' seed tag hash_type c c', bit_length (ec_order C) <= 512 ->
  cipher_from_seed C X fuel seed tag hash_type = Ok c -> cipher_from_seed C X fuel' seed tag hash_type = Ok c' -> c = c'.
Proof.
  intros C X f f' seed tag h c c' Hb E1 E2. unfold cipher_from_seed in *. destruct (Z.ltb_spec (Z.of_nat (length seed)) 16); [discriminate|]. destruct (negb (validate_hash_type h)); [discriminate|].
  apply bind_ok in E1, E2. destruct E1 as (k & Ek & E1), E2 as (k' & Ek' & E2).
  destruct (prf_sound (hmac512 X) seed (ec_order C) ltac:(lia) Hb f tag) as [(i & v & _ & E & F)|[E _]]; [|congruence].
  destruct (prf_sound (hmac512 X) seed (ec_order C) ltac:(lia) Hb f' tag) as [(i' & v' & _ & E' & F')|[E' _]]; [|congruence].
  destruct (prf_first_unique _ _ _ _ _ _ _ _ _ F F') as [_ Ev]. congruence.
Qed.
Print Assumptions C31_seeds_deterministic.
Example C31_seeds_ex : let seed := repeat (zb 7) 16 in
  is_ok (cipher_from_seed toy demo_ext 20 seed [zb 1] 0) = true /\ cipher_from_seed toy demo_ext 20 (repeat (zb 7) 15) [zb 1] 0 = Err InvalidArgument /\ bit_length (ec_order toy) = 7.
Proof. vm_compute. tauto. Qed.

(** Curves of larger order (P-521) cannot be used with seeds: the call aborts. *)
Theorem C31_seed_large_order_aborts : forall C X fuel seed tag hash_type, (0 < fuel)%nat -> 16 <= Z.of_nat (length seed) -> 0 <= hash_type <= 3 -> 512 < bit_length (ec_order C) ->
  cipher_from_seed C X fuel seed tag hash_type = Crash.
Proof.
  intros C X fuel seed tag h Hf Hl Hh Hb. unfold cipher_from_seed. destruct (Z.ltb_spec (Z.of_nat (length seed)) 16); [lia|].
  assert (Hv : validate_hash_type h = true) by (unfold validate_hash_type; rewrite !orb_true_iff, !Z.eqb_eq; lia). rewrite Hv. cbn [negb].
  destruct fuel as [|fuel]; [lia|]. cbn [prf]. destruct (Z.ltb_spec (Z.of_nat (length seed) * 8) 80); [reflexivity|]. destruct (Z.ltb_spec 512 (bit_length (ec_order C))); [reflexivity|lia].
Qed.
Print Assumptions C31_seed_large_order_aborts.

(** Unlike CreateFromKey, seeds are not checked for key zero; such a cipher is created and never encrypts anything. *)
Theorem C31_seed_zero_key : exists X seed tag c, 16 <= Z.of_nat (length seed) /\ cipher_from_seed toy X 1 seed tag 0 = Ok c /\ ci_key c = 0 /\
  forall sqrt_p sswu fuel m s, cipher_encrypt toy X sqrt_p sswu fuel c m <> Ok s.
Proof.
  exists {| sha256 := demo_hash; sha384 := demo_hash; sha512 := demo_hash; hmac512 := fun _ _ => [] |}, (repeat (zb 0) 16), [], {| ci_key := 0; ci_inv := 0; ci_hash := 0 |}.
  split; [vm_compute; discriminate|]. split; [vm_compute; reflexivity|]. split; [reflexivity|]. intros sq sw fuel m s E. unfold cipher_encrypt in E. apply bind_ok in E. destruct E as (P & _ & E).
  cbn [ci_key] in E. rewrite (point_mul_eq toy toy_laws), (pmul_0 toy) in E. apply (point_to_bytes_inv toy toy_laws) in E. destruct E as [E _]. apply E. reflexivity.
Qed.
Print Assumptions C31_seed_zero_key.

(** ** C32: malformed inputs. Bytes that do not decode to a finite point are rejected with INVALID_ARGUMENT; all others are accepted. *)
Definition decodes (C : ec) (s : bytes) : Prop := exists P, ec_dec C s = Some P /\ P <> pinf C.
Lemma decodes_iff C s : ec_laws C -> (decodes C s <-> exists P, point_of_bytes C s = Ok P).
Proof.
  intros L. unfold decodes, point_of_bytes. split.
  - intros (P & -> & NP). rewrite (proj2 (is_inf_false C L P) NP). eauto.
  - intros (P & E). destruct (ec_dec C s) as [Q|]; [|discriminate]. destruct (is_inf C Q) eqn:EQ; [discriminate|]. exists Q. split; [reflexivity|]. apply (is_inf_false C L), EQ.
Qed.
Lemma not_decodes C s : ec_laws C -> ~ decodes C s -> point_of_bytes C s = Err InvalidArgument.
Proof.
  intros L N. unfold point_of_bytes. destruct (ec_dec C s) as [Q|] eqn:E; [|reflexivity]. destruct (is_inf C Q) eqn:EQ; [reflexivity|]. exfalso. apply N. exists Q. split; [exact E|apply (is_inf_false C L), EQ].
Qed.
Theorem C32_malformed_rejected : forall C c s t, ec_laws C -> ~ decodes C s ->
  cipher_reencrypt C c s = Err InvalidArgument /\ cipher_decrypt C c s = Err InvalidArgument /\
  cipher_reencrypt_elgamal C c (s, t) = Err InvalidArgument /\ (forall r, cipher_reencrypt_elgamal C c (t, s) <> Ok r).
Proof.
  intros C c s t L N. pose proof (not_decodes C s L N) as E. unfold cipher_reencrypt, cipher_decrypt, cipher_reencrypt_elgamal. cbn [fst snd]. rewrite E. cbn [bind]. repeat (split; [reflexivity|]).
  intros r Er. apply bind_ok in Er. destruct Er as (u & _ & Er). cbn [bind] in Er. discriminate.
Qed.
Print Assumptions C32_malformed_rejected.
Theorem C32_wellformed_accepted : forall C X c s t, ec_laws C -> created C X c -> decodes C s -> decodes C t ->
  (exists u, cipher_reencrypt C c s = Ok u /\ decodes C u) /\ (exists u, cipher_decrypt C c s = Ok u /\ decodes C u) /\ (exists u, cipher_reencrypt_elgamal C c (s, t) = Ok u).
Proof.
  intros C X c s t L Hc Ds Dt. apply (decodes_iff C) in Ds, Dt; try exact L. destruct Ds as (P & EP), Dt as (Q & EQ). apply created_valid in Hc; [|exact L].
  assert (K : forall l, good C (layer_cipher l) -> exists u, apply_layer C l s = Ok u /\ decodes C u).
  { intros l G. rewrite (layer_ok C L l s P G EP). eexists. split; [reflexivity|]. pose proof (point_of_bytes_not_inf C L _ _ EP) as NP. exists (pmul C (factor l) P).
    pose proof (pmul_not_inf C L _ P NP (factor_unit C L l G)). split; [apply (enc_dec C L); assumption|assumption]. }
  split; [apply (K (Add c)), Hc|]. split; [apply (K (Remove c)), Hc|]. unfold cipher_reencrypt_elgamal. cbn [fst snd]. rewrite EP, EQ. cbn [bind].
  rewrite !(point_mul_eq C L). rewrite !(point_to_bytes_ok C L) by (apply (pmul_not_inf C L); [eapply point_of_bytes_not_inf; eassumption|apply (factor_unit C L (Add c)), Hc]). cbn [bind]. eauto.
Qed.
Print Assumptions C32_wellformed_accepted.
Example C32_ex : ~ decodes toy [] /\ decodes toy (ec_enc toy (pgen toy)).
Proof.
  split; [intros (P & E & N); vm_compute in E; discriminate|]. exists (pgen toy). split; [apply (enc_dec toy toy_laws), (gen_not_inf toy toy_laws)|apply (gen_not_inf toy toy_laws)].
Qed.

(** ** C55: the point utilities agree with the cipher. *)
Theorem C55_is_curve_point : forall C X c s, ec_laws C -> created C X c ->
  (is_curve_point C s = true <-> decodes C s) /\ (is_curve_point C s = true <-> exists t, cipher_reencrypt C c s = Ok t).
Proof.
  intros C X c s L Hc. assert (A : is_curve_point C s = true <-> decodes C s).
  { rewrite decodes_iff by exact L. unfold is_curve_point. destruct (point_of_bytes C s); cbn [is_ok]; split; intros H; try discriminate; eauto; destruct H; discriminate. }
  split; [exact A|]. rewrite A. split.
  - intros D. destruct (C32_wellformed_accepted C X c s s L Hc D D) as [(u & E & _) _]. eauto.
  - intros (t & E). apply (decodes_iff C s L). unfold cipher_reencrypt in E. apply bind_ok in E. destruct E as (P & E & _). eauto.
Qed.
Print Assumptions C55_is_curve_point.
Theorem C55_random_point : forall C raw, ec_laws C -> exists s, random_point C raw = Ok s /\ is_curve_point C s = true /\
  exists k, 0 < k < ec_order C /\ s = ec_enc C (pmul C k (pgen C)).
Proof.
  intros C raw L. pose proof (private_key_range C L raw) as B. unfold random_point. rewrite (point_mul_eq C L). assert (N : pmul C (generate_private_key C raw) (pgen C) <> pinf C).
  { apply (pmul_not_inf C L); [apply (gen_not_inf C L)|]. rewrite Z.mod_small; lia. }
  rewrite (point_to_bytes_ok C L _ N). eexists. split; [reflexivity|]. split; [unfold is_curve_point; rewrite (point_of_bytes_enc C L _ N); reflexivity|]. eauto.
Qed.
Print Assumptions C55_random_point.
Theorem C55_hash_agrees : forall C X sqrt_p sswu fuel c m, (ci_hash c = 0 \/ ci_hash c = 2 -> point_util_hash C X sqrt_p fuel m (ci_hash c) = cipher_hash C X sqrt_p sswu fuel c m) /\
  (ci_hash c <> 0 -> ci_hash c <> 2 -> point_util_hash C X sqrt_p fuel m (ci_hash c) = Err InvalidArgument).
Proof.
  intros C X sq sw fuel c m. unfold point_util_hash, cipher_hash, hash_internal. split; [intros [->| ->]; reflexivity|]. intros H0 H2.
  destruct (Z.eqb_spec (ci_hash c) 2); [contradiction|]. destruct (Z.eqb_spec (ci_hash c) 0); [contradiction|reflexivity].
Qed.
Print Assumptions C55_hash_agrees.
(** The ASCII codes of ECCommutativeCipher, the domain separation tag under which identifiers are hashed by the SSWU map. *)
Definition cipher_tag : bytes := map zb [69;67;67;111;109;109;117;116;97;116;105;118;101;67;105;112;104;101;114].
(** With hash type 3 an identifier is hashed by the curve's SSWU map under that tag, and encryption multiplies the mapped point by the key; a
    curve without a map, and a failing map, are errors. *)
Theorem C55_sswu_encrypt : forall C X sqrt_p fuel c m, ec_laws C -> created C X c -> ci_hash c = 3 ->
  (forall f P, f m cipher_tag = Some P -> P <> pinf C ->
    cipher_hash C X sqrt_p (Some f) fuel c m = Ok (ec_enc C P) /\
    cipher_encrypt C X sqrt_p (Some f) fuel c m = Ok (ec_enc C (pmul C (ci_key c) P))) /\
  (forall f, f m cipher_tag = None -> cipher_encrypt C X sqrt_p (Some f) fuel c m = Err Internal) /\
  cipher_encrypt C X sqrt_p None fuel c m = Err InvalidArgument.
Proof.
  intros C X sq fuel c m L Hc H3. apply created_valid in Hc; [|exact L]. unfold cipher_hash, cipher_encrypt, hash_internal. rewrite H3. change (cipher_dst) with cipher_tag.
  cbn [Z.eqb Pos.eqb sswu_to_curve bind]. split; [|split].
  - intros f P E NP. rewrite E. cbn [bind]. rewrite (point_mul_eq C L). split; [exact (point_to_bytes_ok C L _ NP)|]. apply (point_to_bytes_ok C L).
    apply (pmul_not_inf C L); [exact NP|]. destruct Hc as [B _]. rewrite Z.mod_small; lia.
  - intros f E. rewrite E. reflexivity.
  - reflexivity.
Qed.
Print Assumptions C55_sswu_encrypt.
Example C55_sswu_ex : match cipher_from_key toy [zb 5] 3 with
  | Ok c => cipher_encrypt toy demo_ext toy_sqrt (Some (fun _ d => if bytes_eqb d cipher_tag then Some (pgen toy) else None)) 20 c [zb 1] = Ok (ec_enc toy (pmul toy 5 (pgen toy)))
  | _ => False end.
Proof. vm_compute. reflexivity. Qed.
Example C55_ex : match random_point toy 12345 with Ok s => is_curve_point toy s = true | _ => False end. Proof. vm_compute. reflexivity. Qed.
