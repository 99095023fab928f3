(** Theorems about Camenisch-Shoup encryption (C43 - C46). *)
From Coq Require Import Znumtheory.
From Verif Require Import Base M_BigNum L_BigNum M_Num L_Mod L_Num L_NT M_DJ L_DJ M_Paillier S_Paillier L_Paillier L_PaillierKey M_EC M_Proto M_CS S_CS L_CS.

(** A concrete key: n = 7 * 11, s = 2, three components. *)
Definition ex_n := 77. Definition ex_g := 259669. Definition ex_xs := [3; 4; 9].
Definition ex_ys := Eval vm_compute in map (fun x => ex_g ^ x mod 77 ^ 3) ex_xs.
Lemma ex_keypair : cs_keypair 77 2 ex_g ex_xs ex_ys.
Proof.
  constructor; [reflexivity|lia|unfold ex_g; cbn; lia|reflexivity| |].
  - repeat constructor; try lia; vm_compute; reflexivity.
  - intros i Hi. assert (i = 1 \/ i = 2) as [-> | ->] by lia; reflexivity.
Qed.

Lemma keypair_fact n s g xs ys : cs_keypair n s g xs ys -> fact_coprime n s.
Proof. intros K i Hi. apply (ck_small _ _ _ _ _ K). lia. Qed.
Lemma keypair_ranges n s g xs ys : cs_keypair n s g xs ys -> Forall (fun x => 0 <= x) xs /\ Forall (fun y => 0 <= y < n ^ (Z.of_nat s + 1)) ys /\ length xs = length ys.
Proof. intros K. exact (key_match_range n s g xs ys (ck_gt _ _ _ _ _ K) (ck_match _ _ _ _ _ K)). Qed.
Lemma private_public flag n s g ys xs sk : cs_private_create flag n s g ys xs = Ok sk -> cs_public_create flag n s g ys = Ok (cs_pub sk).
Proof.
  unfold cs_private_create, cs_public_create. intros E. rewrite !get_powers_at in * by lia. cbn [bind] in *. apply bind_ok in E. destruct E as (pre & Epre & E). rewrite Epre. cbn [bind].
  apply bind_ok in E. destruct E as (t & _ & E). apply bind_ok in E. destruct E as (v & Ev & E). rewrite Ev. cbn [bind]. destruct (length ys =? length xs)%nat; [|discriminate]. cbn [negb] in E.
  apply bind_ok in E. destruct E as (w & Ew & E). rewrite Ew. cbn [bind]. injection E as <-. reflexivity.
Qed.

(** Well-formed keys can be constructed, and the private object contains the public one. *)
Theorem C43_keys_constructible : forall flag n s g xs ys, cs_keypair n s g xs ys ->
  exists pk sk, cs_public_create flag n s g ys = Ok pk /\ cs_private_create flag n s g ys xs = Ok sk /\ cs_pub sk = pk.
Proof.
  intros flag n s g xs ys K. destruct (keypair_ranges _ _ _ _ _ K) as (_ & Ry & L).
  destruct (cs_private_ok flag n s (ck_gt _ _ _ _ _ K) (ck_odd _ _ _ _ _ K) g ys xs (keypair_fact _ _ _ _ _ K) (ck_g _ _ _ _ _ K) Ry (eq_sym L)) as (sk & E).
  exists (cs_pub sk), sk. split; [apply (private_public _ _ _ _ _ _ _ E)|]. split; [exact E|reflexivity].
Qed.
Print Assumptions C43_keys_constructible.
Example C43_keys_ex : cs_keypair 77 2 ex_g ex_xs ex_ys. Proof. exact ex_keypair. Qed.

(** Decryption inverts encryption: for every s, vector length, messages (missing ones count as zero, all are taken mod n^s) and randomness. *)
Theorem C43_decrypt_inverts_encrypt : forall flag n s g xs ys sk ms r, cs_keypair n s g xs ys -> cs_private_create flag n s g ys xs = Ok sk ->
  (length ms <= length ys)%nat -> 0 <= r -> r = 0 \/ Z.gcd r n = 1 ->
  exists c, cs_encrypt_with_rand flag (cs_pub sk) ms r = Ok c /\ cs_decrypt sk c = Ok (padded n s (length ys) ms).
Proof.
  intros flag n s g xs ys sk ms r K E Hl Hr Hc. destruct (keypair_ranges _ _ _ _ _ K) as (Rx & Ry & L).
  destruct (cs_private_inv flag n s (ck_gt _ _ _ _ _ K) (ck_odd _ _ _ _ _ K) g ys xs sk (ck_g _ _ _ _ _ K) Ry E) as (V & Eg & Ey & Ex).
  assert (Gu : Z.gcd (cs_g (cs_pub sk)) n = 1) by (rewrite Eg; apply (ck_unit _ _ _ _ _ K)).
  assert (Hm : key_match n s (cs_g (cs_pub sk)) xs (cs_ys (cs_pub sk))) by (rewrite Eg, Ey; apply (ck_match _ _ _ _ _ K)).
  destruct (cs_encrypt_with_rand_ok flag n s (cs_pub sk) (x_pub _ _ _ V) Gu xs ms r Hm) as ([u es] & Ec & _ & _ & O1); [unfold cs_len; rewrite Ey; exact Hl|exact Hr|exact Hc|].
  exists {| ct_u := u; ct_es := es |}. split; [exact Ec|]. cbn [ct_u ct_es] in O1. unfold cs_len in O1. rewrite Ey in O1. rewrite <- Ex in O1.
  assert (HP : 0 < n ^ Z.of_nat s) by (apply Z.pow_pos_nonneg; [pose proof (ck_gt _ _ _ _ _ K)|]; lia).
  assert (F : Forall (fun m => 0 <= m) (padded n s (length ys) ms)).
  { unfold padded. apply Forall_forall. intros m Hin. apply in_map_iff in Hin. destruct Hin as (m0 & <- & _). apply Z.mod_pos_bound. exact HP. }
  rewrite (cs_decrypt_open n s sk V u es (padded n s (length ys) ms)); [|rewrite Ex; exact Rx|exact F|exact O1].
  f_equal. unfold padded. rewrite map_map. apply map_ext. intros m. apply Z.mod_mod. lia.
Qed.
Print Assumptions C43_decrypt_inverts_encrypt.
Example C43_decrypt_ex : match cs_private_create true 77 2 ex_g ex_ys ex_xs with
  | Ok sk => match cs_encrypt_with_rand true (cs_pub sk) [5; -1] 13 with Ok c => cs_decrypt sk c = Ok [5; 5928; 0] | _ => False end | _ => False end.
Proof. vm_compute. reflexivity. Qed.

(** Encryption with fresh randomness: what it returns decrypts to the messages, and the reported randomness reproduces the ciphertext. *)
Theorem C43_random_encryption : forall flag n s g xs ys sk ms raws c r, cs_keypair n s g xs ys -> cs_private_create flag n s g ys xs = Ok sk ->
  cs_encrypt_and_get_rand flag (cs_pub sk) ms raws = Ok (c, r) ->
  cs_decrypt sk c = Ok (padded n s (length ys) ms) /\ cs_encrypt flag (cs_pub sk) ms raws = Ok c /\
  0 <= r < n /\ Z.gcd r n = 1 /\ cs_encrypt_with_rand flag (cs_pub sk) ms r = Ok c.
Proof.
  intros flag n s g xs ys sk ms raws c r K E Er. destruct (keypair_ranges _ _ _ _ _ K) as (Rx & Ry & L).
  destruct (cs_private_inv flag n s (ck_gt _ _ _ _ _ K) (ck_odd _ _ _ _ _ K) g ys xs sk (ck_g _ _ _ _ _ K) Ry E) as (V & Eg & Ey & Ex).
  assert (Hm : key_match n s (cs_g (cs_pub sk)) xs (cs_ys (cs_pub sk))) by (rewrite Eg, Ey; apply (ck_match _ _ _ _ _ K)).
  destruct (cs_encrypt_get_inv flag n s (cs_pub sk) (x_pub _ _ _ V) xs ms raws c r Hm Er) as (B & G & Hl & Fm & Ec). unfold cs_len in Hl. rewrite Ey in Hl.
  destruct (C43_decrypt_inverts_encrypt flag n s g xs ys sk ms r K E Hl (proj1 B) (or_intror G)) as (c' & Ec' & D). rewrite Ec in Ec'. injection Ec' as <-.
  split; [exact D|]. split; [unfold cs_encrypt; rewrite Er; reflexivity|]. tauto.
Qed.
Print Assumptions C43_random_encryption.
Example C43_random_ex : match cs_private_create false 77 2 ex_g ex_ys ex_xs with
  | Ok sk => match cs_encrypt_and_get_rand false (cs_pub sk) [5; 6; 7] [7; 11; 1000] with Ok (c, r) => r = 76 /\ cs_decrypt sk c = Ok [5; 6; 7] | _ => False end | _ => False end.
Proof. vm_compute. split; reflexivity. Qed.

(** It succeeds for every vector of non-negative messages that fits, as soon as the random source yields a unit ... *)
Theorem C43_encryption_available : forall flag n s g xs ys sk ms raws, cs_keypair n s g xs ys -> cs_private_create flag n s g ys xs = Ok sk ->
  (length ms <= length ys)%nat -> Forall (fun m => 0 <= m) ms -> (exists i, In i raws /\ Z.gcd (i mod n) n = 1) ->
  exists c r, cs_encrypt_and_get_rand flag (cs_pub sk) ms raws = Ok (c, r).
Proof.
  intros flag n s g xs ys sk ms raws K E Hl Fm Hd. destruct (keypair_ranges _ _ _ _ _ K) as (Rx & Ry & L).
  destruct (cs_private_inv flag n s (ck_gt _ _ _ _ _ K) (ck_odd _ _ _ _ _ K) g ys xs sk (ck_g _ _ _ _ _ K) Ry E) as (V & Eg & Ey & Ex).
  assert (Gu : Z.gcd (cs_g (cs_pub sk)) n = 1) by (rewrite Eg; apply (ck_unit _ _ _ _ _ K)).
  apply (cs_encrypt_get_ok flag n s (cs_pub sk) (x_pub _ _ _ V) Gu xs ms raws); [rewrite Eg, Ey; apply (ck_match _ _ _ _ _ K)|unfold cs_len; rewrite Ey; exact Hl|exact Fm|exact Hd].
Qed.
Print Assumptions C43_encryption_available.
(** ... and bad requests are refused. *)
Theorem C43_encryption_rejects : forall flag n s g xs ys sk ms r raws, cs_keypair n s g xs ys -> cs_private_create flag n s g ys xs = Ok sk ->
  ((length ys < length ms)%nat \/ r < 0 \/ (r <> 0 /\ Z.gcd r n <> 1) -> cs_encrypt_with_rand flag (cs_pub sk) ms r = Err InvalidArgument) /\
  (~ Forall (fun m => 0 <= m) ms -> cs_encrypt_and_get_rand flag (cs_pub sk) ms raws = Err InvalidArgument).
Proof.
  intros flag n s g xs ys sk ms r raws K E. destruct (keypair_ranges _ _ _ _ _ K) as (Rx & Ry & L).
  destruct (cs_private_inv flag n s (ck_gt _ _ _ _ _ K) (ck_odd _ _ _ _ _ K) g ys xs sk (ck_g _ _ _ _ _ K) Ry E) as (V & Eg & Ey & Ex). split.
  - intros H. apply (cs_encrypt_with_rand_rejects flag n s (cs_pub sk) (x_pub _ _ _ V)). unfold cs_len. rewrite Ey. exact H.
  - intros H. unfold cs_encrypt_and_get_rand. destruct (forallb is_non_negative ms) eqn:F; [|reflexivity]. exfalso. apply H. rewrite forallb_forall in F. apply Forall_forall. intros m Hm.
    specialize (F m Hm). unfold is_non_negative in F. destruct (Z.ltb_spec m 0); [discriminate|lia].
Qed.
Print Assumptions C43_encryption_rejects.
Example C43_rejects_ex : match cs_private_create false 77 2 ex_g ex_ys ex_xs with
  | Ok sk => cs_encrypt_with_rand false (cs_pub sk) [1; 2; 3; 4] 13 = Err InvalidArgument /\ cs_encrypt_with_rand false (cs_pub sk) [1] 14 = Err InvalidArgument /\
             cs_encrypt_and_get_rand false (cs_pub sk) [1; -1] [13] = Err InvalidArgument | _ => False end.
Proof. vm_compute. repeat split. Qed.

(** Key generation produces such keys: for every random source, from any odd modulus without factors up to s. *)
Theorem C43_generated_keys : forall raws draws n s k, Z.odd n = true -> 1 < n -> (forall i, 1 <= i <= Z.of_nat s -> Z.gcd i n = 1) ->
  cs_generate_key_base raws draws n s = Ok k ->
  key_n k = n /\ key_s k = s /\ length (key_xs k) = length draws /\ cs_keypair n s (key_g k) (key_xs k) (key_ys k) /\
  Forall (fun x => 0 <= x < n /\ Z.gcd x n = 1) (key_xs k) /\ (exists y, (n ^ (Z.of_nat s + 1) | key_g k - y ^ (2 * n ^ Z.of_nat s))).
Proof.
  intros raws draws n s k Ho Hn Hs E. destruct (cs_generate_inv raws draws n s k Hn E) as (E1 & E2 & L & R & G & Km & Fx & Hy).
  split; [exact E1|]. split; [exact E2|]. split; [exact L|]. split; [constructor; assumption|]. split; [exact Fx|exact Hy].
Qed.
Print Assumptions C43_generated_keys.
Example C43_generated_ex : match cs_generate_key_base [2] [[3]; [4]; [7; 86]] 77 2 with Ok k => (key_g k, key_xs k, key_ys k) = (ex_g, ex_xs, ex_ys) | _ => False end.
Proof. vm_compute. reflexivity. Qed.

Lemma draw_distinct_inv p rest q : draw_distinct p rest = Ok q -> In q rest /\ q <> p.
Proof.
  induction rest as [|x rest IH]; cbn [draw_distinct]; intros E; [discriminate|]. destruct (Z.eqb_spec x p) as [->|Hx].
  - destruct (IH E) as [A B]. split; [right; exact A|exact B].
  - injection E as <-. split; [left; reflexivity|exact Hx].
Qed.
(** The modulus of a freshly generated key is the product of two different primes, and the whole key is well formed. *)
Theorem C43_generated_from_primes : forall primes raws draws bits s p q k, (forall x, In x (primes (Z.quot bits 2)) -> safe_prime x /\ Z.of_nat s < x) ->
  cs_generate_key primes raws draws bits s = Ok (p, q, k) ->
  p <> q /\ key_n k = p * q /\ key_s k = s /\ length (key_xs k) = length draws /\ cs_keypair (p * q) s (key_g k) (key_xs k) (key_ys k).
Proof.
  intros primes raws draws bits s p q k Hp E. unfold cs_generate_key in E. destruct (primes (Z.quot bits 2)) as [|p0 rest]; [discriminate|].
  apply bind_ok in E. destruct E as (q0 & Eq & E). apply draw_distinct_inv in Eq. destruct Eq as [Hin Hne]. apply bind_ok in E. destruct E as (k0 & Ek & E). injection E as <- <- <-.
  destruct (Hp p0 (or_introl eq_refl)) as [S1 L1], (Hp q0 (or_intror Hin)) as [S2 L2]. destruct (safe_prime_facts p0 S1) as (P1 & G1 & O1), (safe_prime_facts q0 S2) as (P2 & G2 & O2).
  destruct (C43_generated_keys raws draws (p0 * q0) s k0) as (A & B & C & D & _ & _).
  - rewrite Z.odd_mul, O1, O2. reflexivity.
  - apply Z.lt_1_mul_pos; lia.
  - intros i Hi. rewrite Z.gcd_comm. apply gcd_mul_l; rewrite Z.gcd_comm.
    + pose proof (prime_fact_coprime p0 s P1 L1 (Z.to_nat i) ltac:(lia)) as H. rewrite Z2Nat.id in H by lia. exact H.
    + pose proof (prime_fact_coprime q0 s P2 L2 (Z.to_nat i) ltac:(lia)) as H. rewrite Z2Nat.id in H by lia. exact H.
  - exact Ek.
  - split; [intros H; apply Hne; symmetry; exact H|]. tauto.
Qed.
Print Assumptions C43_generated_from_primes.
Example C43_primes_ex : match cs_generate_key (fun _ => [7; 7; 11]) [2] [[3]; [4]; [9]] 8 2 with Ok (p, q, k) => (p, q, key_ys k) = (7, 11, ex_ys) | _ => False end.
Proof. vm_compute. reflexivity. Qed.

(** C44: every expression over ciphertexts decrypts to the same expression over the messages, component by component. *)
Theorem C44_homomorphism : forall flag n s g xs ys sk env vals e, cs_keypair n s g xs ys -> (1 <= s)%nat -> cs_private_create flag n s g ys xs = Ok sk ->
  (forall i, cs_decrypt sk (env i) = Ok (vals i)) -> cexpr_scalars_ok e ->
  exists c, cs_eval (cs_pub sk) env e = Ok c /\
    cs_decrypt sk c = Ok (map (fun j => cexpr_value (fun i => nth j (vals i) 0) e mod n ^ Z.of_nat s) (seq 0 (length ys))).
Proof.
  intros flag n s g xs ys sk env vals e K Hs E Hd He. destruct (keypair_ranges _ _ _ _ _ K) as (Rx & Ry & L).
  destruct (cs_private_inv flag n s (ck_gt _ _ _ _ _ K) (ck_odd _ _ _ _ _ K) g ys xs sk (ck_g _ _ _ _ _ K) Ry E) as (V & Eg & Ey & Ex).
  assert (Rx' : Forall (fun x => 0 <= x) (cs_xs sk)) by (rewrite Ex; exact Rx).
  assert (Ho : forall i, cs_opens_all n s (ct_u (env i)) (cs_xs sk) (ct_es (env i)) (vals i) /\ Forall (fun m => 0 <= m) (vals i)).
  { intros i. destruct (cs_decrypt_total n s sk V (env i) Hs Rx') as [(ms & Em & B & O1)|[Em _]]; [|rewrite Hd in Em; discriminate].
    rewrite Hd in Em. injection Em as <-. split; [exact O1|]. apply (Forall_impl _ (P := fun m => 0 <= m < n ^ Z.of_nat s)); [|exact B]. cbn beta. intros; lia. }
  destruct (cs_eval_ok n s sk (cs_pub sk) V (x_pub _ _ _ V) eq_refl Rx' env vals e Ho He) as ([u es] & Ec & O1 & F). cbn [ct_u ct_es] in O1.
  exists {| ct_u := u; ct_es := es |}. split; [exact Ec|]. rewrite (cs_decrypt_open n s sk V u es (cexpr_values vals e) Rx' F O1). f_equal.
  assert (Lv : forall i, length (vals i) = length ys).
  { intros i. destruct (Ho i) as [O2 _]. destruct (opens_all_length _ _ _ _ _ _ O2) as [A B]. rewrite B, <- A, Ex. exact L. }
  destruct (cexpr_values_spec vals (length ys) e Lv) as [Lc Vc]. rewrite (list_seq_nth (cexpr_values vals e)), map_map, Lc. apply map_ext. intros j. rewrite Vc. reflexivity.
Qed.
Print Assumptions C44_homomorphism.
Example C44_ex : match cs_private_create false 77 2 ex_g ex_ys ex_xs with
  | Ok sk => match cs_encrypt_with_rand false (cs_pub sk) [5; 6000] 13, cs_encrypt_with_rand false (cs_pub sk) [5928; 1; 2] 20 with
     | Ok c1, Ok c2 => match cs_eval (cs_pub sk) (fun i => match i with O => c1 | _ => c2 end) (CAdd (CMul (CLeaf 0) 3) (CLeaf 1)) with
         | Ok c => cs_decrypt sk c = Ok [14; 214; 2] | _ => False end | _, _ => False end | _ => False end.
Proof. vm_compute. reflexivity. Qed.

(** C45: decryption of an arbitrary ciphertext. It never aborts; it returns the vector in [0, n^s) that the ciphertext opens to when there
    is one (then it is unique), and INVALID_ARGUMENT exactly when there is none. *)
Theorem C45_decrypt_sound : forall flag n s g xs ys sk c, cs_keypair n s g xs ys -> (1 <= s)%nat -> cs_private_create flag n s g ys xs = Ok sk ->
  (exists ms, cs_decrypt sk c = Ok ms /\ Forall (fun m => 0 <= m < n ^ Z.of_nat s) ms /\ cs_opens_all n s (ct_u c) xs (ct_es c) ms /\
     forall ms', Forall (fun m => 0 <= m < n ^ Z.of_nat s) ms' -> cs_opens_all n s (ct_u c) xs (ct_es c) ms' -> ms' = ms) \/
  (cs_decrypt sk c = Err InvalidArgument /\ forall ms, Forall (fun m => 0 <= m) ms -> ~ cs_opens_all n s (ct_u c) xs (ct_es c) ms).
Proof.
  intros flag n s g xs ys sk c K Hs E. destruct (keypair_ranges _ _ _ _ _ K) as (Rx & Ry & L).
  destruct (cs_private_inv flag n s (ck_gt _ _ _ _ _ K) (ck_odd _ _ _ _ _ K) g ys xs sk (ck_g _ _ _ _ _ K) Ry E) as (V & Eg & Ey & Ex).
  assert (Rx' : Forall (fun x => 0 <= x) (cs_xs sk)) by (rewrite Ex; exact Rx).
  destruct (cs_decrypt_total n s sk V c Hs Rx') as [(ms & Em & B & O1)|[Em No]]; rewrite Ex in *.
  - left. exists ms. split; [exact Em|]. split; [exact B|]. split; [exact O1|]. intros ms' B' O2. apply (opens_all_unique n s sk V (ct_u c) xs (ct_es c)); assumption.
  - right. split; [exact Em|exact No].
Qed.
Print Assumptions C45_decrypt_sound.
Example C45_ex : match cs_private_create false 77 2 ex_g ex_ys ex_xs with
  | Ok sk => cs_decrypt sk {| ct_u := 2; ct_es := [8 * 78; 16; 512] |} = Ok [1; 0; 0] /\ cs_decrypt sk {| ct_u := 2; ct_es := [9; 16; 512] |} = Err InvalidArgument /\
             cs_decrypt sk {| ct_u := 0; ct_es := [8; 16; 512] |} = Err InvalidArgument /\ cs_decrypt sk {| ct_u := 2; ct_es := [8; 16] |} = Err InvalidArgument | _ => False end.
Proof. vm_compute. repeat split. Qed.

(** C46: keys. *)
Theorem C46_public_key_roundtrip : forall n s g ys, 1 < n -> 1 <= Z.of_nat s < 2 ^ 64 - 1 -> ys <> [] ->
  0 < g < n ^ (Z.of_nat s + 1) /\ Z.gcd g n = 1 -> Forall (fun y => 0 < y < n ^ (Z.of_nat s + 1) /\ Z.gcd y n = 1) ys ->
  exists p, cs_public_to_proto n g ys s = Ok p /\ cs_parse_public p = Ok (n, s, g, ys).
Proof.
  intros n s g ys Hn Hs Hne Hg Hys. unfold cs_public_to_proto. destruct (to_bytes_of n ltac:(lia)) as (nb & En & Vn). destruct (to_bytes_of g ltac:(lia)) as (gb & Eg & Vg).
  destruct (mapM_to_bytes ys) as (yb & Ey & Vy). { apply (Forall_impl _ (P := fun y => 0 < y < n ^ (Z.of_nat s + 1) /\ Z.gcd y n = 1)); [|exact Hys]. cbn beta. intros; lia. }
  rewrite En, Eg. cbn [bind]. unfold bignum_vector_to_proto. rewrite Ey. cbn [bind]. eexists. split; [reflexivity|]. unfold cs_parse_public. cbn [pp_n pp_s pp_g pp_ys]. rewrite Vn, Vg.
  destruct (Z.leb_spec n 0); [lia|]. destruct (Z.eqb_spec (Z.of_nat s) 0); [lia|]. rewrite (Z.mod_small (Z.of_nat s + 1)) by lia. unfold bn_exp. rewrite Z.abs_eq by lia.
  rewrite (proj2 (in_group_spec n _ g) Hg). cbn [negb]. unfold parse_bignum_vector. rewrite Vy. destruct ys as [|y ys]; [contradiction|].
  assert (F : forallb (in_group n (n ^ (Z.of_nat s + 1))) (y :: ys) = true). { apply forallb_forall. intros z Hz. apply in_group_spec. rewrite Forall_forall in Hys. apply Hys, Hz. }
  rewrite F, Nat2Z.id. reflexivity.
Qed.
Print Assumptions C46_public_key_roundtrip.
Example C46_public_ex : match cs_public_to_proto 77 ex_g ex_ys 2 with Ok p => cs_parse_public p = Ok (77, 2%nat, ex_g, ex_ys) | _ => False end.
Proof. vm_compute. reflexivity. Qed.

(** Whatever the proto contains: parsing either yields values that are all in the group, or says INVALID_ARGUMENT; it never aborts. *)
Theorem C46_public_key_validated : forall p, 0 <= pp_s p < 2 ^ 64 ->
  cs_parse_public p = Err InvalidArgument \/
  exists n s g ys, cs_parse_public p = Ok (n, s, g, ys) /\ n = of_bytes (pp_n p) /\ Z.of_nat s = pp_s p /\ g = of_bytes (pp_g p) /\ ys = map of_bytes (pp_ys p) /\
    1 < n /\ (1 <= s)%nat /\ ys <> [] /\ 0 < g < n ^ (Z.of_nat s + 1) /\ Z.gcd g n = 1 /\ Forall (fun y => 0 < y < n ^ (Z.of_nat s + 1) /\ Z.gcd y n = 1) ys.
Proof.
  intros p Hs. unfold cs_parse_public. destruct (Z.leb_spec (of_bytes (pp_n p)) 0) as [|Hn]; [left; reflexivity|]. destruct (Z.eqb_spec (pp_s p) 0) as [|Hs0]; [left; reflexivity|].
  set (n := of_bytes (pp_n p)) in *. destruct (Z.eq_dec (pp_s p) (2 ^ 64 - 1)) as [Hmax|Hmax].
  - left. rewrite Hmax. replace (2 ^ 64 - 1 + 1) with (1 * 2 ^ 64) by lia. rewrite Z.mod_mul by lia. unfold bn_exp. change (n ^ Z.abs 0) with 1.
    destruct (in_group n 1 (of_bytes (pp_g p))) eqn:G; [|reflexivity]. apply in_group_spec in G. lia.
  - rewrite (Z.mod_small (pp_s p + 1)) by lia. unfold bn_exp. rewrite Z.abs_eq by lia.
    destruct (in_group n (n ^ (pp_s p + 1)) (of_bytes (pp_g p))) eqn:G; [|left; reflexivity]. cbn [negb]. apply in_group_spec in G. unfold parse_bignum_vector.
    destruct (map of_bytes (pp_ys p)) as [|y ys] eqn:Ey; [left; reflexivity|]. destruct (forallb (in_group n (n ^ (pp_s p + 1))) (y :: ys)) eqn:F; [|left; reflexivity]. right.
    exists n, (Z.to_nat (pp_s p)), (of_bytes (pp_g p)), (y :: ys). rewrite Z2Nat.id by lia. split; [reflexivity|]. repeat (split; [reflexivity|]).
    split. { destruct (Z.eq_dec n 1) as [E1|]; [|lia]. rewrite E1, Z.pow_1_l in G by lia. lia. }
    split; [lia|]. split; [discriminate|]. split; [apply G|]. split; [apply G|]. rewrite forallb_forall in F. apply Forall_forall. intros z Hz. apply in_group_spec. apply F, Hz.
Qed.
Print Assumptions C46_public_key_validated.
Example C46_validated_ex : match cs_public_to_proto 77 ex_g (ex_ys ++ [7]) 2 with Ok p => cs_parse_public p = Err InvalidArgument | _ => False end.
Proof. vm_compute. reflexivity. Qed.

Theorem C46_private_key_roundtrip : forall xs, Forall (fun x => 0 <= x) xs -> exists p, cs_private_to_proto xs = Ok p /\ cs_parse_private p = Ok xs.
Proof.
  intros xs H. destruct (mapM_to_bytes xs H) as (b & E & V). exists b. split; [exact E|]. unfold cs_parse_private, parse_bignum_vector. rewrite V. reflexivity.
Qed.
Print Assumptions C46_private_key_roundtrip.

(** A key written to protos and read back gives working objects (the premise on the values is what key generation guarantees except for
    the zero-probability case y = 0, impossible here because y is a unit). *)
Theorem C46_key_reload : forall flag n s g xs ys sk, cs_keypair n s g xs ys -> 1 <= Z.of_nat s < 2 ^ 64 - 1 -> ys <> [] -> cs_private_create flag n s g ys xs = Ok sk ->
  exists p x, cs_public_to_proto n g ys s = Ok p /\ cs_private_to_proto xs = Ok x /\ cs_public_from_proto flag p = Ok (cs_pub sk) /\ cs_private_from_proto flag p x = Ok sk.
Proof.
  intros flag n s g xs ys sk K Hs Hne E. destruct (keypair_ranges _ _ _ _ _ K) as (Rx & Ry & L). pose proof (ck_gt _ _ _ _ _ K) as Hn. pose proof (ck_unit _ _ _ _ _ K) as Gg.
  assert (pos : forall z, 0 <= z < n ^ (Z.of_nat s + 1) -> Z.gcd z n = 1 -> 0 < z). { intros z Hz G. destruct (Z.eq_dec z 0) as [->|]; [rewrite Z.gcd_0_l in G|]; lia. }
  assert (nM : (n | n ^ (Z.of_nat s + 1))). { exists (n ^ Z.of_nat s). rewrite Z.pow_add_r, Z.pow_1_r by lia. ring. }
  assert (Gy : Forall (fun y => 0 < y < n ^ (Z.of_nat s + 1) /\ Z.gcd y n = 1) ys).
  { pose proof (ck_match _ _ _ _ _ K) as Hm. clear -Hm Gg Ry pos nM. induction Hm as [|x y xs ys [Hx Ey] Hm IH]; constructor.
    - apply Forall_cons_iff in Ry. destruct Ry as [Ry _].
      assert (G : Z.gcd y n = 1). { subst y. apply (gcd_eqmod _ (g ^ x)); [apply (eqmod_divide n _ _ _ nM (eqmod_mod _ _))|]. apply gcd_pow_l; assumption. }
      split; [split; [apply pos; assumption|apply Ry]|exact G].
    - apply Forall_cons_iff in Ry. apply IH, Ry. }
  destruct (C46_public_key_roundtrip n s g ys Hn Hs Hne) as (p & Ep & Pp). { split; [split; [apply pos; [apply (ck_g _ _ _ _ _ K)|exact Gg]|apply (ck_g _ _ _ _ _ K)]|exact Gg]. } { exact Gy. }
  destruct (C46_private_key_roundtrip xs Rx) as (x & Exx & Px). exists p, x. split; [exact Ep|]. split; [exact Exx|]. unfold cs_public_from_proto, cs_private_from_proto. rewrite Pp, Px. cbn [bind].
  split; [apply (private_public _ _ _ _ _ _ _ E)|exact E].
Qed.
Print Assumptions C46_key_reload.
Example C46_reload_ex : match cs_public_to_proto 77 ex_g ex_ys 2, cs_private_to_proto ex_xs with
  | Ok p, Ok x => match cs_private_from_proto true p x with Ok sk => cs_xs sk = ex_xs /\ cs_ys (cs_pub sk) = ex_ys | _ => False end | _, _ => False end.
Proof. vm_compute. split; reflexivity. Qed.

(** C46: ciphertexts. Every ciphertext with components in [0, n^(s+1)) and at most as many components as the key survives the trip ... *)
Theorem C46_ciphertext_roundtrip : forall flag n s g ys pk c, cs_public_create flag n s g ys = Ok pk -> 0 <= ct_u c < n ^ (Z.of_nat s + 1) ->
  Forall (fun e => 0 <= e < n ^ (Z.of_nat s + 1)) (ct_es c) -> (length (ct_es c) <= length ys)%nat ->
  exists p, cs_ct_to_proto c = Ok p /\ cs_parse_ct pk p = Ok c.
Proof.
  intros flag n s g ys pk [u es] E Hu He Hl. cbn [ct_u ct_es] in *. unfold cs_public_create in E. rewrite !get_powers_at in E by lia. cbn [bind] in E.
  apply bind_ok in E. destruct E as (pre & _ & E). apply bind_ok in E. destruct E as (v & _ & E). apply bind_ok in E. destruct E as (w & _ & E). injection E as <-.
  unfold cs_ct_to_proto. cbn [ct_u ct_es]. destruct (to_bytes_of u ltac:(lia)) as (ub & Eu & Vu). rewrite Eu. cbn [bind].
  destruct (mapM_to_bytes es) as (eb & Ee & Ve). { apply (Forall_impl _ (P := fun e => 0 <= e < n ^ (Z.of_nat s + 1))); [|exact He]. cbn beta. intros; lia. }
  unfold bignum_vector_to_proto. rewrite Ee. cbn [bind]. eexists. split; [reflexivity|]. unfold cs_parse_ct, parse_bignum_vector. cbn [cp_u cp_es cs_modulus]. rewrite Vu, Ve. unfold cs_len. cbn [cs_ys].
  replace (Z.of_nat (s + 1)) with (Z.of_nat s + 1) by lia. unfold is_non_negative. destruct (Z.leb_spec (n ^ (Z.of_nat s + 1)) u); [lia|]. destruct (Z.ltb_spec u 0); [lia|]. cbn [negb orb].
  destruct (Nat.ltb_spec (length ys) (length es)); [lia|].
  destruct (existsb _ es) eqn:X; [|reflexivity]. exfalso. apply existsb_exists in X. destruct X as (e & Hin & X). rewrite Forall_forall in He. specialize (He e Hin).
  destruct (Z.leb_spec (n ^ (Z.of_nat s + 1)) e); [lia|]. destruct (Z.ltb_spec e 0); [lia|]. discriminate.
Qed.
Print Assumptions C46_ciphertext_roundtrip.
(** ... and parsing accepts nothing else. *)
Theorem C46_ciphertext_validated : forall flag n s g ys pk p, cs_public_create flag n s g ys = Ok pk ->
  cs_parse_ct pk p = Err InvalidArgument \/
  exists c, cs_parse_ct pk p = Ok c /\ ct_u c = of_bytes (cp_u p) /\ ct_es c = map of_bytes (cp_es p) /\ 0 <= ct_u c < n ^ (Z.of_nat s + 1) /\
    Forall (fun e => 0 <= e < n ^ (Z.of_nat s + 1)) (ct_es c) /\ (length (ct_es c) <= length ys)%nat.
Proof.
  intros flag n s g ys pk p E. unfold cs_public_create in E. rewrite !get_powers_at in E by lia. cbn [bind] in E.
  apply bind_ok in E. destruct E as (pre & _ & E). apply bind_ok in E. destruct E as (v & _ & E). apply bind_ok in E. destruct E as (w & _ & E). injection E as <-.
  unfold cs_parse_ct, parse_bignum_vector, is_non_negative. cbn [cs_modulus]. unfold cs_len. cbn [cs_ys]. replace (Z.of_nat (s + 1)) with (Z.of_nat s + 1) by lia.
  destruct (Z.leb_spec (n ^ (Z.of_nat s + 1)) (of_bytes (cp_u p))) as [|H1]; [left; reflexivity|]. pose proof (of_bytes_nonneg (cp_u p)) as H2. destruct (Z.ltb_spec (of_bytes (cp_u p)) 0); [lia|]. cbn [negb orb].
  destruct (Nat.ltb_spec (length ys) (length (map of_bytes (cp_es p)))) as [|H3]; [left; reflexivity|].
  destruct (existsb _ (map of_bytes (cp_es p))) eqn:X; [left; reflexivity|]. right. eexists. split; [reflexivity|]. cbn [ct_u ct_es]. split; [reflexivity|]. split; [reflexivity|]. split; [lia|]. split; [|exact H3].
  apply Forall_forall. intros e Hin. destruct (Z.le_gt_cases (n ^ (Z.of_nat s + 1)) e) as [H4|H4].
  - exfalso. assert (Y : existsb (fun e => (n ^ (Z.of_nat s + 1) <=? e) || negb (negb (e <? 0))) (map of_bytes (cp_es p)) = true).
    { apply existsb_exists. exists e. split; [exact Hin|]. destruct (Z.leb_spec (n ^ (Z.of_nat s + 1)) e); [reflexivity|lia]. }
    rewrite Y in X. discriminate.
  - apply in_map_iff in Hin. destruct Hin as (b & <- & _). pose proof (of_bytes_nonneg b). lia.
Qed.
Print Assumptions C46_ciphertext_validated.
Example C46_ciphertext_ex : match cs_public_create true 77 2 ex_g ex_ys, cs_ct_to_proto {| ct_u := 2; ct_es := [456532; 0; 7] |}, cs_ct_to_proto {| ct_u := 2; ct_es := [456533; 0; 7] |} with
  | Ok pk, Ok p, Ok q => cs_parse_ct pk p = Ok {| ct_u := 2; ct_es := [456532; 0; 7] |} /\ cs_parse_ct pk q = Err InvalidArgument | _, _, _ => False end.
Proof. vm_compute. split; reflexivity. Qed.

(** Limits of that validation. A ciphertext with too few components is accepted, and then Multiply reads past the end of the vector and
    Add aborts (both only document a size precondition); and a key whose modulus shares a factor with s! passes the group checks, after
    which the object's constructor aborts instead of returning an error. *)
Theorem C46_short_ciphertext_accepted : exists pk p c, cs_public_create false 77 2 ex_g ex_ys = Ok pk /\ cs_parse_ct pk p = Ok c /\ (length (ct_es c) < cs_len pk)%nat /\
  cs_multiply pk c 2 = UB /\ cs_add pk c c = Crash.
Proof.
  destruct (cs_public_create false 77 2 ex_g ex_ys) as [pk| | | |] eqn:E; try (vm_compute in E; discriminate).
  destruct (cs_ct_to_proto {| ct_u := 2; ct_es := [3] |}) as [p| | | |] eqn:Ep; try (vm_compute in Ep; discriminate).
  exists pk, p, {| ct_u := 2; ct_es := [3] |}. vm_compute in E. injection E as <-. vm_compute in Ep. injection Ep as <-.
  split; [reflexivity|]. split; [vm_compute; reflexivity|]. split; [cbn; lia|]. split; vm_compute; reflexivity.
Qed.
Print Assumptions C46_short_ciphertext_accepted.
Theorem C46_hostile_key_aborts : exists p, cs_parse_public p = Ok (15, 3%nat, 2, [4]) /\ forall flag, cs_public_from_proto flag p = Crash.
Proof.
  destruct (cs_public_to_proto 15 2 [4] 3) as [p| | | |] eqn:E; try (vm_compute in E; discriminate). exists p. vm_compute in E. injection E as <-. split; [vm_compute; reflexivity|]. intros []; vm_compute; reflexivity.
Qed.
Print Assumptions C46_hostile_key_aborts.
