(** Theorems about ElGamal (C35-C37) and the serialization of its keys and ciphertexts (C52). *)
From Coq Require Import Permutation.
From Verif Require Import Base M_BigNum L_BigNum L_Mod L_DJ M_EC L_EC L_Toy M_ElGamal S_ElGamal L_ElGamal M_Group M_Cipher S_Cipher L_Cipher P_Group P_Cipher.

(** ** C35. For a generated key pair every expression decrypts to the plaintext it stands for. *)
Theorem C35_expressions_decrypt : forall C raw (e : expr C), ec_laws C ->
  let (pk, x) := eg_generate C raw in eg_decrypt C x (run pk e) = plain e.
Proof.
  intros C raw e L. unfold eg_generate. cbv zeta. apply (decrypt_encrypts C L). rewrite (point_mul_eq C L). apply (encrypts_run C L).
Qed.
Print Assumptions C35_expressions_decrypt.
(** The same for any key pair whose halves match, whatever the generator. *)
Theorem C35_matching_keys : forall C g x (e : expr C), ec_laws C -> eg_decrypt C x (run {| eg_g := g; eg_y := pmul C x g |} e) = plain e.
Proof. intros C g x e L. apply (decrypt_encrypts C L), (encrypts_run C L). Qed.
Print Assumptions C35_matching_keys.
Example C35_ex : let (pk, x) := eg_generate toy 41 in
  let e := ERand (EMul (EExp (EEnc (pgen toy) 7) 5) (EMul EZero (EEnc (pmul toy 3 (pgen toy)) 60))) 33 in
  peqb toy (eg_decrypt toy x (run pk e)) (pmul toy 8 (pgen toy)) = true /\ peqb toy (eg_e toy (run pk e)) (pmul toy 8 (pgen toy)) = false.
Proof. vm_compute. tauto. Qed.

(** Key pairs are valid: the private key is in range and matches the public key, whose parts are finite points. *)
Theorem C35_key_pairs : forall C raw, ec_laws C -> let (pk, x) := eg_generate C raw in
  0 < x < ec_order C /\ eg_y C pk = pmul C x (eg_g C pk) /\ eg_g C pk <> pinf C /\ eg_y C pk <> pinf C.
Proof.
  intros C raw L. unfold eg_generate. cbv zeta. cbn [eg_g eg_y]. rewrite (point_mul_eq C L). pose proof (private_key_range C L raw) as B. split; [exact B|]. split; [reflexivity|]. split; [apply (gen_not_inf C L)|].
  apply (pmul_not_inf C L); [apply (gen_not_inf C L)|rewrite Z.mod_small; lia].
Qed.
Print Assumptions C35_key_pairs.

(** Re-randomization really changes the ciphertext, and a fresh encryption is never the zero ciphertext. *)
Theorem C35_rerandomize_changes : forall C raw raw' c, ec_laws C -> let (pk, x) := eg_generate C raw in
  eg_u C (eg_rerandomize C pk c raw') <> eg_u C c /\ eg_e C (eg_rerandomize C pk c raw') <> eg_e C c.
Proof.
  intros C raw raw' c L. pose proof (C35_key_pairs C raw L) as K. destruct (eg_generate C raw) as [pk x]. destruct K as (_ & _ & Ng & Ny). unfold eg_rerandomize. cbn [eg_u eg_e]. rewrite !(point_mul_eq C L).
  pose proof (private_key_range C L raw') as B. assert (U : generate_private_key C raw' mod ec_order C <> 0) by (rewrite Z.mod_small; lia).
  split; intros E.
  - apply (pmul_not_inf C L _ _ Ng U). apply (add_cancel_l C L (eg_u C c)). rewrite E, (add_inf_r C L). reflexivity.
  - apply (pmul_not_inf C L _ _ Ny U). apply (add_cancel_l C L (eg_e C c)). rewrite E, (add_inf_r C L). reflexivity.
Qed.
Print Assumptions C35_rerandomize_changes.
Theorem C35_zero : forall C c, ec_laws C -> (eg_is_zero C c = true <-> c = eg_zero C) /\ (forall raw raw' m, eg_is_zero C (eg_encrypt C (fst (eg_generate C raw)) m raw') = false) /\ eg_clone C c = c.
Proof.
  intros C c L. unfold eg_is_zero. split; [|split; [|reflexivity]].
  - rewrite andb_true_iff, !(is_inf_true C L). destruct c as [u e]. cbn [eg_u eg_e]. unfold eg_zero. split; [intros [-> ->]; reflexivity|]. intros E. injection E as -> ->. tauto.
  - intros raw raw' m. pose proof (C35_key_pairs C raw L) as K. destruct (eg_generate C raw) as [pk x]. destruct K as (_ & _ & Ng & _). cbn [fst]. unfold eg_encrypt. cbn [eg_u]. rewrite (point_mul_eq C L).
    pose proof (private_key_range C L raw') as B. rewrite (proj2 (is_inf_false C L _)); [reflexivity|]. apply (pmul_not_inf C L); [exact Ng|rewrite Z.mod_small; lia].
Qed.
Print Assumptions C35_zero.

(** On bytes. Keys that do not match are rejected; what an accepted key pair encrypts it decrypts. *)
Theorem C35_keys_accepted : forall C gb yb xb, ec_laws C ->
  (exists g y, point_of_bytes C gb = Ok g /\ point_of_bytes C yb = Ok y /\ y = pmul C (of_bytes xb) g /\
     ceg_from_keys C (gb, yb) xb = Ok {| ceg_pub := {| eg_g := g; eg_y := y |}; ceg_priv := Some (of_bytes xb) |}) \/
  (~ (exists g y, point_of_bytes C gb = Ok g /\ point_of_bytes C yb = Ok y /\ y = pmul C (of_bytes xb) g) /\ ceg_from_keys C (gb, yb) xb = Err InvalidArgument).
Proof.
  intros C gb yb xb L. unfold ceg_from_keys. cbn [fst snd].
  destruct (point_of_bytes_cases C L gb) as [(g & Eg & Ng)|Eg]; rewrite Eg; cbn [bind]; [|right; split; [intros (g' & y' & E & _); congruence|reflexivity]].
  destruct (point_of_bytes_cases C L yb) as [(y & Ey & Ny)|Ey]; rewrite Ey; cbn [bind]; [|right; split; [intros (g' & y' & _ & E & _); congruence|reflexivity]].
  rewrite (point_mul_eq C L). destruct (peqb C y (pmul C (of_bytes xb) g)) eqn:E; cbn [negb].
  - left. exists g, y. apply (peqb_spec C L) in E. tauto.
  - right. split; [|reflexivity]. intros (g' & y' & E1 & E2 & E3). assert (Ey2 : y = pmul C (of_bytes xb) g) by congruence. apply (peqb_spec C L) in Ey2. congruence.
Qed.
Print Assumptions C35_keys_accepted.
Theorem C35_bytes_roundtrip : forall C b xb k s P raw ct, ec_laws C -> ceg_from_keys C b xb = Ok k -> point_of_bytes C s = Ok P ->
  ceg_encrypt C k s raw = Ok ct -> ceg_decrypt C k ct = Ok (ec_enc C P).
Proof.
  intros C [gb yb] xb k s P raw ct L Ek Es E. destruct (C35_keys_accepted C gb yb xb L) as [(g & y & _ & _ & Hy & Ek')|[_ Ek']]; [|congruence]. rewrite Ek in Ek'. injection Ek' as ->. subst y.
  unfold ceg_encrypt in E. rewrite Es in E. cbn [bind ceg_pub] in E. apply (ct_bytes_inv C L) in E. destruct E as (Nu & Ne & ->).
  unfold ceg_decrypt. cbn [ceg_priv fst snd]. rewrite !(point_of_bytes_enc C L) by assumption. cbn [bind].
  replace (eg_decrypt C (of_bytes xb) _) with P; [apply (point_to_bytes_ok C L), (point_of_bytes_not_inf C L _ _ Es)|].
  symmetry. apply (decrypt_encrypts C L). apply (encrypts_enc C L).
Qed.
Print Assumptions C35_bytes_roundtrip.
(** Byte-level encryption succeeds except when the masked plaintext happens to be infinity. *)
Theorem C35_bytes_total : forall C b xb k s P raw, ec_laws C -> ceg_from_keys C b xb = Ok k -> point_of_bytes C s = Ok P ->
  let r := generate_private_key C raw in
  (padd C P (pmul C r (eg_y C (ceg_pub C k))) <> pinf C -> exists ct, ceg_encrypt C k s raw = Ok ct) /\
  (padd C P (pmul C r (eg_y C (ceg_pub C k))) = pinf C -> ceg_encrypt C k s raw = Err Internal).
Proof.
  intros C [gb yb] xb k s P raw L Ek Es r. destruct (C35_keys_accepted C gb yb xb L) as [(g & y & Eg & _ & Hy & Ek')|[_ Ek']]; [|congruence]. rewrite Ek in Ek'. injection Ek' as ->.
  unfold ceg_encrypt. rewrite Es. cbn [bind ceg_pub eg_y]. pose proof (private_key_range C L raw) as B. fold r in B.
  assert (Nu : eg_u C (eg_encrypt C {| eg_g := g; eg_y := y |} P raw) <> pinf C).
  { unfold eg_encrypt. cbn [eg_u eg_g]. rewrite (point_mul_eq C L). apply (pmul_not_inf C L); [apply (point_of_bytes_not_inf C L _ _ Eg)|fold r; rewrite Z.mod_small; lia]. }
  assert (Ee : eg_e C (eg_encrypt C {| eg_g := g; eg_y := y |} P raw) = padd C P (pmul C r y)) by (unfold eg_encrypt; cbn [eg_e eg_y]; rewrite (point_mul_eq C L); reflexivity).
  split; intros H.
  - rewrite (ct_bytes_ok C L) by congruence. eauto.
  - unfold ct_to_bytes. rewrite (point_to_bytes_ok C L _ Nu). cbn [bind]. rewrite Ee, H. unfold point_to_bytes. rewrite (proj2 (is_inf_true C L _) eq_refl). reflexivity.
Qed.
Print Assumptions C35_bytes_total.
Definition demo_ceg : ceg toy := ceg_new toy 41.
Example C35_bytes_ex : match ceg_public_bytes toy demo_ceg, ceg_private_bytes toy demo_ceg with
  | Ok b, Ok xb => match ceg_from_keys toy b xb, ceg_encrypt toy demo_ceg (ec_enc toy (pmul toy 9 (pgen toy))) 5 with
      | Ok k, Ok ct => ceg_decrypt toy k ct = Ok (ec_enc toy (pmul toy 9 (pgen toy))) | _, _ => False end
  | _, _ => False end.
Proof. vm_compute. reflexivity. Qed.
(** Without the private key nothing is decrypted. *)
Theorem C35_public_only : forall C b k ct, ceg_from_public C b = Ok k -> ceg_decrypt C k ct = Err InvalidArgument /\ ceg_private_bytes C k = Err InvalidArgument.
Proof.
  intros C b k ct E. unfold ceg_from_public in E. apply bind_ok in E. destruct E as (g & _ & E). apply bind_ok in E. destruct E as (y & _ & E). injection E as <-. split; reflexivity.
Qed.
Print Assumptions C35_public_only.
(** Exported keys re-create the same cipher. *)
Theorem C35_key_bytes_roundtrip : forall C raw, ec_laws C -> let k := ceg_new C raw in
  exists b xb, ceg_public_bytes C k = Ok b /\ ceg_private_bytes C k = Ok xb /\ ceg_from_keys C b xb = Ok k /\ ceg_from_public C b = Ok {| ceg_pub := ceg_pub C k; ceg_priv := None |}.
Proof.
  intros C raw L k. pose proof (C35_key_pairs C raw L) as K. unfold k, ceg_new. destruct (eg_generate C raw) as [[g y] x]. cbn [eg_g eg_y] in K. destruct K as (B & Hy & Ng & Ny).
  unfold ceg_public_bytes, ceg_private_bytes. cbn [ceg_pub ceg_priv eg_g eg_y]. rewrite !(point_to_bytes_ok C L) by assumption. cbn [bind]. destruct (to_bytes_of x ltac:(lia)) as (xb & Ex & Eo).
  exists (ec_enc C g, ec_enc C y), xb. split; [reflexivity|]. split; [exact Ex|]. unfold ceg_from_keys, ceg_from_public. cbn [fst snd]. rewrite !(point_of_bytes_enc C L) by assumption. cbn [bind].
  rewrite (point_mul_eq C L), Eo, <- Hy, (proj2 (peqb_spec C L y y) eq_refl). split; reflexivity.
Qed.
Print Assumptions C35_key_bytes_roundtrip.
(** An encryption of the identity element cannot be decrypted to bytes: the result is reported as INTERNAL. *)
Theorem C35_identity_undecodable : forall C b xb k raw ct, ec_laws C -> ceg_from_keys C b xb = Ok k -> ceg_encrypt_identity C k raw = Ok ct -> ceg_decrypt C k ct = Err Internal.
Proof.
  intros C [gb yb] xb k raw ct L Ek E. destruct (C35_keys_accepted C gb yb xb L) as [(g & y & _ & _ & Hy & Ek')|[_ Ek']]; [|congruence]. rewrite Ek in Ek'. injection Ek' as ->. subst y.
  unfold ceg_encrypt_identity in E. cbn [ceg_pub] in E. apply (ct_bytes_inv C L) in E. destruct E as (Nu & Ne & ->).
  unfold ceg_decrypt. cbn [ceg_priv fst snd]. rewrite !(point_of_bytes_enc C L) by assumption. cbn [bind].
  replace (eg_decrypt C (of_bytes xb) _) with (pinf C); [unfold point_to_bytes; rewrite (proj2 (is_inf_true C L _) eq_refl); reflexivity|].
  symmetry. apply (decrypt_encrypts C L). apply (encrypts_enc C L).
Qed.
Print Assumptions C35_identity_undecodable.
Example C35_identity_ex : match ceg_encrypt_identity toy demo_ceg 5 with Ok ct => ceg_decrypt toy demo_ceg ct = Err Internal | _ => False end.
Proof. vm_compute. reflexivity. Qed.

(** ** C36: threshold decryption. *)
Theorem C36_threshold : forall C raws (e : expr C) order, ec_laws C -> raws <> [] -> Permutation order (map (fun r => snd (eg_generate C r)) raws) ->
  exists pk, eg_combine C (map (fun r => fst (eg_generate C r)) raws) = Ok pk /\
    eg_e C (partial_all C order (run pk e)) = plain e /\
    forall before last, order = before ++ [last] -> eg_decrypt C last (partial_all C before (run pk e)) = plain e.
Proof.
  intros C raws e order L Hne Hp. set (keys := map (generate_private_key C) raws).
  assert (Ek : map (fun r => snd (eg_generate C r)) raws = keys) by (apply map_ext; intros r; reflexivity). rewrite Ek in Hp.
  assert (Es : map (fun r => fst (eg_generate C r)) raws = map (fun x => {| eg_g := pgen C; eg_y := pmul C x (pgen C) |}) keys).
  { unfold keys. rewrite map_map. apply map_ext. intros r. unfold eg_generate. cbn [fst]. rewrite (point_mul_eq C L). reflexivity. }
  rewrite Es. exists {| eg_g := pgen C; eg_y := pmul C (zsum_list keys) (pgen C) |}. split.
  - destruct raws as [|r raws]; [contradiction|]. unfold keys. cbn [map eg_combine eg_g eg_y]. rewrite (shares_loop_ok C L). cbn [bind zsum_list fold_right]. rewrite (pmul_add C L). reflexivity.
  - pose proof (encrypts_run C L (zsum_list keys) (pgen C) e) as En. rewrite <- (zsum_perm _ _ Hp) in En. set (c := run _ e) in *. replace (run _ e) with c by (unfold c; rewrite (zsum_perm _ _ Hp); reflexivity). split.
    + apply (encrypts_0 C L). apply (partial_all_spec C L order c 0). rewrite Z.add_0_r. exact En.
    + intros before last ->. apply (decrypt_encrypts C L). apply (partial_all_spec C L before c last). rewrite zsum_app in En. cbn [zsum_list fold_right] in En. rewrite Z.add_0_r in En. exact En.
Qed.
Print Assumptions C36_threshold.
Example C36_ex : match eg_combine toy (map (fun r => fst (eg_generate toy r)) [3; 17; 70]) with
  | Ok pk => peqb toy (eg_e toy (partial_all toy (map (fun r => snd (eg_generate toy r)) [70; 3; 17]) (run pk (EEnc (pgen toy) 5)))) (pgen toy) = true | _ => False end.
Proof. vm_compute. reflexivity. Qed.

(** While one holder has not taken part, a fresh encryption does not show its plaintext. *)
Theorem C36_missing_holder : forall C raws r others raw m pk, ec_laws C -> Permutation raws (r :: others) -> eg_combine C (map (fun r => fst (eg_generate C r)) raws) = Ok pk ->
  eg_e C (partial_all C (map (fun r => snd (eg_generate C r)) others) (eg_encrypt C pk m raw)) <> m.
Proof.
  intros C raws r others raw m pk L Hp Ec.
  destruct (C36_threshold C raws (EEnc m raw) (map (fun r => snd (eg_generate C r)) others ++ [snd (eg_generate C r)]) L) as (pk' & Ec' & _ & H).
  - intros ->. apply Permutation_nil in Hp. discriminate.
  - symmetry. transitivity (map (fun r => snd (eg_generate C r)) (r :: others)); [apply Permutation_map, Hp|]. cbn [map]. apply Permutation_cons_append.
  - rewrite Ec in Ec'. injection Ec' as <-. specialize (H _ _ eq_refl). cbn [run plain] in H. apply (decrypt_encrypts C L) in H. unfold encrypts in H. intros E. rewrite E in H.
    assert (Eu : forall xs c, eg_u C (partial_all C xs c) = eg_u C c). { intros xs. induction xs as [|x xs IH]; intros c; [reflexivity|]. cbn [partial_all fold_left]. fold (partial_all C xs (eg_partial C x c)). rewrite IH. reflexivity. }
    rewrite Eu in H. assert (H0 : pmul C (snd (eg_generate C r)) (eg_u C (eg_encrypt C pk m raw)) = pinf C). { apply (add_cancel_l C L m). rewrite (add_inf_r C L). symmetry. exact H. }
    revert H0. change (snd (eg_generate C r)) with (generate_private_key C r). pose proof (private_key_range C L r) as Br. pose proof (private_key_range C L raw) as Bw.
    apply (pmul_not_inf C L); [|rewrite Z.mod_small; lia]. unfold eg_encrypt. cbn [eg_u]. rewrite (point_mul_eq C L). apply (pmul_not_inf C L); [|rewrite Z.mod_small; lia].
    destruct raws as [|r0 raws]; [discriminate|]. cbn [map eg_combine] in Ec. apply bind_ok in Ec. destruct Ec as (y & _ & Ec). injection Ec as <-. cbn [eg_g]. apply (gen_not_inf C L).
Qed.
Print Assumptions C36_missing_holder.
(** Which share lists can be combined. *)
Theorem C36_combine_requires : forall C shares, ec_laws C ->
  (shares = [] /\ eg_combine C shares = Err InvalidArgument) \/
  (shares <> [] /\ (exists s t, In s shares /\ In t shares /\ eg_g C s <> eg_g C t) /\ eg_combine C shares = Crash) \/
  (shares <> [] /\ (forall s t, In s shares -> In t shares -> eg_g C s = eg_g C t) /\ exists pk, eg_combine C shares = Ok pk /\ forall s, In s shares -> eg_g C pk = eg_g C s).
Proof.
  intros C shares L. destruct shares as [|s ss]; [left; split; reflexivity|right]. cbn [eg_combine].
  destruct (forallb (fun t => peqb C (eg_g C s) (eg_g C t)) ss) eqn:E.
  - right. rewrite forallb_forall in E. assert (H : forall t, In t ss -> eg_g C t = eg_g C s) by (intros t Ht; symmetry; apply (peqb_spec C L), E, Ht).
    assert (H' : forall t, In t (s :: ss) -> eg_g C t = eg_g C s) by (intros t [<-|Ht]; [reflexivity|apply H, Ht]).
    destruct (shares_loop_same C L (eg_g C s) (eg_y C s) ss H) as (y & Ey). rewrite Ey. cbn [bind]. split; [discriminate|]. split; [intros a b Ha Hb; rewrite (H' a Ha), (H' b Hb); reflexivity|].
    eexists. split; [reflexivity|]. cbn [eg_g]. intros t Ht. symmetry. apply H', Ht.
  - left. split; [discriminate|]. assert (Hx : exists t, In t ss /\ eg_g C t <> eg_g C s).
    { clear -E L. induction ss as [|t ss IH]; [discriminate|]. cbn [forallb] in E. destruct (peqb C (eg_g C s) (eg_g C t)) eqn:Et.
      - cbn [andb] in E. destruct (IH E) as (u & Hu & N). exists u. split; [right; exact Hu|exact N].
      - exists t. split; [left; reflexivity|]. intros Eq. symmetry in Eq. apply (peqb_spec C L) in Eq. congruence. }
    destruct Hx as (t & Ht & N). split; [exists t, s; split; [right; exact Ht|split; [left; reflexivity|exact N]]|]. rewrite (shares_loop_mixed C L) by (exists t; tauto). reflexivity.
Qed.
Print Assumptions C36_combine_requires.

(** ** C37: commutative encryption acts on ElGamal ciphertexts. Re-encrypt then decrypt equals decrypt then re-encrypt, errors included. *)
Theorem C37_reencrypt_commutes : forall C X c k ct, ec_laws C -> created C X c ->
  (let* ct' := cipher_reencrypt_elgamal C c ct in ceg_decrypt C k ct') =
  (match ceg_priv C k with None => let* _ := cipher_reencrypt_elgamal C c ct in Err InvalidArgument | Some _ => let* s := ceg_decrypt C k ct in cipher_reencrypt C c s end).
Proof.
  intros C X c k [ub eb] L Hc. apply (created_valid C L) in Hc. pose proof (factor_unit C L (Add c) Hc) as U. cbn [factor] in U. unfold cipher_reencrypt_elgamal, ceg_decrypt. cbn [fst snd].
  destruct (point_of_bytes_cases C L ub) as [(u & Eu & Nu)|Eu]; rewrite Eu; cbn [bind]; [|destruct (ceg_priv C k); reflexivity].
  destruct (point_of_bytes_cases C L eb) as [(e & Ee & Ne)|Ee]; rewrite Ee; cbn [bind]; [|destruct (ceg_priv C k); reflexivity].
  pose proof (pmul_not_inf C L _ u Nu U) as Nu'. pose proof (pmul_not_inf C L _ e Ne U) as Ne'.
  rewrite !(point_mul_eq C L), !(point_to_bytes_ok C L) by assumption. cbn [bind fst snd]. destruct (ceg_priv C k) as [x|]; [|reflexivity].
  rewrite !(point_of_bytes_enc C L) by assumption. cbn [bind]. unfold eg_decrypt. cbn [eg_u eg_e]. rewrite !(point_mul_eq C L).
  assert (E : padd C (pmul C (ci_key c) e) (pneg C (pmul C x (pmul C (ci_key c) u))) = pmul C (ci_key c) (padd C e (pneg C (pmul C x u)))).
  { rewrite (pmul_add_pt C L), (pmul_neg_pt C L). do 2 f_equal. rewrite <- !(pmul_mul C L). f_equal. lia. }
  rewrite E. set (P := padd C e (pneg C (pmul C x u))). destruct (pt_eq_dec C L P (pinf C)) as [Z0|NP].
  - rewrite Z0, (pmul_inf C L). unfold point_to_bytes. rewrite (proj2 (is_inf_true C L _) eq_refl). reflexivity.
  - rewrite (point_to_bytes_ok C L P NP). cbn [bind]. unfold cipher_reencrypt. rewrite (point_of_bytes_enc C L P NP). cbn [bind]. rewrite (point_mul_eq C L). reflexivity.
Qed.
Print Assumptions C37_reencrypt_commutes.
(** In particular: an encrypted point, re-encrypted and then decrypted, is the cipher's encryption of the point. *)
Theorem C37_encrypted_point : forall C X c b xb k s P raw ct, ec_laws C -> created C X c -> ceg_from_keys C b xb = Ok k -> point_of_bytes C s = Ok P -> ceg_encrypt C k s raw = Ok ct ->
  exists ct', cipher_reencrypt_elgamal C c ct = Ok ct' /\ ceg_decrypt C k ct' = cipher_reencrypt C c s /\ exists t, cipher_reencrypt C c s = Ok t.
Proof.
  intros C X c b xb k s P raw ct L Hc Ek Es Ect. pose proof (C35_bytes_roundtrip C b xb k s P raw ct L Ek Es Ect) as Hd. pose proof (C37_reencrypt_commutes C X c k ct L Hc) as H.
  assert (Hp : exists x, ceg_priv C k = Some x) by (unfold ceg_decrypt in Hd; destruct (ceg_priv C k); [eauto|discriminate]). destruct Hp as (x & Hp). rewrite Hp, Hd in H. cbn [bind] in H.
  assert (Er : cipher_reencrypt C c (ec_enc C P) = cipher_reencrypt C c s) by (unfold cipher_reencrypt; rewrite Es, (point_of_bytes_enc C L P (point_of_bytes_not_inf C L _ _ Es)); reflexivity).
  rewrite Er in H. assert (Ok_t : exists t, cipher_reencrypt C c s = Ok t).
  { apply (created_valid C L) in Hc. exists (ec_enc C (pmul C (ci_key c) P)). apply (layer_ok C L (Add c) s P Hc Es). }
  destruct Ok_t as (t & Et). rewrite Et in H. apply bind_ok in H. destruct H as (ct' & E1 & E2). exists ct'. split; [exact E1|]. rewrite Et. split; [exact E2|eauto].
Qed.
Print Assumptions C37_encrypted_point.
Example C37_ex : match ceg_encrypt toy demo_ceg (ec_enc toy (pmul toy 9 (pgen toy))) 5 with
  | Ok ct => match cipher_reencrypt_elgamal toy (demo_cipher 5) ct with Ok ct' => ceg_decrypt toy demo_ceg ct' = Ok (ec_enc toy (pmul toy 45 (pgen toy))) | _ => False end | _ => False end.
Proof. vm_compute. reflexivity. Qed.

(** ** C52 (part): ElGamal and EC key messages round-trip; infinity is refused. *)
Theorem C52_elgamal_public : forall C pk, ec_laws C ->
  (eg_g C pk <> pinf C /\ eg_y C pk <> pinf C /\ exists p, eg_public_to_proto C pk = Ok p /\ eg_public_of_proto C p = Ok pk) \/
  ((eg_g C pk = pinf C \/ eg_y C pk = pinf C) /\ eg_public_to_proto C pk = Err Internal).
Proof.
  intros C [g y] L. cbn [eg_g eg_y]. unfold eg_public_to_proto, eg_public_of_proto. cbn [eg_g eg_y].
  destruct (pt_eq_dec C L g (pinf C)) as [->|Ng]; [right; split; [tauto|]; unfold point_to_bytes; rewrite (proj2 (is_inf_true C L _) eq_refl); reflexivity|].
  rewrite (point_to_bytes_ok C L g Ng). cbn [bind]. destruct (pt_eq_dec C L y (pinf C)) as [->|Ny]; [right; split; [tauto|]; unfold point_to_bytes; rewrite (proj2 (is_inf_true C L _) eq_refl); reflexivity|].
  rewrite (point_to_bytes_ok C L y Ny). cbn [bind]. left. split; [exact Ng|]. split; [exact Ny|]. eexists. split; [reflexivity|]. cbn [fst snd]. rewrite !(point_of_bytes_enc C L) by assumption. reflexivity.
Qed.
Print Assumptions C52_elgamal_public.
Theorem C52_elgamal_ciphertext : forall C c, ec_laws C ->
  (eg_u C c <> pinf C /\ eg_e C c <> pinf C /\ exists p, eg_ct_to_proto C c = Ok p /\ eg_ct_of_proto C p = Ok c) \/
  ((eg_u C c = pinf C \/ eg_e C c = pinf C) /\ eg_ct_to_proto C c = Err Internal).
Proof.
  intros C [g y] L. cbn [eg_u eg_e]. unfold eg_ct_to_proto, ct_to_bytes, eg_ct_of_proto. cbn [eg_u eg_e].
  destruct (pt_eq_dec C L g (pinf C)) as [->|Ng]; [right; split; [tauto|]; unfold point_to_bytes; rewrite (proj2 (is_inf_true C L _) eq_refl); reflexivity|].
  rewrite (point_to_bytes_ok C L g Ng). cbn [bind]. destruct (pt_eq_dec C L y (pinf C)) as [->|Ny]; [right; split; [tauto|]; unfold point_to_bytes; rewrite (proj2 (is_inf_true C L _) eq_refl); reflexivity|].
  rewrite (point_to_bytes_ok C L y Ny). cbn [bind]. left. split; [exact Ng|]. split; [exact Ny|]. eexists. split; [reflexivity|]. cbn [fst snd]. rewrite !(point_of_bytes_enc C L) by assumption. reflexivity.
Qed.
Print Assumptions C52_elgamal_ciphertext.
Theorem C52_elgamal_private : forall x, (0 <= x /\ exists b, eg_private_to_proto x = Ok b /\ eg_private_of_proto b = x) \/ (x < 0 /\ forall b, eg_private_to_proto x <> Ok b).
Proof.
  intros x. unfold eg_private_to_proto, eg_private_of_proto. destruct (Z.le_gt_cases 0 x) as [H|H]; [left|right].
  - split; [exact H|]. apply to_bytes_of, H.
  - split; [lia|]. intros b E. apply to_bytes_ok in E. lia.
Qed.
Print Assumptions C52_elgamal_private.
Theorem C52_ec_key : forall C id id' raw, ec_laws C -> exists p, ec_key_proto C id raw = Ok p /\
  deserialize_ec_key id' p = (if id' =? id then Ok (generate_private_key C raw) else Err InvalidArgument).
Proof.
  intros C id id' raw L. pose proof (private_key_range C L raw) as B. unfold ec_key_proto. destruct (to_bytes_of (generate_private_key C raw) ltac:(lia)) as (b & -> & Eb). cbn [bind].
  eexists. split; [reflexivity|]. unfold deserialize_ec_key. cbn [fst snd]. rewrite Eb. destruct (id' =? id); reflexivity.
Qed.
Print Assumptions C52_ec_key.
Example C52_elgamal_ex : match eg_ct_to_proto toy (run (fst (eg_generate toy 41)) (EEnc (pgen toy) 7)) with Ok p => is_ok (eg_ct_of_proto toy p) = true | _ => False end /\ eg_ct_to_proto toy (eg_zero toy) = Err Internal.
Proof. vm_compute. split; reflexivity. Qed.
