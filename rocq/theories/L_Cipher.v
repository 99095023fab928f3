(** Lemmas about the commutative cipher. *)
From Coq Require Import Znumtheory Permutation.
From Verif Require Import Base M_BigNum L_BigNum M_Num S_Num L_Mod L_Num L_NT L_DJ M_EC L_EC M_Group M_Cipher S_Cipher.

Section Ci.
Variable C : ec.
Hypothesis L : ec_laws C.
Notation n := (ec_order C).

Definition good (c : cipher) : Prop := 0 < ci_key c < n /\ eqmod n (ci_inv c * ci_key c) 1.

Lemma n_gt1 : 1 < n. Proof. apply order_gt1, L. Qed.
Lemma n_prime : prime n. Proof. apply (order_prime C L). Qed.
Lemma key_unit k : 0 < k < n -> Z.gcd k n = 1.
Proof. intros B. apply Zgcd_1_rel_prime. apply rel_prime_le_prime; [apply n_prime|lia]. Qed.

Lemma cipher_make_ok k h : exists c, cipher_make C k h = Ok c /\ ci_key c = k /\ ci_hash c = h /\ ci_inv c = k ^ (n - 2) mod n.
Proof.
  pose proof n_gt1. unfold cipher_make, invert_private_scalar. rewrite bn_mod_exp_ok by lia. cbn [bind]. eexists. split; [reflexivity|]. cbn [ci_key ci_hash ci_inv]. tauto.
Qed.
Lemma cipher_make_good k h c : 0 < k < n -> cipher_make C k h = Ok c -> good c.
Proof.
  intros B E. destruct (cipher_make_ok k h) as (c' & E' & Hk & _ & Hi). rewrite E in E'. injection E' as <-. pose proof n_gt1. unfold good. rewrite Hk, Hi. split; [exact B|].
  rewrite (eqmod_mod n). assert (E1 : k ^ (n - 2) * k = k ^ (n - 1)) by (rewrite Z.mul_comm, <- Z.pow_succ_r by lia; f_equal; lia). rewrite E1.
  apply (eqmod_cancel n k); [apply key_unit, B|]. rewrite Z.mul_1_r.
  assert (E2 : k * k ^ (n - 1) = k ^ n) by (rewrite <- Z.pow_succ_r by lia; f_equal; lia). rewrite E2. apply fermat_pow, n_prime.
Qed.
Lemma private_key_range raw : 0 < generate_private_key C raw < n.
Proof. pose proof n_gt1. unfold generate_private_key. destruct (Z.eq_dec n 2) as [E|E]. { rewrite E. change (2 - 1) with 1. rewrite Z.mod_1_r. lia. } pose proof (Z.mod_pos_bound raw (n - 1) ltac:(lia)). lia. Qed.
Lemma check_private_key_ok k : (0 < k < n /\ check_private_key C k = Ok tt) \/ (~ 0 < k < n /\ check_private_key C k = Err InvalidArgument).
Proof. unfold check_private_key. destruct (Z.ltb_spec 0 k), (Z.ltb_spec k n); cbn [andb]; [left|right|right|right]; split; try reflexivity; lia. Qed.

Lemma prf_range mac fuel key data v : 80 <= Z.of_nat (length key) * 8 -> bit_length n <= 512 -> prf mac fuel key data n = Ok v -> 0 <= v < n.
Proof.
  intros Hk Hb E. destruct (prf_sound mac key n Hk Hb fuel data) as [(k & w & _ & E' & Hf)|[E' _]]; [|congruence].
  rewrite E in E'. injection E' as <-. unfold prf_first in Hf. destruct Hf as (Hv & Hlt & _). split; [|lia]. rewrite Hv. unfold prf_candidate. apply Z.mod_pos_bound. apply Z.pow_pos_nonneg; [lia|]. apply bit_length_nonneg.
Qed.

(** A PRF result is only possible for orders of at most 512 bits. *)
Lemma prf_bits mac fuel key data m v : prf mac fuel key data m = Ok v -> bit_length m <= 512.
Proof. destruct fuel as [|fuel]; cbn [prf]; [discriminate|]. destruct (Z.ltb_spec (Z.of_nat (length key) * 8) 80); [discriminate|]. destruct (Z.ltb_spec 512 (bit_length m)); [discriminate|lia]. Qed.
Lemma created_valid X c : created C X c -> good c.
Proof.
  intros [(raw & h & E)|[(kb & h & E)|(fuel & seed & tag & h & E & Hz)]].
  - unfold cipher_new in E. destruct (validate_hash_type h); [|discriminate]. cbn [negb] in E. apply (cipher_make_good (generate_private_key C raw) h); [apply private_key_range|exact E].
  - unfold cipher_from_key in E. destruct (validate_hash_type h); [|discriminate]. cbn [negb] in E. destruct (check_private_key_ok (of_bytes kb)) as [[B Ec]|[B Ec]]; rewrite Ec in E; [|discriminate].
    cbn [bind] in E. apply (cipher_make_good (of_bytes kb) h _ B E).
  - unfold cipher_from_seed in E. destruct (Z.ltb_spec (Z.of_nat (length seed)) 16); [discriminate|]. destruct (validate_hash_type h); [|discriminate]. cbn [negb] in E.
    apply bind_ok in E. destruct E as (k & Ek & E).
    pose proof (prf_range (hmac512 X) fuel seed tag k ltac:(lia) (prf_bits _ _ _ _ _ _ Ek) Ek) as B. destruct (cipher_make_ok k h) as (c' & E' & Hk & _). rewrite E in E'. injection E' as <-.
    apply (cipher_make_good k h); [lia|exact E].
Qed.

(** *** Layers *)
Definition factor (l : layer) : Z := match l with Add c => ci_key c | Remove c => ci_inv c end.
Lemma factor_unit l : good (layer_cipher l) -> factor l mod n <> 0.
Proof.
  pose proof n_gt1 as N1. intros [B E]. destruct l as [c|c]; cbn [layer_cipher factor] in *; [rewrite Z.mod_small; lia|].
  intros E0. apply Z.mod_divide in E0; [|lia]. apply eqmod_0 in E0. rewrite E0 in E. change (0 * ci_key c) with 0 in E.
  destruct E as [k Hk]. assert (D : (n | 1)) by (exists (- k); lia). apply Z.divide_1_r_nonneg in D; lia.
Qed.
Lemma layer_ok l s P : good (layer_cipher l) -> point_of_bytes C s = Ok P -> apply_layer C l s = Ok (ec_enc C (pmul C (factor l) P)).
Proof.
  intros G E. pose proof (point_of_bytes_not_inf C L _ _ E) as NP. pose proof (pmul_not_inf C L (factor l) P NP (factor_unit l G)) as NQ.
  destruct l as [c|c]; cbn [apply_layer factor] in *; unfold cipher_reencrypt, cipher_decrypt; rewrite E; cbn [bind]; rewrite point_mul_eq by exact L; apply point_to_bytes_ok; assumption.
Qed.
Lemma layer_bad l s : (forall P, point_of_bytes C s <> Ok P) -> apply_layer C l s = Err InvalidArgument.
Proof.
  intros Hn. assert (E : point_of_bytes C s = Err InvalidArgument).
  { specialize (Hn). unfold point_of_bytes in *. destruct (ec_dec C s) as [P|]; [|reflexivity]. destruct (is_inf C P); [reflexivity|]. exfalso. apply (Hn P). reflexivity. }
  destruct l as [c|c]; cbn [apply_layer]; unfold cipher_reencrypt, cipher_decrypt; rewrite E; reflexivity.
Qed.
Definition factors (ls : list layer) : Z := fold_right (fun l a => a * factor l) 1 ls.
Lemma layers_enc ls : Forall (fun l => good (layer_cipher l)) ls -> forall P, P <> pinf C -> apply_layers C ls (ec_enc C P) = Ok (ec_enc C (pmul C (factors ls) P)) /\ pmul C (factors ls) P <> pinf C.
Proof.
  induction 1 as [|l ls Hl Hls IH]; intros P NP; cbn [apply_layers factors fold_right].
  - rewrite pmul_1 by exact L. tauto.
  - rewrite (layer_ok l _ P Hl (point_of_bytes_enc C L P NP)). cbn [bind]. fold (factors ls). pose proof (pmul_not_inf C L _ P NP (factor_unit l Hl)) as NQ.
    rewrite pmul_mul by exact L. apply IH, NQ.
Qed.
Lemma layers_dec l ls s P : good (layer_cipher l) -> Forall (fun l => good (layer_cipher l)) ls -> point_of_bytes C s = Ok P ->
  apply_layers C (l :: ls) s = Ok (ec_enc C (pmul C (factors (l :: ls)) P)).
Proof.
  intros Hl Hls E. pose proof (point_of_bytes_not_inf C L _ _ E) as NP. cbn [apply_layers factors fold_right]. rewrite (layer_ok l s P Hl E). cbn [bind].
  fold (factors ls). rewrite pmul_mul by exact L. apply (layers_enc ls Hls). apply (pmul_not_inf C L _ P NP (factor_unit l Hl)).
Qed.
Lemma factors_perm ls ls' : Permutation ls ls' -> factors ls = factors ls'.
Proof. induction 1; cbn [factors fold_right]; try fold (factors l); try fold (factors l'); try congruence; lia. Qed.
Lemma factors_app a b : factors (a ++ b) = factors a * factors b.
Proof. induction a as [|x a IH]; cbn [app factors fold_right]; [fold (factors b); lia|]. fold (factors (a ++ b)) (factors a). rewrite IH. ring. Qed.
Lemma factors_cancel cs : Forall good cs -> eqmod n (factors (map Add cs ++ map Remove cs)) 1.
Proof.
  rewrite factors_app. induction 1 as [|c cs Hc Hcs IH]; cbn [map factors fold_right]; [reflexivity|]. fold (factors (map Add cs)) (factors (map Remove cs)).
  cbn [factor]. replace (factors (map Add cs) * ci_key c * (factors (map Remove cs) * ci_inv c)) with (factors (map Add cs) * factors (map Remove cs) * (ci_inv c * ci_key c)) by ring.
  rewrite IH, (proj2 Hc). reflexivity.
Qed.

(** Hashing never gives infinity, so encryption succeeds exactly when hashing does. *)
Lemma encrypt_factor X sq sw fuel c m : good c -> cipher_encrypt C X sq sw fuel c m = match cipher_hash C X sq sw fuel c m with
  | Ok s => match hash_internal C X sq sw fuel (ci_hash c) m with Ok P => Ok (ec_enc C (pmul C (ci_key c) P)) | _ => Crash end | o => o end.
Proof.
  intros G. unfold cipher_encrypt, cipher_hash. destruct (hash_internal C X sq sw fuel (ci_hash c) m) as [P|e| | |]; cbn [bind]; try reflexivity.
  rewrite point_mul_eq by exact L. destruct (pt_eq_dec C L P (pinf C)) as [->|NP].
  - rewrite pmul_inf by exact L. unfold point_to_bytes. rewrite (proj2 (is_inf_true C L _) eq_refl). reflexivity.
  - rewrite (point_to_bytes_ok C L P NP). apply point_to_bytes_ok; [exact L|]. apply (pmul_not_inf C L _ P NP (factor_unit (Add c) G)).
Qed.
Lemma encrypt_inv X sq sw fuel c m s : good c -> cipher_encrypt C X sq sw fuel c m = Ok s ->
  exists P, hash_internal C X sq sw fuel (ci_hash c) m = Ok P /\ P <> pinf C /\ s = ec_enc C (pmul C (ci_key c) P) /\ pmul C (ci_key c) P <> pinf C /\ cipher_hash C X sq sw fuel c m = Ok (ec_enc C P).
Proof.
  intros G E. rewrite encrypt_factor in E by exact G. unfold cipher_hash in *. destruct (hash_internal C X sq sw fuel (ci_hash c) m) as [P|e| | |] eqn:EP; cbn [bind] in *; try discriminate.
  destruct (point_to_bytes C P) as [t| | | |] eqn:Et; try discriminate. apply (point_to_bytes_inv C L) in Et. destruct Et as [NP ->]. injection E as <-. exists P.
  pose proof (pmul_not_inf C L _ P NP (factor_unit (Add c) G)). tauto.
Qed.
End Ci.
