(** Lemmas about the three ciphers used together. *)
From Coq Require Import Znumtheory.
From Verif Require Import Base M_BigNum S_BigNum L_BigNum M_Num L_Num L_Mod M_EC L_EC M_Group S_Group L_Group M_Cipher L_Cipher L_DJ M_Java M_Python S_Port L_Port.

Section Mix.
Variable C : ec.
Hypothesis U : usable C.
Variable X : externals.
Variable sqrt_p : Z -> Z.
Variable sswu : option (bytes -> bytes -> option (pt C)).
Variable root : Z -> option Z.
Variable jdec pdec : bytes -> option (pt C).
Variable fuel : nat.
Hypothesis Hs : sqrt_ok (ec_p C) sqrt_p.
Hypothesis Hr : root_ok (ec_p C) root.
Hypothesis Hd : digest_lengths X.
Hypothesis Hj : decodes C jdec.
Hypothesis Hp : decodes C pdec.
Notation n := (ec_order C).
Let L : ec_laws C := proj1 U.
Let Off : off_axis C := proj1 (proj2 U).
Let Hb : bit_length (ec_p C) <= 65024 := proj2 (proj2 U).

Lemma hash_not_inf h m P : 0 <= h <= 2 -> hash_internal C X sqrt_p sswu fuel h m = Ok P -> P <> pinf C.
Proof.
  intros Hh E. rewrite hash_internal_oracle in E by exact Hh. apply bind_ok in E. destruct E as (x & _ & E).
  revert x E. generalize fuel as f. induction f as [|k IH]; intros x E; cbn [hash_loop] in E; [discriminate|].
  destruct (map_x_total C L sqrt_p Hs x) as [(_ & Q & EQ & (y & XQ & _))|[_ EQ]]; rewrite EQ in E.
  - injection E as <-. intros Ei. apply (xy_inf C L) in Ei. congruence.
  - apply bind_ok in E. destruct E as (b & _ & E). apply bind_ok in E. destruct E as (x' & _ & E). exact (IH x' E).
Qed.

Lemma java_key_ok key h : 1 < of_bytes key < n -> java_from_key C key h = Ok {| jc_key := of_bytes key; jc_hash := h |}.
Proof. intros B. unfold java_from_key, java_check_key. rewrite java_number_eq. destruct (Z.leb_spec (of_bytes key) 1); [lia|]. destruct (Z.leb_spec n (of_bytes key)); [lia|]. reflexivity. Qed.
Lemma cpp_key_ok key h : 0 < of_bytes key < n -> 0 <= h <= 3 -> exists c, cipher_from_key C key h = Ok c /\ ci_key c = of_bytes key /\ ci_hash c = h /\ good C c.
Proof.
  intros B Hh. unfold cipher_from_key. assert (Hv : validate_hash_type h = true) by (unfold validate_hash_type; rewrite !orb_true_iff, !Z.eqb_eq; lia). rewrite Hv. cbn [negb].
  destruct (check_private_key_ok C (of_bytes key)) as [[_ Ec]|[No _]]; [|contradiction]. rewrite Ec. cbn [bind]. destruct (cipher_make_ok C L (of_bytes key) h) as (c & E & Ek & Eh & _).
  exists c. split; [exact E|]. split; [exact Ek|]. split; [exact Eh|]. exact (cipher_make_good C L _ _ c B E).
Qed.
Lemma inverse_ok k : k mod n <> 0 -> exists r, bn_mod_inverse k n = Ok r /\ 0 <= r < n /\ eqmod n (k * r) 1.
Proof.
  intros Hk. pose proof (order_gt1 C L) as G. assert (Hg : Z.gcd k n = 1).
  { apply Zgcd_1_rel_prime. apply rel_prime_sym. apply prime_rel_prime; [apply (order_prime C L)|]. intros D. apply Hk. apply Z.mod_divide; [lia|exact D]. }
  destruct (bn_mod_inverse_ok k n ltac:(lia) Hg) as (r & E & B & Er). exists r. split; [exact E|]. split; [exact B|]. apply mod_eqmod_iff; [lia|exact Er].
Qed.
Lemma py_key_ok (key : bytes) raw h : of_bytes key mod n <> 0 -> exists c, py_new C (Some key) raw (Some h) = Ok c /\ pc_key c = of_bytes key /\ pc_hash c = h /\ eqmod n (pc_key c * pc_inv c) 1.
Proof.
  intros Hk. unfold py_new. destruct key as [|b key]; [exfalso; apply Hk; reflexivity|]. rewrite of_bn_to_bytes by apply of_bytes_nonneg. destruct (inverse_ok _ Hk) as (r & E & _ & Er). rewrite E. cbn [bind]. eexists. split; [reflexivity|]. cbn. split; [reflexivity|]. split; [reflexivity|exact Er].
Qed.
Lemma key_unit_mod k : 0 < k < n -> k mod n <> 0.
Proof. intros B. rewrite Z.mod_small by lia. lia. Qed.

Lemma encoded_not_inf P : P <> pinf C -> encoded C P = ec_enc C P.
Proof. intros H. unfold encoded. apply (is_inf_false C L) in H. rewrite H. reflexivity. Qed.
Lemma py_encoded_not_inf P : P <> pinf C -> py_encoded C P = ec_enc C P.
Proof. exact (encoded_not_inf P). Qed.
Lemma mul_not_inf P k : P <> pinf C -> k mod n <> 0 -> point_mul C P k <> pinf C.
Proof. intros HP Hk. rewrite (point_mul_eq C L). apply (pmul_not_inf C L); assumption. Qed.
Lemma inverse_mul P k r s : eqmod n (r * k) 1 -> eqmod n (k * s) 1 -> point_mul C P r = point_mul C P s.
Proof.
  intros E1 E2. rewrite !(point_mul_eq C L). apply (pmul_eqmod C L). transitivity (r * (k * s)); [rewrite E2; exists 0; ring|]. replace (r * (k * s)) with (r * k * s) by ring. rewrite E1. exists 0. ring.
Qed.
Lemma inverse_unit k r : eqmod n (k * r) 1 -> r mod n <> 0.
Proof.
  intros E Hr0. pose proof (order_gt1 C L) as G. apply Z.mod_divide in Hr0; [|lia]. destruct Hr0 as [q ->]. destruct E as [t Ht]. assert (D : (n | 1)) by (exists (k * q - t); lia). apply Z.divide_1_r_nonneg in D; lia.
Qed.

(** One operation on a well-formed ciphertext, in each language. *)
Lemma next_cpp key h op P : 0 < of_bytes key < n -> 0 <= h <= 2 -> P <> pinf C ->
  exists k, k mod n <> 0 /\ next_layer C jdec pdec Cpp key h op (ec_enc C P) = Ok (ec_enc C (pmul C k P)) /\ match op with AddLayer => k = of_bytes key | TakeLayer => eqmod n (k * of_bytes key) 1 end.
Proof.
  intros B Hh HP. destruct (cpp_key_ok key h B ltac:(lia)) as (c & Ec & Ek & _ & [_ Gi]). unfold next_layer, cipher_reencrypt, cipher_decrypt. rewrite Ek in Gi. assert (Ui : ci_inv c mod n <> 0) by (apply (inverse_unit (of_bytes key)); rewrite Z.mul_comm; exact Gi).
  destruct op; rewrite Ec; cbn [bind]; rewrite (point_of_bytes_enc C L) by exact HP; cbn [bind]; rewrite (point_mul_eq C L), (point_to_bytes_ok C L).
  - exists (of_bytes key). rewrite Ek. split; [apply key_unit_mod, B|]. split; reflexivity.
  - rewrite Ek. apply (pmul_not_inf C L); [exact HP|apply key_unit_mod, B].
  - exists (ci_inv c). split; [exact Ui|]. split; [reflexivity|exact Gi].
  - apply (pmul_not_inf C L); assumption.
Qed.
Lemma next_same l key h op P : 1 < of_bytes key < n -> 0 <= h <= 2 -> P <> pinf C ->
  next_layer C jdec pdec l key h op (ec_enc C P) = next_layer C jdec pdec Cpp key h op (ec_enc C P).
Proof.
  intros B Hh HP. destruct (next_cpp key h op P ltac:(lia) Hh HP) as (k & Uk & -> & Ek). destruct l.
  - destruct (next_cpp key h op P ltac:(lia) Hh HP) as (k' & _ & -> & Ek'). destruct op; [congruence|]. do 2 f_equal. apply (pmul_eqmod C L).
    transitivity (k' * (k * of_bytes key)); [rewrite Ek; exists 0; ring|]. replace (k' * (k * of_bytes key)) with (k' * of_bytes key * k) by ring. rewrite Ek'. exists 0; ring.
  - unfold next_layer, java_reencrypt, java_decrypt, java_point. rewrite java_key_ok by exact B. pose proof (proj2 (is_inf_false C L P) HP) as Ei. destruct op; cbn [bind jc_key]; rewrite (Hj P HP), Ei; cbn [bind].
    + rewrite (point_mul_eq C L), encoded_not_inf, <- Ek by (apply (pmul_not_inf C L); [exact HP|rewrite <- Ek; exact Uk]). reflexivity.
    + destruct (inverse_ok (of_bytes key) ltac:(apply key_unit_mod; lia)) as (r & Er & _ & Hr1). rewrite Er. cbn [value_or_crash bind]. rewrite <- (inverse_mul P (of_bytes key) k r Ek Hr1).
      rewrite (point_mul_eq C L), encoded_not_inf by (apply (pmul_not_inf C L); assumption). reflexivity.
  - unfold next_layer, py_reencrypt, py_decrypt, py_point, message_bytes, py_encrypt_point. destruct (py_key_ok key 0 h ltac:(apply key_unit_mod; lia)) as (c & Ec & Ekc & _ & Ei0). rewrite Ec. pose proof (proj2 (is_inf_false C L P) HP) as Ei. destruct op; cbn [bind]; rewrite (Hp P HP), Ei; cbn [bind snd].
    + rewrite Ekc, (point_mul_eq C L), py_encoded_not_inf, <- Ek by (apply (pmul_not_inf C L); [exact HP|rewrite <- Ek; exact Uk]). reflexivity.
    + rewrite Ekc in Ei0. rewrite <- (inverse_mul P (of_bytes key) k (pc_inv c) Ek Ei0). rewrite (point_mul_eq C L), py_encoded_not_inf by (apply (pmul_not_inf C L); assumption). reflexivity.
Qed.
Lemma first_same l key h m : 1 < of_bytes key < n -> 0 <= h <= 2 -> no_rejected_zero C X h m ->
  first_layer C X sqrt_p sswu root fuel l key h m = first_layer C X sqrt_p sswu root fuel Cpp key h m.
Proof.
  intros B Hh NZ. unfold first_layer. destruct (cpp_key_ok key h ltac:(lia) ltac:(lia)) as (c & Ec & Ek & Eh & _). destruct l; [reflexivity| |]; rewrite Ec; cbn [bind]; unfold cipher_encrypt; rewrite Eh, Ek.
  - rewrite java_key_ok by exact B. cbn [bind]. unfold java_encrypt. cbn [jc_key jc_hash]. rewrite (java_hash_point_eq C L Off Hb X sqrt_p Hs root Hr h m NZ sswu fuel Hh).
    destruct (hash_internal C X sqrt_p sswu fuel h m) as [P|e| | |] eqn:E; try reflexivity. cbn [bind]. apply hash_not_inf in E; [|exact Hh]. pose proof (mul_not_inf P _ E (key_unit_mod (of_bytes key) ltac:(lia))) as N.
    rewrite (encoded_not_inf _ N), (point_to_bytes_ok C L _ N). reflexivity.
  - destruct (py_key_ok key 0 h ltac:(apply key_unit_mod; lia)) as (c' & Ec' & Ekc & Ehc & _). rewrite Ec'. cbn [bind]. unfold py_encrypt, py_encrypt_point. rewrite Ehc, Ekc.
    rewrite (py_hash_point_eq C L Hb X sqrt_p Hs Hd h m NZ sswu fuel Hh).
    destruct (hash_internal C X sqrt_p sswu fuel h m) as [P|e| | |] eqn:E; try reflexivity. cbn [bind snd]. apply hash_not_inf in E; [|exact Hh]. pose proof (mul_not_inf P _ E (key_unit_mod _ ltac:(split; [|apply B]; lia))) as N.
    rewrite (py_encoded_not_inf _ N), (point_to_bytes_ok C L _ N). reflexivity.
Qed.
Lemma first_point key h m s : 0 < of_bytes key < n -> 0 <= h <= 2 -> first_layer C X sqrt_p sswu root fuel Cpp key h m = Ok s -> exists P, P <> pinf C /\ s = ec_enc C P.
Proof.
  intros B Hh E. unfold first_layer in E. apply bind_ok in E. destruct E as (c & _ & E). unfold cipher_encrypt in E. apply bind_ok in E. destruct E as (P & _ & E). apply point_to_bytes_inv in E; [|exact L]. destruct E as [N ->]. eauto.
Qed.
Lemma relay_same steps h : 0 <= h <= 2 -> (forall l key op, In (l, key, op) steps -> 1 < of_bytes key < n) -> forall P, P <> pinf C ->
  relay C jdec pdec steps h (ec_enc C P) = relay C jdec pdec (in_cpp steps) h (ec_enc C P).
Proof.
  intros Hh. induction steps as [|[[l key] op] steps IH]; intros Hk P HP; [reflexivity|]. cbn [relay in_cpp map]. pose proof (Hk l key op (or_introl eq_refl)) as B. rewrite (next_same l key h op P B Hh HP).
  destruct (next_cpp key h op P ltac:(lia) Hh HP) as (k & Uk & -> & _). cbn [bind]. apply IH; [intros l' key' op' Hin; apply (Hk l' key' op'); right; exact Hin|apply (pmul_not_inf C L); assumption].
Qed.
End Mix.

(** A root function from a square root. *)
Definition root_of (p : Z) (s : Z -> Z) (a : Z) : option Z := let r := s a in if (0 <=? r) && (r <? p) && ((r * r - a) mod p =? 0) then Some r else None.
Lemma root_of_ok p s : 0 < p -> sqrt_ok p s -> root_ok p (root_of p s).
Proof.
  intros Hp Hs a Ba. unfold root_of. destruct ((0 <=? s a) && (s a <? p) && ((s a * s a - a) mod p =? 0)) eqn:E.
  - rewrite !andb_true_iff, Z.leb_le, Z.ltb_lt, Z.eqb_eq in E. split; [lia|]. apply Z.mod_divide; [lia|apply E].
  - intros r D. destruct (Hs a Ba (ex_intro _ r D)) as [B D']. assert (T : (0 <=? s a) && (s a <? p) && ((s a * s a - a) mod p =? 0) = true); [|congruence].
    rewrite !andb_true_iff, Z.leb_le, Z.ltb_lt, Z.eqb_eq. split; [lia|]. apply Z.mod_divide; [lia|exact D'].
Qed.
