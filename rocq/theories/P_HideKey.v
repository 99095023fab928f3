(** Theorems about what a fresh key and a fresh exponent hide (C68, C69). *)
From Coq Require Import String List.
From Verif Require Import Base M_BigNum L_BigNum L_Mod L_DJ M_EC L_EC L_Toy M_Group P_Group M_Cipher S_Cipher L_Cipher P_Cipher S_Hide L_Hide L_HideCom M_ElGamal S_ElGamal L_ElGamal P_ElGamal S_HideKey L_HideKey.

(** ** C68. Under a fresh key, the encryption of one identifier is distributed exactly like a random point that has nothing to do with it: every test on the
    result succeeds for exactly as many keys. *)
Theorem C68_one_identifier : forall C X sqrt_p sswu fuel h m P s, ec_laws C -> validate_hash_type h = true ->
  hash_internal C X sqrt_p sswu fuel h m = Ok P -> point_to_bytes C P = Ok s -> forall test : outcome bytes -> bool,
  count [ec_order C - 1] (fun ds => test (encrypt_fresh C X sqrt_p sswu fuel h m (draw ds))) = count [ec_order C - 1] (fun ds => test (random_point C (draw ds))).
Proof.
  intros C X sq sw fuel h m P s L V EP Es test. apply (fresh_uniform C L _ P); [apply (point_to_bytes_inv C L _ _ Es)|].
  intros d Hd. exact (encrypt_fresh_is C L X sq sw fuel h m s d V Hd P EP Es).
Qed.
Print Assumptions C68_one_identifier.
(** So two identifiers cannot be told apart, *)
Theorem C68_two_identifiers : forall C X sqrt_p sswu fuel h m m' P P' s s', ec_laws C -> validate_hash_type h = true ->
  hash_internal C X sqrt_p sswu fuel h m = Ok P -> point_to_bytes C P = Ok s -> hash_internal C X sqrt_p sswu fuel h m' = Ok P' -> point_to_bytes C P' = Ok s' -> forall test : outcome bytes -> bool,
  count [ec_order C - 1] (fun ds => test (encrypt_fresh C X sqrt_p sswu fuel h m (draw ds))) = count [ec_order C - 1] (fun ds => test (encrypt_fresh C X sqrt_p sswu fuel h m' (draw ds))).
Proof.
  intros. rewrite (C68_one_identifier C X sqrt_p sswu fuel h m P s) by assumption. symmetry. apply (C68_one_identifier C X sqrt_p sswu fuel h m' P' s'); assumption.
Qed.
Print Assumptions C68_two_identifiers.
(** and a received point that is re-encrypted with a fresh key leaves no trace either. *)
Theorem C68_one_point : forall C h t P, ec_laws C -> validate_hash_type h = true -> point_of_bytes C t = Ok P -> forall test : outcome bytes -> bool,
  count [ec_order C - 1] (fun ds => test (reencrypt_fresh C h t (draw ds))) = count [ec_order C - 1] (fun ds => test (random_point C (draw ds))).
Proof.
  intros C h t P L V EP test. apply (fresh_uniform C L _ P); [apply (point_of_bytes_not_inf C L _ _ EP)|]. intros d Hd. apply (reencrypt_fresh_is C L); assumption.
Qed.
Print Assumptions C68_one_point.
(** Every encodable point is the result for exactly one key. *)
Theorem C68_exactly_one_key : forall C X sqrt_p sswu fuel h m P s Q t, ec_laws C -> validate_hash_type h = true ->
  hash_internal C X sqrt_p sswu fuel h m = Ok P -> point_to_bytes C P = Ok s -> point_to_bytes C Q = Ok t ->
  exists d, 0 <= d < ec_order C - 1 /\ encrypt_fresh C X sqrt_p sswu fuel h m d = Ok t /\ forall e, 0 <= e < ec_order C - 1 -> encrypt_fresh C X sqrt_p sswu fuel h m e = Ok t -> e = d.
Proof.
  intros C X sq sw fuel h m P s Q t L V EP Es Et. apply (point_to_bytes_inv C L) in Et. destruct Et as [NQ ->]. pose proof (proj1 (point_to_bytes_inv C L _ _ Es)) as NP.
  destruct (log_unit C L P Q NP NQ) as (k & Hk & EQ). exists (k - 1). split; [lia|].
  assert (F : forall e, 0 <= e < ec_order C - 1 -> encrypt_fresh C X sq sw fuel h m e = Ok (ec_enc C (pmul C (e + 1) P))) by (intros e He; exact (encrypt_fresh_is C L X sq sw fuel h m s e V He P EP Es)).
  split; [rewrite F by lia; replace (k - 1 + 1) with k by lia; rewrite <- EQ; reflexivity|].
  intros e He E. rewrite F in E by exact He. injection E as E. apply (enc_inj C L) in E; [|apply (pmul_not_inf C L); [exact NP|rewrite Z.mod_small; lia]|exact NQ].
  rewrite EQ in E. apply (pmul_inj_iff C L _ _ _ NP) in E. rewrite !Z.mod_small in E by lia. lia.
Qed.
Print Assumptions C68_exactly_one_key.
Example C68_ex : let h m := hash_internal toy demo_ext toy_sqrt None 20 0 m in let enc m d := encrypt_fresh toy demo_ext toy_sqrt None 20 0 m d in
  match h (list_byte_of_string "alice"), h (list_byte_of_string "bob") with
  | Ok P, Ok P' => negb (is_inf toy P) && negb (is_inf toy P') && negb (peqb toy P P') | _, _ => false end = true /\
  match enc (list_byte_of_string "alice") 6, enc (list_byte_of_string "bob") 6 with Ok s, Ok t => negb (bytes_eqb s t) | _, _ => false end = true.
Proof. vm_compute. tauto. Qed.

(** Not so for two identifiers under one key: whether they are equal shows.  With the test "are the two results the same" all keys say yes for a list that repeats
    an identifier and none does for two identifiers whose hashes differ. *)
Definition same_two (o : outcome (list bytes)) : bool := match o with Ok [s; t] => bytes_eqb s t | _ => false end.
Theorem C68_lists_refuted : forall C X sqrt_p sswu fuel h m m' P P' s s', ec_laws C -> validate_hash_type h = true ->
  hash_internal C X sqrt_p sswu fuel h m = Ok P -> point_to_bytes C P = Ok s -> hash_internal C X sqrt_p sswu fuel h m' = Ok P' -> point_to_bytes C P' = Ok s' -> s <> s' ->
  count [ec_order C - 1] (fun ds => same_two (encrypt_list_fresh C X sqrt_p sswu fuel h [m; m] (draw ds))) = ec_order C - 1 /\
  count [ec_order C - 1] (fun ds => same_two (encrypt_list_fresh C X sqrt_p sswu fuel h [m; m'] (draw ds))) = 0.
Proof.
  intros C X sq sw fuel h m m' P P' s s' L V EP Es EP' Es' Ne. pose proof (order_gt1 C L) as N1.
  assert (T : forall a b A B, hash_internal C X sq sw fuel h a = Ok A -> hash_internal C X sq sw fuel h b = Ok B -> A <> pinf C -> B <> pinf C -> forall d, 0 <= d < ec_order C - 1 ->
    encrypt_list_fresh C X sq sw fuel h [a; b] d = Ok [ec_enc C (pmul C (d + 1) A); ec_enc C (pmul C (d + 1) B)]).
  { intros a b A B Ea Eb NA NB d Hd. destruct (cipher_new_key C L d h Hd V) as (c & Ec & Ek & Eh & G). unfold encrypt_list_fresh. rewrite Ec. cbn [bind fold_right].
    rewrite !(encrypt_factor C L) by exact G. unfold cipher_hash. rewrite Eh, Ea, Eb. cbn [bind]. rewrite !(point_to_bytes_ok C L), Ek by assumption. reflexivity. }
  apply (point_to_bytes_inv C L) in Es, Es'. destruct Es as [NP ->], Es' as [NP' ->]. cbn [count]. unfold draw. cbn [nth]. split.
  - rewrite (zsum_ext _ _ (fun _ => 1)).
    + clear - N1. assert (Z1 : forall k, zsum k (fun _ => 1) = Z.of_nat k) by (induction k as [|k IH]; [reflexivity|]; cbn [zsum]; lia). rewrite Z1. lia.
    + intros d Hd. rewrite Z2Nat.id in Hd by lia. rewrite (T m m P P) by assumption. cbn [same_two]. rewrite (proj2 (bytes_eqb_eq _ _) eq_refl). reflexivity.
  - rewrite (zsum_ext _ _ (fun _ => 0)).
    + assert (Z0 : forall k, zsum k (fun _ => 0) = 0) by (induction k as [|k IH]; [reflexivity|]; cbn [zsum]; lia). apply Z0.
    + intros d Hd. rewrite Z2Nat.id in Hd by lia. rewrite (T m m' P P') by assumption. cbn [same_two].
      destruct (bytes_eqb _ _) eqn:E; [|reflexivity]. exfalso. apply bytes_eqb_eq in E. apply Ne. f_equal.
      assert (U : (d + 1) mod ec_order C <> 0) by (rewrite Z.mod_small; lia).
      apply (pmul_pt_inj C L (d + 1) _ _ U). apply (enc_inj C L); [apply (pmul_not_inf C L); assumption..|exact E].
Qed.
Print Assumptions C68_lists_refuted.

(** ** C69. Re-randomizing hides how a ciphertext came about.  Whatever ciphertext is re-randomized, made by whoever, for every test the number of exponents for
    which it succeeds on the result and the number for which it succeeds on a fresh encryption of the same plaintext differ by at most one. *)
Theorem C69_like_fresh : forall C g x c, ec_laws C -> g <> pinf C -> forall test : eg_ct C -> bool,
  let pk := {| eg_g := g; eg_y := pmul C x g |} in
  Z.abs (count [ec_order C - 1] (fun ds => test (eg_rerandomize C pk c (draw ds))) - count [ec_order C - 1] (fun ds => test (eg_encrypt C pk (eg_decrypt C x c) (draw ds)))) <= 1.
Proof.
  intros C g x c L Ng test pk. pose proof (order_gt1 C L) as N1. destruct (rerandomize_masked C L g x c _ Ng eq_refl) as (k & Hk & E). set (m := eg_decrypt C x c) in *.
  set (F := fun z => if test (masked C g (pmul C x g) m z) then 1 else 0). cbn [count]. unfold draw. cbn [nth].
  rewrite (zsum_ext _ (fun d => if test (eg_rerandomize C pk c d) then 1 else 0) (fun d => F (d + 1 + k))).
  2:{ intros d Hd. rewrite Z2Nat.id in Hd by lia. unfold F, pk. rewrite (E d Hd). reflexivity. }
  rewrite (zsum_ext _ (fun d => if test (eg_encrypt C pk m d) then 1 else 0) (fun d => F (d + 1 + 0))).
  2:{ intros d Hd. rewrite Z2Nat.id in Hd by lia. unfold F, pk. rewrite (encrypt_masked C L _ _ _ d Hd), Z.add_0_r. reflexivity. }
  apply (shifted_close C L F); [|intros d; unfold F; destruct (test _); lia|lia|lia]. intros d _. unfold F. rewrite (masked_period C L). reflexivity.
Qed.
Print Assumptions C69_like_fresh.
(** Two ciphertexts of the same plaintext, likewise. *)
Theorem C69_same_plaintext : forall C g x c c', ec_laws C -> g <> pinf C -> eg_decrypt C x c = eg_decrypt C x c' -> forall test : eg_ct C -> bool,
  let pk := {| eg_g := g; eg_y := pmul C x g |} in
  Z.abs (count [ec_order C - 1] (fun ds => test (eg_rerandomize C pk c (draw ds))) - count [ec_order C - 1] (fun ds => test (eg_rerandomize C pk c' (draw ds)))) <= 1.
Proof.
  intros C g x c c' L Ng Ed test pk. pose proof (order_gt1 C L) as N1. destruct (rerandomize_masked C L g x c _ Ng eq_refl) as (k & Hk & E).
  destruct (rerandomize_masked C L g x c' _ Ng eq_refl) as (k' & Hk' & E'). rewrite <- Ed in E'. set (m := eg_decrypt C x c) in *.
  set (F := fun z => if test (masked C g (pmul C x g) m z) then 1 else 0). cbn [count]. unfold draw. cbn [nth].
  rewrite (zsum_ext _ (fun d => if test (eg_rerandomize C pk c d) then 1 else 0) (fun d => F (d + 1 + k))).
  2:{ intros d Hd. rewrite Z2Nat.id in Hd by lia. unfold F, pk. rewrite (E d Hd). reflexivity. }
  rewrite (zsum_ext _ (fun d => if test (eg_rerandomize C pk c' d) then 1 else 0) (fun d => F (d + 1 + k'))).
  2:{ intros d Hd. rewrite Z2Nat.id in Hd by lia. unfold F, pk. rewrite (E' d Hd). reflexivity. }
  apply (shifted_close C L F); [|intros d; unfold F; destruct (test _); lia|lia|lia]. intros d _. unfold F. rewrite (masked_period C L). reflexivity.
Qed.
Print Assumptions C69_same_plaintext.
(** In particular two computations on ciphertexts with the same plaintext result, for a generated key. *)
Theorem C69_computations : forall C raw (e e' : expr C), ec_laws C -> plain e = plain e' -> forall test : eg_ct C -> bool,
  let pk := fst (eg_generate C raw) in
  Z.abs (count [ec_order C - 1] (fun ds => test (run pk (ERand e (draw ds)))) - count [ec_order C - 1] (fun ds => test (run pk (ERand e' (draw ds))))) <= 1.
Proof.
  intros C raw e e' L E test pk. pose proof (C35_expressions_decrypt C raw e L) as D. pose proof (C35_expressions_decrypt C raw e' L) as D'. pose proof (C35_key_pairs C raw L) as K.
  subst pk. destruct (eg_generate C raw) as [[g y] x]. cbn [fst eg_g eg_y] in *. destruct K as (_ & -> & Ng & _). cbn [run].
  apply (C69_same_plaintext C g x (run {| eg_g := g; eg_y := pmul C x g |} e) (run {| eg_g := g; eg_y := pmul C x g |} e') L Ng). rewrite D, D'. exact E.
Qed.
Print Assumptions C69_computations.
(** The bound one cannot be improved: the ciphertext itself never comes out. *)
Theorem C69_tight : forall C g x c, ec_laws C -> g <> pinf C -> forall d, 0 <= d < ec_order C - 1 -> eg_u C (eg_rerandomize C {| eg_g := g; eg_y := pmul C x g |} c d) <> eg_u C c.
Proof.
  intros C g x c L Ng d Hd E. unfold eg_rerandomize in E. cbn [eg_u eg_g] in E. rewrite (point_mul_eq C L), (key_draw C d Hd) in E.
  apply (pmul_not_inf C L (d + 1) g Ng); [rewrite Z.mod_small; lia|]. apply (add_cancel_l C L (eg_u C c)). rewrite E, (add_inf_r C L). reflexivity.
Qed.
Print Assumptions C69_tight.
Example C69_ex : let (pk, x) := eg_generate toy 41 in
  let a := EMul (EEnc (pgen toy) 7) (EEnc (pmul toy 3 (pgen toy)) 60) in let b := EExp (EEnc (pmul toy 2 (pgen toy)) 5) 2 in
  peqb toy (eg_decrypt toy x (run pk a)) (eg_decrypt toy x (run pk b)) = true /\ peqb toy (eg_u toy (run pk a)) (eg_u toy (run pk b)) = false /\
  peqb toy (plain a) (plain b) = true.
Proof. vm_compute. tauto. Qed.
