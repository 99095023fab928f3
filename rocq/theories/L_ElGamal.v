(** Lemmas about ElGamal. *)
From Coq Require Import Permutation.
From Verif Require Import Base M_BigNum L_BigNum L_Mod L_DJ M_EC L_EC M_ElGamal S_ElGamal M_Cipher S_Cipher L_Cipher.

Section EG.
Variable C : ec.
Hypothesis L : ec_laws C.
Notation "P [+] Q" := (padd C P Q) (at level 50, left associativity).
Notation "k [*] P" := (pmul C k P) (at level 40).

(** The two components are related by e = m + x u. *)
Definition encrypts (x : Z) (c : eg_ct C) (m : pt C) : Prop := eg_e C c = m [+] (x [*] eg_u C c).

Lemma decrypt_encrypts x c m : encrypts x c m <-> eg_decrypt C x c = m.
Proof.
  unfold encrypts, eg_decrypt. rewrite (point_mul_eq C L). set (X := x [*] eg_u C c). split.
  - intros ->. rewrite <- (padd_assoc C L), (padd_neg C L), (add_inf_r C L). reflexivity.
  - intros <-. rewrite <- (padd_assoc C L), (add_neg_l C L), (add_inf_r C L). reflexivity.
Qed.
Lemma encrypts_enc x g m raw : encrypts x (eg_encrypt C {| eg_g := g; eg_y := x [*] g |} m raw) m.
Proof.
  unfold encrypts, eg_encrypt. cbn [eg_g eg_y eg_u eg_e]. rewrite !(point_mul_eq C L). f_equal. rewrite <- !(pmul_mul C L). f_equal. lia.
Qed.
Lemma encrypts_run x g e : encrypts x (run {| eg_g := g; eg_y := x [*] g |} e) (plain e).
Proof.
  induction e as [m raw| |a IHa b IHb|a IH k|a IH raw]; cbn [run plain].
  - apply encrypts_enc.
  - unfold encrypts, eg_zero. cbn [eg_u eg_e]. rewrite (pmul_inf C L), (padd_inf C L). reflexivity.
  - unfold encrypts, eg_mul in *. cbn [eg_u eg_e]. rewrite IHa, IHb, (pmul_add_pt C L). apply (add_swap C L).
  - unfold encrypts, eg_exp in *. cbn [eg_u eg_e]. rewrite !(point_mul_eq C L), IH, (pmul_add_pt C L). f_equal. rewrite <- !(pmul_mul C L). f_equal. lia.
  - unfold encrypts, eg_rerandomize in *. cbn [eg_u eg_e eg_g eg_y]. rewrite !(point_mul_eq C L), IH, (pmul_add_pt C L), <- (padd_assoc C L). f_equal. f_equal.
    rewrite <- !(pmul_mul C L). f_equal. lia.
Qed.

(** *** Shares *)
Definition zsum_list (xs : list Z) : Z := fold_right Z.add 0 xs.
Lemma zsum_perm xs ys : Permutation xs ys -> zsum_list xs = zsum_list ys.
Proof. induction 1; cbn [zsum_list fold_right]; try fold (zsum_list l) (zsum_list l'); try fold (zsum_list l); lia. Qed.
Lemma zsum_app xs ys : zsum_list (xs ++ ys) = zsum_list xs + zsum_list ys.
Proof. induction xs as [|a xs IH]; cbn [app zsum_list fold_right]; [fold (zsum_list ys); lia|]. fold (zsum_list (xs ++ ys)) (zsum_list xs). lia. Qed.
Lemma shares_loop_ok g xs : forall y, eg_shares_loop C g y (map (fun x => {| eg_g := g; eg_y := x [*] g |}) xs) = Ok (y [+] (zsum_list xs [*] g)).
Proof.
  induction xs as [|x xs IH]; intros y; cbn [map eg_shares_loop zsum_list fold_right].
  - rewrite (pmul_0 C), (add_inf_r C L). reflexivity.
  - cbn [eg_g eg_y]. rewrite (proj2 (peqb_spec C L g g) eq_refl). cbn [negb]. fold (zsum_list xs). rewrite IH. f_equal. rewrite (pmul_add C L). symmetry. apply (padd_assoc C L).
Qed.
Lemma shares_loop_mixed g y ss : (exists s, In s ss /\ eg_g C s <> g) -> eg_shares_loop C g y ss = Crash.
Proof.
  revert y. induction ss as [|s ss IH]; intros y (t & Hin & Hne); [contradiction|]. cbn [eg_shares_loop]. destruct (peqb C g (eg_g C s)) eqn:E; cbn [negb]; [|reflexivity].
  apply (peqb_spec C L) in E. destruct Hin as [->|Hin]; [congruence|]. apply IH. eauto.
Qed.
Lemma shares_loop_same g y ss : (forall s, In s ss -> eg_g C s = g) -> exists y', eg_shares_loop C g y ss = Ok y'.
Proof.
  revert y. induction ss as [|s ss IH]; intros y Hs; cbn [eg_shares_loop]; [eauto|]. rewrite (proj2 (peqb_spec C L g _) (eq_sym (Hs s (or_introl eq_refl)))). cbn [negb].
  apply IH. intros t Ht. apply Hs. right. exact Ht.
Qed.
Lemma partial_all_spec xs : forall c z m, encrypts (zsum_list xs + z) c m -> eg_u C (partial_all C xs c) = eg_u C c /\ encrypts z (partial_all C xs c) m.
Proof.
  induction xs as [|x xs IH]; intros c z m E; cbn [partial_all fold_left]; [split; [reflexivity|exact E]|]. fold (partial_all C xs (eg_partial C x c)).
  destruct (IH (eg_partial C x c) z m) as [Hu He]; [|split; [exact Hu|exact He]].
  unfold encrypts, eg_partial, eg_decrypt in *. cbn [eg_u eg_e]. rewrite E, (point_mul_eq C L). cbn [zsum_list fold_right]. fold (zsum_list xs).
  replace (x + zsum_list xs + z) with ((zsum_list xs + z) + x) by ring. rewrite (pmul_add C L). rewrite <- !(padd_assoc C L), (padd_neg C L), (add_inf_r C L). reflexivity.
Qed.
Lemma encrypts_0 c m : encrypts 0 c m -> eg_e C c = m.
Proof. unfold encrypts. rewrite (pmul_0 C), (add_inf_r C L). tauto. Qed.

Lemma ct_bytes_inv c b : ct_to_bytes C c = Ok b -> eg_u C c <> pinf C /\ eg_e C c <> pinf C /\ b = (ec_enc C (eg_u C c), ec_enc C (eg_e C c)).
Proof.
  intros E. unfold ct_to_bytes in E. apply bind_ok in E. destruct E as (u & Eu & E). apply bind_ok in E. destruct E as (e & Ee & E).
  apply (point_to_bytes_inv C L) in Eu, Ee. destruct Eu as [Nu ->], Ee as [Ne ->]. split; [exact Nu|]. split; [exact Ne|]. congruence.
Qed.
Lemma ct_bytes_ok c : eg_u C c <> pinf C -> eg_e C c <> pinf C -> ct_to_bytes C c = Ok (ec_enc C (eg_u C c), ec_enc C (eg_e C c)).
Proof. intros Hu He. unfold ct_to_bytes. rewrite !(point_to_bytes_ok C L) by assumption. reflexivity. Qed.
Lemma point_of_bytes_cases s : (exists P, point_of_bytes C s = Ok P /\ P <> pinf C) \/ point_of_bytes C s = Err InvalidArgument.
Proof.
  unfold point_of_bytes. destruct (ec_dec C s) as [P|]; [|tauto]. destruct (is_inf C P) eqn:E; [tauto|]. left. exists P. split; [reflexivity|apply (is_inf_false C L), E].
Qed.
End EG.
