(** Simultaneous exponentiation over Z/m, plain and in Montgomery form. *)
From Coq Require Import Eqdep_dec.
From Verif Require Import Base M_BigNum L_BigNum L_Mod M_Num L_Num M_Simul L_Simul S_Exp.

Section Residues.
Variable m : Z.
Hypothesis Hm : 1 < m.
Definition res := { x : Z | x mod m =? x = true }.
Lemma res_mod x : x mod m mod m =? x mod m = true.
Proof. apply Z.eqb_eq. apply Z.mod_mod. lia. Qed.
Definition to_res (x : Z) : res := exist _ (x mod m) (res_mod x).
Lemma res_eq (a b : res) : proj1_sig a = proj1_sig b -> a = b.
Proof. destruct a as [a Ha], b as [b Hb]. cbn. intros ->. f_equal. apply UIP_dec, Bool.bool_dec. Qed.
Definition res_op (a b : res) : res := to_res (proj1_sig a * proj1_sig b).
Definition res_one : res := to_res 1.

Lemma res_assoc a b c : res_op a (res_op b c) = res_op (res_op a b) c.
Proof.
  apply res_eq. cbn. rewrite Z.mul_mod_idemp_r, Z.mul_mod_idemp_l by lia. f_equal. lia.
Qed.
Lemma res_comm a b : res_op a b = res_op b a.
Proof. apply res_eq. cbn. f_equal. lia. Qed.
Lemma res_op_one a : res_op res_one a = a.
Proof.
  apply res_eq. cbn. rewrite Z.mod_1_l by lia. rewrite Z.mul_1_l. destruct a as [a Ha]. cbn. apply Z.eqb_eq, Ha.
Qed.
Lemma to_res_mul a b : to_res (a * b) = res_op (to_res a) (to_res b).
Proof. apply res_eq. cbn. apply Z.mul_mod. lia. Qed.
Lemma to_res_mod a : to_res (a mod m) = to_res a.
Proof. apply res_eq. cbn. apply Z.mod_mod. lia. Qed.
Lemma to_res_eq a b : to_res a = to_res b <-> a mod m = b mod m.
Proof. split; [intros H; exact (f_equal (@proj1_sig _ _) H)|intros H; apply res_eq; exact H]. Qed.
Lemma to_res_pow a n : mpow res res_op res_one (to_res a) n = to_res (a ^ Z.of_nat n).
Proof.
  induction n as [|n IH]; [reflexivity|]. cbn [mpow]. rewrite IH, <- to_res_mul, Nat2Z.inj_succ, Z.pow_succ_r by lia. reflexivity.
Qed.

Lemma prod_pow_multi {A} (f : A -> Z) (bs : list A) es :
  prod_pow A res res_op res_one (fun x => to_res (f x)) bs (map (fun e => Z.to_nat (Z.abs e)) es) =
  to_res (multi_exp (map f bs) (map Z.abs es)).
Proof.
  revert es. induction bs as [|b bs IH]; intros [|e es]; cbn [map prod_pow multi_exp]; try reflexivity.
  rewrite IH, to_res_pow, <- to_res_mul. rewrite Z2Nat.id by lia. reflexivity.
Qed.

(** *** Integers modulo m *)
Lemma zn_v_mul a b : to_res (zn_mul m a b) = res_op (to_res a) (to_res b).
Proof. unfold zn_mul. rewrite to_res_mod. apply to_res_mul. Qed.
Lemma zn_v_zero a : zn_is_zero a = true -> to_res a = res_one.
Proof. intros H. apply Z.eqb_eq in H. subst. reflexivity. Qed.

Lemma loop_range (P : Z -> Prop) mul t : (forall a b, P (mul a b)) -> forall cnt j i es r r', P r ->
  batch_loop Z mul t cnt j i es r = Ok r' -> P r'.
Proof.
  intros HP. induction cnt as [|cnt IH]; intros j i es r r' Hr E; cbn [batch_loop] in E; [injection E as <-; exact Hr|].
  destruct (pre_index _ _ _ _ _ _) as [idx|c'| | |]; try discriminate. cbn [bind] in E. destruct (idx =? 0)%nat.
  - eapply IH; [|exact E]. exact Hr.
  - destruct (nth_error (sm_table Z t) j) as [row|]; [|discriminate]. destruct (nth_error row idx) as [e|]; [|discriminate].
    eapply IH; [|exact E]. apply HP.
Qed.
Lemma bit_loop_range (P : Z -> Prop) mul iz t : (forall a b, P (mul a b)) -> forall n es r r', P r ->
  bit_loop Z mul iz t n es r = Ok r' -> P r'.
Proof.
  intros HP. induction n as [|n IH]; intros es r r' Hr E; cbn [bit_loop] in E; [injection E as <-; exact Hr|].
  destruct (batch_loop _ _ _ _ _ _ _ _) as [r1|c'| | |] eqn:Eb; try discriminate. cbn [bind] in E.
  eapply IH; [|exact E]. eapply loop_range; [exact HP| |exact Eb]. destruct (iz r); [exact Hr|apply HP].
Qed.

Lemma zn_simul bases ns : (1 <= ns)%nat -> (ns <= length bases)%nat -> (ns < 31)%nat ->
  exists t, simul_create Z (zn_mul m) bases 1 ns = Ok t /\
  forall es, length es = length bases ->
    simultaneous_exp Z (zn_mul m) zn_is_zero t es = Ok (multi_exp bases (map Z.abs es) mod m).
Proof.
  intros H1 H2 H31.
  destruct (simul_create_ok Z (zn_mul m) res res_op res_one to_res res_assoc res_comm res_op_one zn_v_mul
              bases 1 ns H1 H2 H31) as (t & Et & Ht).
  exists t. split; [exact Et|]. intros es Hes.
  destruct (simultaneous_exp_ok Z (zn_mul m) zn_is_zero res res_op res_one to_res res_assoc res_comm res_op_one zn_v_mul zn_v_zero
              bases 1 ns t es eq_refl Ht H1 H31 Hes) as (r & Er & Vr).
  rewrite Er. f_equal.
  assert (Hr : 0 <= r < m).
  { unfold simultaneous_exp in Er. destruct (negb _); [discriminate|]. destruct Ht as (_ & _ & Hz & _).
    eapply (bit_loop_range (fun x => 0 <= x < m)); [| |exact Er].
    - intros a b. apply Z.mod_pos_bound. lia.
    - rewrite Hz. lia. }
  pose proof (prod_pow_multi (fun x => x) bases es) as Hp. cbn beta in Hp. rewrite map_id in Hp. assert (V2 := eq_trans Vr Hp). clear Vr. rename V2 into Vr.
  apply to_res_eq in Vr. rewrite <- Vr. symmetry. apply Z.mod_small, Hr.
Qed.

(** *** Montgomery form *)
Variable c : mont_ctx.
Hypothesis Hc : mc_modulus c = m.
Definition mv (a : Z) : res := to_res (mont_to_bignum c a).
Lemma mont_v_mul a b : mv (mont_mul c a b) = res_op (mv a) (mv b).
Proof.
  unfold mv. rewrite <- to_res_mul. apply to_res_eq. unfold mont_to_bignum, mont_mul. rewrite Hc.
  rewrite Z.mul_mod_idemp_l by lia. rewrite Z.mod_mod by lia. rewrite <- Z.mul_mod by lia. f_equal. lia.
Qed.
Lemma mont_v_zero a : mont_is_zero c a = true -> mv a = res_one.
Proof. unfold mont_is_zero, mv. intros H. apply Z.eqb_eq in H. rewrite H. reflexivity. Qed.

Lemma mont_simul bases one ns : mont_to_bignum c one = 1 -> (1 <= ns)%nat -> (ns <= length bases)%nat -> (ns < 31)%nat ->
  exists t, simul_create Z (mont_mul c) bases one ns = Ok t /\
  forall es, length es = length bases ->
    exists r, simultaneous_exp Z (mont_mul c) (mont_is_zero c) t es = Ok r /\
      mont_to_bignum c r = multi_exp (map (mont_to_bignum c) bases) (map Z.abs es) mod m.
Proof.
  intros Ho H1 H2 H31.
  destruct (simul_create_ok Z (mont_mul c) res res_op res_one mv res_assoc res_comm res_op_one mont_v_mul
              bases one ns H1 H2 H31) as (t & Et & Ht).
  exists t. split; [exact Et|]. intros es Hes.
  assert (Hone : mv one = res_one) by (unfold mv; rewrite Ho; reflexivity).
  destruct (simultaneous_exp_ok Z (mont_mul c) (mont_is_zero c) res res_op res_one mv res_assoc res_comm res_op_one mont_v_mul mont_v_zero
              bases one ns t es Hone Ht H1 H31 Hes) as (r & Er & Vr).
  exists r. split; [exact Er|]. unfold mv in Vr. rewrite (prod_pow_multi (mont_to_bignum c)) in Vr. apply to_res_eq in Vr.
  rewrite <- Vr. symmetry. apply Z.mod_small. unfold mont_to_bignum. rewrite Hc. apply Z.mod_pos_bound. lia.
Qed.
End Residues.

Lemma simul_create_zero E mul bases (zero : E) : simul_create E mul bases zero 0 = Err InvalidArgument.
Proof. reflexivity. Qed.
Lemma simul_create_many E mul bases (zero : E) ns : (length bases < ns)%nat -> simul_create E mul bases zero ns = Err InvalidArgument.
Proof.
  intros H. unfold simul_create. destruct (Nat.eqb_spec ns 0); [reflexivity|]. destruct (Nat.ltb_spec (length bases) ns); [reflexivity|lia].
Qed.
Lemma simul_create_big E mul bases (zero : E) ns : (31 <= ns)%nat -> (ns <= length bases)%nat -> simul_create E mul bases zero ns = UB.
Proof.
  intros H1 H2. unfold simul_create. destruct (Nat.eqb_spec ns 0); [lia|]. destruct (Nat.ltb_spec (length bases) ns); [lia|].
  unfold precompute. destruct ((length bases + ns - 1) / ns)%nat as [|nb] eqn:En.
  - apply Nat.div_small_iff in En; lia.
  - cbn [seq mapM]. rewrite pre_batch_big by lia. reflexivity.
Qed.
Lemma simultaneous_exp_size E mul iz bases (zero : E) ns t es : simul_create E mul bases zero ns = Ok t -> length es <> length bases ->
  simultaneous_exp E mul iz t es = Err InvalidArgument.
Proof.
  intros Hc Hn. unfold simul_create in Hc. destruct (ns =? 0)%nat; [discriminate|]. destruct (length bases <? ns)%nat; [discriminate|].
  destruct (precompute _ _ _ _ _ _) as [tb|c'| | |]; try discriminate. cbn [bind] in Hc. injection Hc as <-.
  unfold simultaneous_exp. cbn [sm_bases]. destruct (Nat.eqb_spec (length es) (length bases)); [contradiction|reflexivity].
Qed.
