(** C21 simultaneous exponentiation, C22 bounded discrete logarithm. *)
From Verif Require Import Base M_BigNum M_Num L_Num M_Simul L_Simul S_Exp L_Exp M_EC L_EC L_Toy M_Shanks L_Shanks.

(** ** C21 *)

(** Over the integers modulo m: for every list of bases, every legal batch size and every list of non-negative
    exponents, the result is exactly the reduced product of powers. *)
Theorem C21_product_of_powers : forall m bases batch, 1 < m -> (1 <= batch <= length bases)%nat -> (batch <= 30)%nat ->
  exists t, simul_create Z (zn_mul m) bases 1 batch = Ok t /\
  forall es, length es = length bases -> Forall (fun e => 0 <= e) es ->
    simultaneous_exp Z (zn_mul m) zn_is_zero t es = Ok (multi_exp bases es mod m).
Proof.
  intros m bases batch Hm [H1 H2] H3. destruct (zn_simul m Hm bases batch H1 H2 ltac:(lia)) as (t & Et & Ht).
  exists t. split; [exact Et|]. intros es Hl Hp. rewrite (Ht es Hl). do 3 f_equal.
  clear -Hp. induction Hp; cbn [map]; [reflexivity|]. rewrite IHHp, Z.abs_eq by assumption. reflexivity.
Qed.
Print Assumptions C21_product_of_powers.
Example C21_ex : match simul_create Z (zn_mul 1000003) [12345; 678; 91011; 1213; 141516] 1 2 with
  | Ok t => simultaneous_exp Z (zn_mul 1000003) zn_is_zero t [1000; 0; 77; 65537; 3] = Ok (multi_exp [12345; 678; 91011; 1213; 141516] [1000; 0; 77; 65537; 3] mod 1000003)
  | _ => False end.
Proof.
  destruct (C21_product_of_powers 1000003 [12345; 678; 91011; 1213; 141516] 2 ltac:(lia) ltac:(cbn; lia) ltac:(lia)) as (t & Et & Ht).
  rewrite Et. apply Ht; [reflexivity|]. repeat (apply Forall_cons; [lia|]). apply Forall_nil.
Qed.
Example C21_ex_value : match simul_create Z (zn_mul 101) [2; 3; 5] 1 2 with
  | Ok t => simultaneous_exp Z (zn_mul 101) zn_is_zero t [10; 4; 3] = Ok 47 | _ => False end.
Proof. vm_compute. reflexivity. Qed.

(** The same for Montgomery numbers: converting the result back gives the reduced product of powers. *)
Theorem C21_product_of_powers_montgomery : forall m c xs bases one batch, 1 < m -> mont_context m = Ok c ->
  mont_create c 1 = Ok one -> mapM (mont_create c) xs = Ok bases -> (1 <= batch <= length xs)%nat -> (batch <= 30)%nat ->
  exists t, simul_create Z (mont_mul c) bases one batch = Ok t /\
  forall es, length es = length xs -> Forall (fun e => 0 <= e) es ->
    exists r, simultaneous_exp Z (mont_mul c) (mont_is_zero c) t es = Ok r /\ mont_to_bignum c r = multi_exp xs es mod m.
Proof.
  intros m c xs bases one batch Hm Ec Eo Eb [H1 H2] H3.
  assert (Ho : Z.odd m = true).
  { destruct (Z.odd m) eqn:E; [reflexivity|]. rewrite mont_context_bad in Ec by (right; exact E). discriminate. }
  destruct (mont_context_ok m ltac:(lia) Ho) as (c' & E & V & Emod). rewrite Ec in E. injection E as <-.
  assert (Hcr : forall x a, mont_create c x = Ok a -> mont_to_bignum c a = x /\ 0 <= x < m).
  { intros x a Ha. destruct (Z.le_gt_cases 0 x) as [Hx|Hx]; [destruct (Z.lt_ge_cases x m) as [Hx'|Hx']|].
    - destruct (mont_create_ok c x ltac:(lia)) as (a' & E & F). rewrite Ha in E. injection E as <-.
      rewrite (mont_to_bignum_form c a x V F), Emod. split; [apply Z.mod_small; lia|lia].
    - rewrite mont_create_bad in Ha by lia. discriminate.
    - rewrite mont_create_bad in Ha by lia. discriminate. }
  assert (Hbs : map (mont_to_bignum c) bases = xs).
  { clear -Eb Hcr. revert bases Eb. induction xs as [|x xs IH]; intros bases Eb; cbn [mapM] in Eb; [injection Eb as <-; reflexivity|].
    destruct (mont_create c x) as [a|c'| | |] eqn:Ea; try discriminate. cbn [bind] in Eb.
    destruct (mapM (mont_create c) xs) as [as'|c'| | |] eqn:Em; try discriminate. cbn [bind] in Eb. injection Eb as <-.
    cbn [map]. rewrite (proj1 (Hcr x a Ea)), (IH as' eq_refl). reflexivity. }
  assert (Hlen : length bases = length xs) by (rewrite <- Hbs, map_length; reflexivity).
  destruct (mont_simul m Hm c Emod bases one batch (proj1 (Hcr 1 one Eo)) H1 ltac:(lia) ltac:(lia)) as (t & Et & Ht).
  exists t. split; [exact Et|]. intros es Hl Hp. destruct (Ht es ltac:(lia)) as (r & Er & Vr). exists r. split; [exact Er|].
  rewrite Vr, Hbs. do 2 f_equal. clear -Hp. induction Hp; cbn [map]; [reflexivity|]. rewrite IHHp, Z.abs_eq by assumption. reflexivity.
Qed.
Print Assumptions C21_product_of_powers_montgomery.
Example C21_mont_ex : match (let* c := mont_context 101 in let* one := mont_create c 1 in let* bs := mapM (mont_create c) [2; 3; 5] in
    let* t := simul_create Z (mont_mul c) bs one 2 in let* r := simultaneous_exp Z (mont_mul c) (mont_is_zero c) t [10; 4; 3] in
    Ok (mont_to_bignum c r)) with Ok v => v = 47 | _ => False end.
Proof. vm_compute. reflexivity. Qed.

(** Illegal batch sizes and exponent lists of the wrong length are rejected. *)
Theorem C21_illegal_rejected : forall m bases batch es,
  (batch = 0%nat \/ (length bases < batch)%nat -> simul_create Z (zn_mul m) bases 1 batch = Err InvalidArgument) /\
  (forall t, simul_create Z (zn_mul m) bases 1 batch = Ok t -> length es <> length bases ->
     simultaneous_exp Z (zn_mul m) zn_is_zero t es = Err InvalidArgument).
Proof.
  intros m bases batch es. split.
  - intros [->|H]; [reflexivity|apply simul_create_many, H].
  - intros t Ht. apply simultaneous_exp_size with (1 := Ht).
Qed.
Print Assumptions C21_illegal_rejected.

(** Without the guard "at most 30" the claim "every batch size from 1 to the number of bases" is false: an int is
    shifted by 31 or more. *)
Theorem C21_large_batch_refuted : forall m bases batch, (31 <= batch <= length bases)%nat ->
  simul_create Z (zn_mul m) bases 1 batch = UB.
Proof. intros m bases batch [H1 H2]. apply simul_create_big; assumption. Qed.
Print Assumptions C21_large_batch_refuted.
Example C21_large_ex : simul_create Z (zn_mul 101) (repeat 2 31) 1 31 = UB.
Proof. apply C21_large_batch_refuted. rewrite repeat_length. lia. Qed.

(** A negative exponent is not rejected: its magnitude is used. *)
Theorem C21_negative_uses_magnitude : forall m bases batch, 1 < m -> (1 <= batch <= length bases)%nat -> (batch <= 30)%nat ->
  exists t, simul_create Z (zn_mul m) bases 1 batch = Ok t /\
  forall es, length es = length bases ->
    simultaneous_exp Z (zn_mul m) zn_is_zero t es = Ok (multi_exp bases (map Z.abs es) mod m).
Proof. intros m bases batch Hm [H1 H2] H3. apply zn_simul; (assumption || lia). Qed.
Print Assumptions C21_negative_uses_magnitude.

(** ** C22 *)

(** For every group, generator and parameters accepted by Create: GetDiscreteLog returns a correct logarithm below
    2^max, or reports InvalidArgument exactly when there is none. *)
Theorem C22_sound_and_exhaustive : forall C g max pre t P, ec_laws C -> shanks_create C g max pre = Ok t -> max - pre <= 30 ->
  (exists x, get_discrete_log C t P = Ok x /\ pmul C x g = P /\ 0 <= x < 2 ^ max) \/
  (get_discrete_log C t P = Err InvalidArgument /\ forall x, 0 <= x < 2 ^ max -> pmul C x g <> P).
Proof.
  intros C g max pre t P L Hc Hd. pose proof (get_discrete_log_spec C L g max pre t P Hc ltac:(lia)) as H.
  destruct (get_discrete_log C t P) as [x|[]| | |]; try contradiction; [left; exists x; auto|right; auto].
Qed.
Print Assumptions C22_sound_and_exhaustive.

(** When the group order exceeds 2^max, the logarithm of g^x is x, for all 0 <= x < 2^max. *)
Theorem C22_complete : forall C g max pre t x, ec_laws C -> g <> pinf C -> 2 ^ max <= ec_order C ->
  shanks_create C g max pre = Ok t -> max - pre <= 30 -> 0 <= x < 2 ^ max -> get_discrete_log C t (pmul C x g) = Ok x.
Proof.
  intros C g max pre t x L Hg Ho Hc Hd Hx.
  destruct (C22_sound_and_exhaustive C g max pre t (pmul C x g) L Hc Hd) as [(y & Ey & Py & Ry)|[_ Hn]].
  - rewrite Ey. f_equal. apply (pmul_inj_iff C L y x g Hg) in Py. rewrite !Z.mod_small in Py by lia. exact Py.
  - exfalso. apply (Hn x Hx). reflexivity.
Qed.
Print Assumptions C22_complete.

(** Create accepts every reasonable choice and rejects the documented bad ones. *)
Theorem C22_create : forall C g max pre, ec_laws C ->
  (0 <= pre <= 30 -> pre < max <= 40 -> g <> pinf C -> 2 ^ pre <= ec_order C -> exists t, shanks_create C g max pre = Ok t) /\
  (max <= pre \/ 40 < max -> shanks_create C g max pre = Err InvalidArgument).
Proof.
  intros C g max pre L. split.
  - intros H1 H2 H3 H4. apply shanks_create_total; (assumption || lia).
  - intros H. unfold shanks_create, max_message_size. destruct (Z.leb_spec max pre); [reflexivity|]. destruct (Z.ltb_spec 40 max); [reflexivity|lia].
Qed.
Print Assumptions C22_create.

(** Create accepts parameters more than 30 bits apart, for which every lookup shifts an int by 31 or more. *)
Theorem C22_wide_gap_refuted : forall C g max pre t P, ec_laws C -> shanks_create C g max pre = Ok t -> 31 <= max - pre ->
  get_discrete_log C t P = UB.
Proof. intros C g max pre t P L. apply get_discrete_log_big. exact L. Qed.
Print Assumptions C22_wide_gap_refuted.
Example C22_wide_gap_ex : match shanks_create toy (pgen toy) 40 3 with Ok t => get_discrete_log toy t (pgen toy) = UB | _ => False end.
Proof. vm_compute. reflexivity. Qed.

Example C22_ex : match shanks_create toy (pgen toy) 6 3 with Ok t => get_discrete_log toy t (pmul toy 51 (pgen toy)) = Ok 51 | _ => False end.
Proof. vm_compute. reflexivity. Qed.
Example C22_ex_none : match shanks_create toy (pgen toy) 6 3 with Ok t => get_discrete_log toy t (pmul toy 70 (pgen toy)) = Err InvalidArgument | _ => False end.
Proof. vm_compute. reflexivity. Qed.
