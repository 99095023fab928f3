(** Lemmas about decimal conversion. *)
From Verif Require Import Base M_Dec.

Lemma dec_value_app s t : dec_value (s ++ t) = dec_value s * 10 ^ Z.of_nat (length t) + dec_value t.
Proof.
  unfold dec_value. rewrite fold_left_app.
  generalize (fold_left (fun acc b => acc * 10 + (bz b - 48)) s 0). intros a.
  assert (H : forall t a, fold_left (fun acc b => acc * 10 + (bz b - 48)) t a =
    a * 10 ^ Z.of_nat (length t) + fold_left (fun acc b => acc * 10 + (bz b - 48)) t 0).
  { clear. induction t as [|b t IH]; intros a; cbn [fold_left length].
    - change (10 ^ Z.of_nat 0) with 1. lia.
    - rewrite IH. rewrite (IH (0 * 10 + (bz b - 48))). rewrite Nat2Z.inj_succ, Z.pow_succ_r by lia. ring. }
  apply H.
Qed.

Lemma dec_value_cons b s : dec_value (b :: s) = (bz b - 48) * 10 ^ Z.of_nat (length s) + dec_value s.
Proof. change (b :: s) with ([b] ++ s). rewrite dec_value_app. unfold dec_value at 1. cbn [fold_left]. lia. Qed.

Lemma dec_digits_spec fuel n acc : 0 <= n < 2 ^ Z.of_nat fuel -> (1 <= fuel)%nat ->
  exists d, dec_digits fuel n acc = d ++ acc /\ d <> [] /\ forallb is_digit d = true /\ dec_value d = n.
Proof.
  revert n acc; induction fuel as [|k IH]; intros n acc Hn Hf; [lia|].
  cbn [dec_digits]. destruct (Z.ltb_spec n 10) as [Hlt|Hge].
  - exists [zb (48 + n)]. split; [reflexivity|]. split; [discriminate|].
    assert (E : bz (zb (48 + n)) = 48 + n) by (rewrite bz_zb; apply Z.mod_small; lia).
    split.
    + cbn [forallb]. unfold is_digit. rewrite E. destruct (Z.leb_spec 48 (48 + n)), (Z.leb_spec (48 + n) 57); cbn; lia.
    + unfold dec_value. cbn [fold_left]. lia.
  - destruct k as [|k].
    { change (2 ^ Z.of_nat 1) with 2 in Hn. lia. }
    assert (Hq : 0 <= n / 10 < 2 ^ Z.of_nat (S k)).
    { split; [apply Z.div_pos; lia|]. apply Z.div_lt_upper_bound; [lia|].
      rewrite (Nat2Z.inj_succ (S k)), Z.pow_succ_r in Hn by lia. lia. }
    destruct (IH (n / 10) (zb (48 + n mod 10) :: acc) Hq ltac:(lia)) as (d & E & Hd & Hdig & Hv).
    exists (d ++ [zb (48 + n mod 10)]). rewrite E, <- app_assoc. cbn [app].
    split; [reflexivity|]. split; [destruct d; discriminate|].
    pose proof (Z.mod_pos_bound n 10 ltac:(lia)) as Hm.
    assert (Eb : bz (zb (48 + n mod 10)) = 48 + n mod 10) by (rewrite bz_zb; apply Z.mod_small; lia).
    split.
    + rewrite forallb_app, Hdig. cbn [forallb andb]. unfold is_digit. rewrite Eb.
      destruct (Z.leb_spec 48 (48 + n mod 10)), (Z.leb_spec (48 + n mod 10) 57); cbn; lia.
    + rewrite dec_value_app, Hv. cbn [length]. change (10 ^ Z.of_nat 1) with 10.
      unfold dec_value. cbn [fold_left]. pose proof (Z.div_mod n 10 ltac:(lia)). lia.
Qed.

Lemma dec_nonneg n : 0 <= n -> dec n <> [] /\ forallb is_digit (dec n) = true /\ dec_value (dec n) = n.
Proof.
  intros Hn. unfold dec. destruct (Z.ltb_spec n 0); [lia|].
  assert (Hf : 0 <= n < 2 ^ Z.of_nat (dec_fuel n)).
  { split; [lia|]. unfold dec_fuel. rewrite Nat2Z.inj_succ, Z2Nat.id by apply Z.log2_nonneg.
    destruct (Z.eq_dec n 0) as [->|]; [reflexivity|]. apply Z.log2_spec; lia. }
  destruct (dec_digits_spec (dec_fuel n) n [] Hf ltac:(unfold dec_fuel; lia)) as (d & E & H1 & H2 & H3).
  rewrite E, app_nil_r. auto.
Qed.

Lemma dec_inj_nonneg n m : 0 <= n -> 0 <= m -> dec n = dec m -> n = m.
Proof.
  intros Hn Hm E. destruct (dec_nonneg n Hn) as (_ & _ & <-). destruct (dec_nonneg m Hm) as (_ & _ & <-).
  rewrite E. reflexivity.
Qed.

Lemma digit_not_space b : is_digit b = true -> is_space b = false.
Proof.
  unfold is_digit, is_space. pose proof (bz_range b).
  destruct (Z.leb_spec 48 (bz b)), (Z.leb_spec (bz b) 57), (Z.eqb_spec (bz b) 32), (Z.leb_spec 9 (bz b)),
    (Z.leb_spec (bz b) 13); cbn; congruence || lia.
Qed.

Lemma strip_space_clean s : (forall b t, s = b :: t -> is_space b = false) ->
  (forall b t, s = t ++ [b] -> is_space b = false) -> strip_space s = s.
Proof.
  intros H1 H2. unfold strip_space.
  assert (E : drop_space s = s).
  { destruct s as [|b t]; [reflexivity|]. cbn [drop_space]. rewrite (H1 b t eq_refl). reflexivity. }
  rewrite E. destruct (rev s) as [|b t] eqn:R.
  - apply (f_equal (@rev byte)) in R. rewrite rev_involutive in R. subst. reflexivity.
  - cbn [drop_space]. assert (S : s = rev t ++ [b]).
    { rewrite <- (rev_involutive s), R. reflexivity. }
    rewrite (H2 b (rev t) S). rewrite <- R, rev_involutive. reflexivity.
Qed.

Lemma forallb_last {A} (p : A -> bool) s x : forallb p (s ++ [x]) = true -> p x = true.
Proof. rewrite forallb_app. cbn. rewrite !andb_true_iff. tauto. Qed.

Lemma simple_atoi64_dec n : 0 <= n < 2 ^ 63 -> simple_atoi64 (dec n) = Some n.
Proof.
  intros Hn. destruct (dec_nonneg n) as (H1 & H2 & H3); [lia|].
  unfold simple_atoi64.
  rewrite strip_space_clean.
  - destruct (dec n) as [|b s] eqn:E; [congruence|].
    assert (Hb : is_digit b = true) by (cbn in H2; apply andb_true_iff in H2; tauto).
    assert (Hm : byte_eqb b x2d = false) by (destruct (byte_eqb b x2d) eqn:Q; [apply byte_eqb_eq in Q; subst; discriminate|reflexivity]).
    assert (Hp : byte_eqb b x2b = false) by (destruct (byte_eqb b x2b) eqn:Q; [apply byte_eqb_eq in Q; subst; discriminate|reflexivity]).
    rewrite Hm, Hp, H2, H3.
    destruct (Z.leb_spec (- 2 ^ 63) n), (Z.ltb_spec n (2 ^ 63)); cbn [andb]; try lia. reflexivity.
  - intros b t E. apply digit_not_space. rewrite E in H2. cbn in H2. apply andb_true_iff in H2. tauto.
  - intros b t E. apply digit_not_space. rewrite E in H2. eapply forallb_last; exact H2.
Qed.
