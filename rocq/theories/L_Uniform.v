(** Lemmas about processes without bias. *)
From Coq Require Import Znumtheory.
From Verif Require Import Base M_BigNum L_BigNum M_Num L_Mod L_NT L_Num L_DJ M_DJ M_Paillier S_Paillier L_Paillier L_PaillierKey S_Hide L_Hide L_HideKey L_HideMix L_HideView S_Ddh L_Ddh S_Uniform S_PubHide L_PubHide.

Lemma same_list_iff xs ys : same_list xs ys = true <-> xs = ys.
Proof. unfold same_list. destruct (list_eq_dec Z.eq_dec xs ys); split; congruence. Qed.
Lemma same_pair_iff x y : same_pair x y = true <-> x = y.
Proof.
  destruct x as [a l], y as [b m]. unfold same_pair. cbn [fst snd]. rewrite Bool.andb_true_iff, Z.eqb_eq, same_list_iff. split; [intros [-> ->]; reflexivity|intros E; injection E; auto].
Qed.

(** With the number in view. *)
Definition uniform {A} same k bounds (process : list Z -> outcome A) (good : A -> Prop) : Prop :=
  0 < k /\ (forall a, good a -> frequency same bounds process a = k) /\ (forall a, ~ good a -> frequency same bounds process a = 0).
Lemma uniform_unbiased {A} same k bounds (process : list Z -> outcome A) good : uniform same k bounds process good -> unbiased same bounds process good.
Proof. intros H. exists k. exact H. Qed.
Lemma frequency_ext {A} same bounds (f g : list Z -> outcome A) a : (forall ds, drawn bounds ds -> f ds = g ds) -> frequency same bounds f a = frequency same bounds g a.
Proof. intros H. unfold frequency. apply count_ext. intros ds _ D. rewrite H by exact D. reflexivity. Qed.
Lemma uniform_ext {A} same k bounds (f g : list Z -> outcome A) good : (forall ds, drawn bounds ds -> f ds = g ds) -> uniform same k bounds g good -> uniform same k bounds f good.
Proof. intros H (H1 & H2 & H3). split; [exact H1|]. split; intros a Ha; rewrite (frequency_ext same bounds f g a H); auto. Qed.
Lemma zsums_zero bs f : (forall ds, drawn bs ds -> f ds = 0) -> zsums bs f = 0.
Proof.
  revert f. induction bs as [|b bs IH]; intros f H; cbn [zsums]; [apply H; constructor|]. rewrite (zsum_ext _ _ (fun _ => 0)); [rewrite zsum_const; lia|].
  intros d Hd. apply IH. intros ds D. apply H. constructor; [lia|exact D].
Qed.

(** One process after another. *)
Section Both.
Context {A B R : Type}.
Variable sameA : A -> A -> bool.
Variable sameB : B -> B -> bool.
Variable sameR : R -> R -> bool.
Variable mk : A -> B -> R.
Variables bs1 bs2 : list Z.
Variable f : list Z -> outcome A.
Variable g : list Z -> outcome B.
Hypothesis SR : forall a b a' b', sameR (mk a b) (mk a' b') = sameA a a' && sameB b b'.
Definition both (ds : list Z) : outcome R := let* a := f (firstn (length bs1) ds) in let* b := g (skipn (length bs1) ds) in Ok (mk a b).
Lemma both_frequency a b : frequency sameR (bs1 ++ bs2) both (mk a b) = frequency sameA bs1 f a * frequency sameB bs2 g b.
Proof.
  unfold frequency. rewrite count_app, (count_zsums bs1), Z.mul_comm, zsums_scale. apply zsums_ext. intros p Hp. apply drawn_len in Hp.
  rewrite (count_ext bs2 _ (fun q => match f p with Ok a' => sameA a' a && gives sameB (g q) b | _ => false end)).
  - destruct (f p) as [a'|?| | | ]; cbn [gives].
    2,3,4,5: rewrite Z.mul_0_r, count_zsums; apply zsums_zero; reflexivity.
    destruct (sameA a' a); cbn [andb gives]; [rewrite Z.mul_1_r; reflexivity|]. rewrite Z.mul_0_r, count_zsums. apply zsums_zero. reflexivity.
  - intros q _ _. unfold both. rewrite firstn_len_app, skipn_len_app by exact Hp. destruct (f p) as [a'|?| | | ]; cbn [bind]; try reflexivity.
    destruct (g q) as [b'|?| | | ]; cbn [bind gives]; rewrite ?Bool.andb_false_r; try reflexivity. apply SR.
Qed.
End Both.

Lemma tuples_repeat b l : tuples (repeat b l) = b ^ Z.of_nat l.
Proof.
  induction l as [|l IH]; [reflexivity|]. cbn [repeat tuples fold_right]. fold (tuples (repeat b l)). rewrite IH, Nat2Z.inj_succ, Z.pow_succ_r by lia. reflexivity.
Qed.

(** ** Numbers prime to n *)
Section Units.
Variable n : Z.
Hypothesis Hn : 1 < n.
Definition is_unit (x : Z) : bool := Z.gcd x n =? 1.
(** The number of draws, among [t], that end at any one unit. *)
Fixpoint ends (t : nat) : Z := match t with O => 0 | S k => n ^ Z.of_nat k + zsum (Z.to_nat n) (fun d => if is_unit d then 0 else 1) * ends k end.
Lemma zsum_nonneg m f : (forall d, 0 <= d < Z.of_nat m -> 0 <= f d) -> 0 <= zsum m f.
Proof. induction m as [|m IH]; intros H; cbn [zsum]; [lia|]. specialize (IH ltac:(intros; apply H; lia)). specialize (H (Z.of_nat m) ltac:(lia)). lia. Qed.
Lemma ends_nonneg t : 0 <= ends t.
Proof.
  induction t as [|t IH]; cbn [ends]; [lia|]. pose proof (zsum_nonneg (Z.to_nat n) (fun d => if is_unit d then 0 else 1) ltac:(intros d _; cbn beta; destruct (is_unit d); lia)) as Q.
  pose proof (Z.pow_nonneg n (Z.of_nat t) ltac:(lia)). nia.
Qed.
Lemma ends_pos t : (0 < t)%nat -> 0 < ends t.
Proof.
  destruct t as [|t]; [lia|]. intros _. cbn [ends]. pose proof (zsum_nonneg (Z.to_nat n) (fun d => if is_unit d then 0 else 1) ltac:(intros d _; cbn beta; destruct (is_unit d); lia)) as Q.
  pose proof (Z.pow_pos_nonneg n (Z.of_nat t) ltac:(lia) ltac:(lia)). pose proof (ends_nonneg t). nia.
Qed.
Lemma zsum_lin m a b f g : zsum m (fun d => a * f d + b * g d) = a * zsum m f + b * zsum m g.
Proof. induction m as [|m IH]; cbn [zsum]; [lia|]. rewrite IH. ring. Qed.
Lemma first_unit_count (T : Z -> bool) t : count (repeat n t) (fun ds => match first_unit n ds with Some x => T x | None => false end) =
  ends t * zsum (Z.to_nat n) (fun x => if is_unit x && T x then 1 else 0).
Proof.
  induction t as [|t IH]; [reflexivity|]. cbn [repeat count ends]. set (W := zsum (Z.to_nat n) (fun x => if is_unit x && T x then 1 else 0)) in *.
  rewrite (zsum_ext _ _ (fun d => n ^ Z.of_nat t * (fun x => if is_unit x && T x then 1 else 0) d + ends t * W * (fun d => if is_unit d then 0 else 1) d)).
  - rewrite zsum_lin. fold W. ring.
  - intros d _. cbn [first_unit find]. fold (is_unit d). destruct (is_unit d) eqn:E; cbn [andb].
    + destruct (T d); rewrite count_zsums.
      * rewrite (zsums_const (repeat n t) 1), tuples_repeat by (apply Forall_forall; intros b Hb; apply repeat_spec in Hb; lia). lia.
      * rewrite zsums_zero by reflexivity. lia.
    + etransitivity; [exact IH|]. lia.
Qed.
End Units.

Lemma zsum_single m a (T : Z -> bool) : zsum m (fun x => if T x && (x =? a) then 1 else 0) = if T a && (0 <=? a) && (a <? Z.of_nat m) then 1 else 0.
Proof.
  induction m as [|m IH]; cbn [zsum].
  - destruct (Z.leb_spec 0 a), (Z.ltb_spec a (Z.of_nat 0)); rewrite ?Bool.andb_false_r; try reflexivity; lia.
  - rewrite IH. destruct (Z.eqb_spec (Z.of_nat m) a) as [<-|N].
    + destruct (Z.leb_spec 0 (Z.of_nat m)), (Z.ltb_spec (Z.of_nat m) (Z.of_nat m)), (Z.ltb_spec (Z.of_nat m) (Z.of_nat (S m))); try lia. rewrite Bool.andb_false_r, !Bool.andb_true_r. reflexivity.
    + rewrite Bool.andb_false_r. destruct (Z.ltb_spec a (Z.of_nat m)), (Z.ltb_spec a (Z.of_nat (S m))); try lia; rewrite Z.add_0_r; try reflexivity.
Qed.
Section Units2.
Variable n : Z.
Hypothesis Hn : 1 < n.
Notation unit_b := (is_unit n).
Lemma unit_dec x : unit_below n x \/ ~ unit_below n x.
Proof. unfold unit_below. destruct (Z.eq_dec (Z.gcd x n) 1); [|right; lia]. destruct (Z.le_gt_cases 0 x); [|right; lia]. destruct (Z.lt_ge_cases x n); [left; lia|right; lia]. Qed.
Lemma random_frequency (h : Z -> Z) t a : frequency Z.eqb (repeat n t) (fun ds => let* x := relatively_prime_random ds n in Ok (h x)) a =
  ends n t * zsum (Z.to_nat n) (fun x => if unit_b x && (h x =? a) then 1 else 0).
Proof.
  rewrite <- (first_unit_count n Hn (fun x => h x =? a) t). unfold frequency. apply count_ext. intros ds _ D. rewrite (first_unit_draw n ds Hn (drawn_repeat _ _ _ D)).
  destruct (first_unit n ds); reflexivity.
Qed.
Lemma uniform_random t : (0 < t)%nat -> uniform Z.eqb (ends n t) (repeat n t) (fun ds => relatively_prime_random ds n) (unit_below n).
Proof.
  intros Ht. assert (F : forall a, frequency Z.eqb (repeat n t) (fun ds => relatively_prime_random ds n) a = ends n t * if unit_b a && (0 <=? a) && (a <? n) then 1 else 0).
  { intros a. rewrite <- (Z2Nat.id n) at 4 by lia. rewrite <- (zsum_single (Z.to_nat n) a unit_b), <- (random_frequency (fun x => x) t a). apply frequency_ext. intros ds _. destruct (relatively_prime_random ds n); reflexivity. }
  split; [apply ends_pos; assumption|]. unfold unit_below, is_unit in *. split; intros a Ha; rewrite F; destruct (Z.eqb_spec (Z.gcd a n) 1), (Z.leb_spec 0 a), (Z.ltb_spec a n); cbn [andb]; lia.
Qed.
Lemma cancel a x y : Z.gcd a n = 1 -> eqmod n (a * x) (a * y) -> eqmod n x y.
Proof. intros G E. unfold eqmod in *. rewrite <- Z.mul_sub_distr_l in E. apply Z.gauss in E; [exact E|]. rewrite Z.gcd_comm. exact G. Qed.
Lemma unit_mul a r : Z.gcd a n = 1 -> unit_b ((r * a) mod n) = unit_b r.
Proof.
  intros G. unfold is_unit. rewrite Z.gcd_mod by lia. rewrite Z.gcd_comm. destruct (Z.eqb_spec (Z.gcd r n) 1) as [E|N].
  - apply Z.eqb_eq. apply Zgcd_1_rel_prime. apply rel_prime_sym, rel_prime_mult; apply rel_prime_sym; apply Zgcd_1_rel_prime; assumption.
  - apply Z.eqb_neq. intros E. apply N. apply Zgcd_1_rel_prime. apply Zgcd_1_rel_prime in E. apply (rel_prime_div _ _ r E). exists a. ring.
Qed.
Definition fibre (e : Z) : Z := zsum (Z.to_nat n) (fun x => if unit_b x && (x ^ e mod n =? 1) then 1 else 0).
Lemma fibre_of e a : 0 <= e -> Z.gcd a n = 1 -> zsum (Z.to_nat n) (fun x => if unit_b x && (x ^ e mod n =? a ^ e mod n) then 1 else 0) = fibre e.
Proof.
  intros He G. unfold fibre. rewrite <- (zsum_rename (Z.to_nat n) (fun x => if unit_b x && (x ^ e mod n =? a ^ e mod n) then 1 else 0) (fun r => (r * a) mod n)).
  - apply zsum_ext. intros r _. rewrite (unit_mul a r G). destruct (unit_b r); cbn [andb]; [|reflexivity].
    assert (Q : ((r * a) mod n) ^ e mod n = a ^ e mod n <-> r ^ e mod n = 1).
    { replace (r ^ e mod n = 1) with (r ^ e mod n = 1 mod n) by (rewrite (Z.mod_small 1 n) by lia; reflexivity). rewrite !mod_eqmod_iff by lia. rewrite (eqmod_mod n), Z.pow_mul_l. split; intros E.
      - apply (cancel (a ^ e)); [apply gcd_pow_l; assumption|]. rewrite Z.mul_1_r, Z.mul_comm. exact E.
      - rewrite E, Z.mul_1_l. reflexivity. }
    destruct (Z.eqb_spec (((r * a) mod n) ^ e mod n) (a ^ e mod n)), (Z.eqb_spec (r ^ e mod n) 1); tauto.
  - intros d _. rewrite Z2Nat.id by lia. apply Z.mod_pos_bound. lia.
  - intros d d' Hd Hd' E. rewrite Z2Nat.id in Hd, Hd' by lia. apply mod_eqmod_iff in E; [|lia]. rewrite !(Z.mul_comm _ a) in E. apply (eqmod_small n); [lia|lia|]. exact (cancel a d d' G E).
Qed.
Lemma zsum_some m f d : (forall x, 0 <= f x) -> 0 <= d < Z.of_nat m -> 0 < f d -> 0 < zsum m f.
Proof.
  intros P. induction m as [|m IH]; intros Hd Fd; [lia|]. cbn [zsum]. pose proof (zsum_nonneg m f ltac:(intros; apply P)). pose proof (P (Z.of_nat m)). destruct (Z.eq_dec d (Z.of_nat m)) as [->|]; [lia|]. specialize (IH ltac:(lia) Fd). lia.
Qed.
Lemma fibre_pos e : 0 <= e -> 0 < fibre e.
Proof.
  intros He. unfold fibre. apply (zsum_some _ _ 1); [intros x; destruct (_ && _); lia|lia|]. unfold is_unit. rewrite Z.gcd_1_l, Z.pow_1_l, Z.mod_1_l by lia. reflexivity.
Qed.
Lemma uniform_power (phi : Z -> Z) e t : (forall x y, phi x = phi y -> x = y) -> 0 <= e -> (0 < t)%nat ->
  uniform Z.eqb (ends n t * fibre e) (repeat n t) (fun ds => let* x := relatively_prime_random ds n in Ok (phi (x ^ e mod n))) (fun g => exists x, unit_below n x /\ g = phi (x ^ e mod n)).
Proof.
  intros Inj He Ht. split; [apply Z.mul_pos_pos; [apply ends_pos; assumption|apply fibre_pos, He]|]. split; intros g Hg; rewrite (random_frequency (fun x => phi (x ^ e mod n)) t g).
  - destruct Hg as (a & [_ G] & ->). f_equal. rewrite <- (fibre_of e a He G). apply zsum_ext. intros x _. destruct (unit_b x); cbn [andb]; [|reflexivity].
    destruct (Z.eqb_spec (phi (x ^ e mod n)) (phi (a ^ e mod n))) as [E|N]; destruct (Z.eqb_spec (x ^ e mod n) (a ^ e mod n)) as [E'|N']; try reflexivity; [apply Inj in E; contradiction|rewrite E' in N; contradiction].
  - rewrite (zsum_ext _ _ (fun _ => 0)); [rewrite zsum_const; lia|]. intros x Hx. rewrite Z2Nat.id in Hx by lia. destruct (unit_b x) eqn:E; cbn [andb]; [|reflexivity].
    destruct (Z.eqb_spec (phi (x ^ e mod n)) g) as [E'|]; [|reflexivity]. destruct Hg. exists x. split; [split; [exact Hx|apply Z.eqb_eq, E]|symmetry; exact E'].
Qed.
Definition units_list (t l : nat) (ds : list Z) : outcome (list Z) := mapM (fun raws => relatively_prime_random raws n) (cut t l ds).
Lemma list_frequency_nil bs (f : list Z -> outcome Z) (g : list Z -> outcome (list Z)) bs' : frequency same_list (bs ++ bs') (both cons bs f g) [] = 0.
Proof.
  unfold frequency. rewrite count_zsums. apply zsums_zero. intros ds _. unfold both. destruct (f _); cbn [bind]; try reflexivity. destruct (g _); reflexivity.
Qed.
Lemma same_cons x y l m : same_list (x :: l) (y :: m) = (x =? y) && same_list l m.
Proof.
  destruct (same_list (x :: l) (y :: m)) eqn:E; symmetry.
  - apply same_list_iff in E. injection E as -> ->. rewrite Z.eqb_refl. cbn [andb]. apply same_list_iff. reflexivity.
  - apply Bool.not_true_iff_false. intros Q. apply Bool.andb_true_iff in Q. destruct Q as [Q1 Q2]. apply Z.eqb_eq in Q1. apply same_list_iff in Q2. subst. apply Bool.not_true_iff_false in E. apply E, same_list_iff. reflexivity.
Qed.
Lemma uniform_cons k k' bs bs' f g (good : Z -> Prop) (good' : list Z -> Prop) : (forall x, good x \/ ~ good x) -> uniform Z.eqb k bs f good -> uniform same_list k' bs' g good' ->
  uniform same_list (k * k') (bs ++ bs') (both cons bs f g) (fun l => match l with [] => False | x :: xs => good x /\ good' xs end).
Proof.
  intros Dec (K & F & Z0) (K' & F' & Z0'). split; [apply Z.mul_pos_pos; assumption|]. split; intros [|x xs] H; try contradiction.
  - destruct H. rewrite (both_frequency Z.eqb same_list same_list cons bs bs' f g ltac:(intros; apply same_cons)), F, F' by assumption. reflexivity.
  - apply list_frequency_nil.
  - rewrite (both_frequency Z.eqb same_list same_list cons bs bs' f g ltac:(intros; apply same_cons)). destruct (Dec x) as [D|D]; [rewrite (Z0' xs) by tauto|rewrite (Z0 x D)]; lia.
Qed.
Lemma uniform_good {A} same k bs (f : list Z -> outcome A) (good good' : A -> Prop) : (forall a, good a <-> good' a) -> uniform same k bs f good -> uniform same k bs f good'.
Proof. intros H (K & F & Z0). split; [exact K|]. split; intros a Ha; [apply F, H, Ha|apply Z0; rewrite H; exact Ha]. Qed.
Lemma uniform_units t l : (0 < t)%nat -> uniform same_list (ends n t ^ Z.of_nat l) (concat (repeat (repeat n t) l)) (units_list t l) (fun xs => length xs = l /\ Forall (unit_below n) xs).
Proof.
  intros Ht. induction l as [|l IH].
  - split; [reflexivity|]. cbn [repeat concat]. unfold frequency. cbn [count]. split; intros [|x xs] H; cbn in *; try reflexivity; [lia|]. destruct H. split; [reflexivity|constructor].
  - rewrite Nat2Z.inj_succ, Z.pow_succ_r by lia. cbn [repeat concat].
    apply (uniform_ext same_list _ _ _ (both cons (repeat n t) (fun ds => relatively_prime_random ds n) (units_list t l))).
    + intros ds _. unfold units_list at 1, both. rewrite repeat_length. cbn [cut mapM]. destruct (relatively_prime_random (firstn t ds) n); cbn [bind]; try reflexivity.
    + eapply uniform_good; [|apply (uniform_cons _ _ _ _ _ _ _ _ unit_dec (uniform_random t Ht) IH)]. intros [|x xs]; cbn [length]; split.
      * intros [].
      * intros [E _]. discriminate.
      * intros (U & E & F). split; [lia|constructor; assumption].
      * intros (E & F). inversion F; subst. split; [assumption|]. split; [lia|assumption].
Qed.
End Units2.
Lemma list_units_dec n xs : Forall (unit_below n) xs \/ ~ Forall (unit_below n) xs.
Proof.
  induction xs as [|x xs [H|H]]; [left; constructor| |right; intros Q; inversion Q; contradiction].
  destruct (unit_dec n x); [left; constructor; assumption|right; intros Q; inversion Q; contradiction].
Qed.
Lemma uniform_pair k k' bs bs' f g (good : Z -> Prop) (good' : list Z -> Prop) : (forall x, good' x \/ ~ good' x) -> uniform Z.eqb k bs f good -> uniform same_list k' bs' g good' ->
  uniform same_pair (k * k') (bs ++ bs') (both pair bs f g) (fun r => good (fst r) /\ good' (snd r)).
Proof.
  intros Dec (K & F & Z0) (K' & F' & Z0'). split; [apply Z.mul_pos_pos; assumption|]. split; intros [x xs] H; cbn [fst snd] in H; rewrite (both_frequency Z.eqb same_list same_pair pair bs bs' f g ltac:(reflexivity)).
  - destruct H. rewrite F, F' by assumption. reflexivity.
  - destruct (Dec xs) as [D|D]; [rewrite (Z0 x) by tauto|rewrite (Z0' xs D)]; lia.
Qed.
