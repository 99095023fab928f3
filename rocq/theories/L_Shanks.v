(** Baby-step giant-step: soundness and completeness. *)
From Coq Require Import Znumtheory.
From Verif Require Import Base M_BigNum L_Mod M_EC L_EC M_Shanks.

Lemma table_find_app k t k' v : table_find k (t ++ [(k', v)]) =
  match table_find k t with Some x => Some x | None => if bytes_eqb k k' then Some v else None end.
Proof. induction t as [|[a b] t IH]; cbn [app table_find]; [destruct (bytes_eqb k k'); reflexivity|]. destruct (bytes_eqb k a); [reflexivity|exact IH]. Qed.

Section Shanks.
Variable C : ec.
Hypothesis L : ec_laws C.
Variable g : pt C.

(** After the entries for 1..n-1: lookups are sound, and every encodable multiple in range is found. *)
Definition table_inv (n : Z) (t : list (bytes * Z)) : Prop :=
  (forall k v, table_find k t = Some v -> 1 <= v < n /\ pmul C v g <> pinf C /\ k = ec_enc C (pmul C v g)) /\
  (forall j, 1 <= j < n -> exists v, table_find (ec_enc C (pmul C j g)) t = Some v).

Lemma table_loop_ok : forall cnt i t t', table_inv i t -> 1 <= i ->
  table_loop C cnt i g (pmul C (i - 1) g) t = Ok t' -> table_inv (i + Z.of_nat cnt) t'.
Proof.
  induction cnt as [|cnt IH]; intros i t t' Hi H1 E; cbn [table_loop] in E.
  - injection E as <-. rewrite Z.add_0_r. exact Hi.
  - rewrite <- pmul_succ in E by exact L. replace (Z.succ (i - 1)) with i in E by lia.
    destruct (point_to_bytes C (pmul C i g)) as [key|c'| | |] eqn:Ek; try discriminate. cbn [bind] in E.
    apply point_to_bytes_inv in Ek; [|exact L]. destruct Ek as [Hn ->].
    replace (i + Z.of_nat (S cnt)) with ((i + 1) + Z.of_nat cnt) by lia.
    assert (Ei : pmul C i g = pmul C (i + 1 - 1) g) by (f_equal; lia). rewrite Ei in E at 1.
    refine (IH (i + 1) _ t' _ _ E); [|lia]. destruct Hi as [Ha Hb]. unfold table_insert.
    destruct (table_find (ec_enc C (pmul C i g)) t) as [v0|] eqn:Ef.
    + split.
      * intros k v Hk. destruct (Ha k v Hk) as (R & N & K). repeat split; try assumption; lia.
      * intros j Hj. destruct (Z.eq_dec j i) as [->|Hne]; [exists v0; exact Ef|]. apply Hb. lia.
    + split.
      * intros k v Hk. rewrite table_find_app in Hk. destruct (table_find k t) as [x|] eqn:Ex.
        -- injection Hk as <-. destruct (Ha k x Ex) as (R & N & K). repeat split; try assumption; lia.
        -- destruct (bytes_eqb k (ec_enc C (pmul C i g))) eqn:Eb; [|discriminate]. injection Hk as <-. apply bytes_eqb_eq in Eb.
           repeat split; [lia|lia|exact Hn|exact Eb].
      * intros j Hj. rewrite table_find_app. destruct (Z.eq_dec j i) as [->|Hne].
        -- rewrite Ef, bytes_eqb_refl. eexists. reflexivity.
        -- destruct (Hb j ltac:(lia)) as [v Hv]. rewrite Hv. eexists. reflexivity.
Qed.

Lemma table_loop_total : forall cnt i t, 1 <= i -> (forall j, i <= j < i + Z.of_nat cnt -> pmul C j g <> pinf C) ->
  exists t', table_loop C cnt i g (pmul C (i - 1) g) t = Ok t'.
Proof.
  induction cnt as [|cnt IH]; intros i t H1 Hn; cbn [table_loop]; [eexists; reflexivity|].
  rewrite <- pmul_succ by exact L. replace (Z.succ (i - 1)) with i by lia.
  rewrite point_to_bytes_ok by (try exact L; apply Hn; lia). cbn [bind].
  assert (Ei : pmul C i g = pmul C (i + 1 - 1) g) by (f_equal; lia). rewrite Ei. apply IH; [lia|]. intros j Hj. apply Hn. lia.
Qed.

Definition shanks_inv (t : shanks C) (max pre : Z) : Prop :=
  sh_gen C t = g /\ sh_max C t = max /\ sh_pre C t = pre /\ pre < max <= 40 /\ 0 <= pre < 31 /\ table_inv (2 ^ pre) (sh_table C t).

Lemma shl_int_ok n r : shl_int n = Ok r -> 0 <= n < 31 /\ r = 2 ^ n.
Proof. unfold shl_int. destruct (Z.leb_spec 0 n), (Z.ltb_spec n 31); cbn [andb]; intros E; try discriminate. injection E as <-. lia. Qed.

Lemma table_inv_init : table_inv 1 [].
Proof. split; [intros k v H; discriminate|intros j Hj; lia]. Qed.

Lemma shanks_create_inv max pre t : shanks_create C g max pre = Ok t -> shanks_inv t max pre.
Proof.
  unfold shanks_create, max_message_size. destruct (Z.leb_spec max pre); [discriminate|]. destruct (Z.ltb_spec 40 max); [discriminate|].
  intros E. destruct (shl_int pre) as [sz|c'| | |] eqn:Es; try discriminate. cbn [bind] in E. apply shl_int_ok in Es. destruct Es as [Hp ->].
  destruct (table_loop C (Z.to_nat (2 ^ pre - 1)) 1 g (pinf C) []) as [tb|c'| | |] eqn:Et; try discriminate. cbn [bind] in E. injection E as <-.
  change (pinf C) with (pmul C (1 - 1) g) in Et. apply table_loop_ok in Et; [|exact table_inv_init|lia].
  assert (0 < 2 ^ pre) by (apply Z.pow_pos_nonneg; lia). rewrite Z2Nat.id in Et by lia. replace (1 + (2 ^ pre - 1)) with (2 ^ pre) in Et by lia.
  unfold shanks_inv. cbn [sh_gen sh_max sh_pre sh_table]. split; [reflexivity|]. split; [reflexivity|]. split; [reflexivity|].
  split; [lia|]. split; [lia|exact Et].
Qed.

Lemma shanks_create_total max pre : 0 <= pre < 31 -> pre < max <= 40 -> g <> pinf C -> 2 ^ pre <= ec_order C ->
  exists t, shanks_create C g max pre = Ok t.
Proof.
  intros Hp Hm Hg Ho. unfold shanks_create, max_message_size. destruct (Z.leb_spec max pre); [lia|]. destruct (Z.ltb_spec 40 max); [lia|].
  unfold shl_int. destruct (Z.leb_spec 0 pre), (Z.ltb_spec pre 31); try lia. cbn [andb bind].
  assert (0 < 2 ^ pre) by (apply Z.pow_pos_nonneg; lia).
  change (pinf C) with (pmul C (1 - 1) g). destruct (table_loop_total (Z.to_nat (2 ^ pre - 1)) 1 [] ltac:(lia)) as [t' E].
  - intros j Hj. rewrite Z2Nat.id in Hj by lia. apply pmul_not_inf; [exact L|exact Hg|]. rewrite Z.mod_small by lia. lia.
  - rewrite E. cbn [bind]. eexists. reflexivity.
Qed.

Lemma shanks_loop_sound t max pre P : shanks_inv t max pre -> forall cnt i x, 0 <= i ->
  shanks_loop C t cnt i (point_mul C (pneg C g) (2 ^ pre)) (padd C P (pmul C (- (2 ^ pre * i)) g)) = Ok x ->
  pmul C x g = P /\ 2 ^ pre * i <= x < 2 ^ pre * (i + Z.of_nat cnt).
Proof.
  intros (Hg & Hmx & Hpr & R1 & R2 & [Ta Tb]). assert (Hpos : 0 < 2 ^ pre) by (apply Z.pow_pos_nonneg; lia).
  assert (Hback : forall y z, padd C P (pmul C (- y) g) = pmul C z g -> pmul C (y + z) g = P).
  { intros y z E. rewrite pmul_add by exact L. rewrite <- E. rewrite (padd_comm C L P), (padd_assoc C L), <- pmul_add by exact L.
    rewrite Z.add_opp_diag_r, pmul_0. apply padd_inf, L. }
  induction cnt as [|cnt IH]; intros i x Hi E; cbn [shanks_loop] in E; [discriminate|]. rewrite Hpr in E.
  set (st := padd C P (pmul C (- (2 ^ pre * i)) g)) in *.
  destruct (is_inf C st) eqn:Ei.
  - injection E as <-. apply (is_inf_true C L) in Ei. split; [|nia]. rewrite <- (Z.add_0_r (2 ^ pre * i)). apply Hback. exact Ei.
  - apply (is_inf_false C L) in Ei. rewrite point_to_bytes_ok in E by assumption. cbn [bind] in E.
    destruct (table_find (ec_enc C st) (sh_table C t)) as [v|] eqn:Ef.
    + injection E as <-. destruct (Ta _ _ Ef) as (Rv & Nv & Kv). apply enc_inj in Kv; try assumption. split; [apply Hback, Kv|nia].
    + replace (padd C st (point_mul C (pneg C g) (2 ^ pre))) with (padd C P (pmul C (- (2 ^ pre * (i + 1))) g)) in E.
      * destruct (IH (i + 1) x ltac:(lia) E) as [A B]. split; [exact A|nia].
      * unfold st. rewrite point_mul_eq, pmul_neg_pt, <- pmul_neg, <- (padd_assoc C L), <- pmul_add by exact L. do 2 f_equal. lia.
Qed.

Lemma shanks_loop_complete t max pre P : shanks_inv t max pre -> forall cnt i, 0 <= i ->
  (exists x, shanks_loop C t cnt i (point_mul C (pneg C g) (2 ^ pre)) (padd C P (pmul C (- (2 ^ pre * i)) g)) = Ok x) \/
  (shanks_loop C t cnt i (point_mul C (pneg C g) (2 ^ pre)) (padd C P (pmul C (- (2 ^ pre * i)) g)) = Err InvalidArgument /\
   forall x, 2 ^ pre * i <= x < 2 ^ pre * (i + Z.of_nat cnt) -> pmul C x g <> P).
Proof.
  intros Hinv. pose proof Hinv as (Hg & Hmx & Hpr & R1 & R2 & [Ta Tb]). assert (Hpos : 0 < 2 ^ pre) by (apply Z.pow_pos_nonneg; lia).
  induction cnt as [|cnt IH]; intros i Hi; cbn [shanks_loop].
  - right. split; [reflexivity|]. intros x Hx. lia.
  - set (st := padd C P (pmul C (- (2 ^ pre * i)) g)).
    destruct (is_inf C st) eqn:Ei; [left; eexists; reflexivity|].
    apply (is_inf_false C L) in Ei. rewrite point_to_bytes_ok by assumption. cbn [bind].
    destruct (table_find (ec_enc C st) (sh_table C t)) as [v|] eqn:Ef; [left; eexists; reflexivity|].
    replace (padd C st (point_mul C (pneg C g) (2 ^ pre))) with (padd C P (pmul C (- (2 ^ pre * (i + 1))) g)).
    2:{ unfold st. rewrite point_mul_eq, pmul_neg_pt, <- pmul_neg, <- (padd_assoc C L), <- pmul_add by exact L. do 2 f_equal. lia. }
    destruct (IH (i + 1) ltac:(lia)) as [A|[A B]]; [left; exact A|right]. split; [exact A|].
    intros x Hx Ex. destruct (Z.lt_ge_cases x (2 ^ pre * (i + 1))) as [Hlt|Hge]; [|apply (B x); [nia|exact Ex]].
    set (j := x - 2 ^ pre * i) in *. assert (Hj : 0 <= j < 2 ^ pre) by nia.
    assert (Est : st = pmul C j g).
    { unfold st, j. rewrite <- Ex, <- pmul_add by exact L. f_equal. }
    destruct (Z.eq_dec j 0) as [E0|E0]; [rewrite E0 in Est; apply Ei; exact Est|].
    destruct (Tb j ltac:(lia)) as [v Hv]. rewrite Est in Ef. congruence.
Qed.

Lemma get_discrete_log_spec max pre t P : shanks_create C g max pre = Ok t -> max - pre < 31 ->
  match get_discrete_log C t P with
  | Ok x => pmul C x g = P /\ 0 <= x < 2 ^ max
  | Err InvalidArgument => forall x, 0 <= x < 2 ^ max -> pmul C x g <> P
  | _ => False
  end.
Proof.
  intros Hc Hlt. pose proof (shanks_create_inv _ _ _ Hc) as Hinv. pose proof Hinv as (Hg & Hmx & Hpr & R1 & R2 & _).
  unfold get_discrete_log. rewrite Hpr, Hmx, Hg. unfold shl_int. destruct (Z.leb_spec 0 pre), (Z.ltb_spec pre 31); try lia. cbn [andb bind].
  destruct (Z.leb_spec 0 (max - pre)), (Z.ltb_spec (max - pre) 31); try lia. cbn [andb bind].
  assert (Hz : padd C P (pmul C (- (2 ^ pre * 0)) g) = P) by (rewrite Z.mul_0_r; apply add_inf_r, L).
  assert (Hsz : 2 ^ pre * (0 + Z.of_nat (Z.to_nat (2 ^ (max - pre)))) = 2 ^ max).
  { rewrite Z2Nat.id by (apply Z.pow_nonneg; lia). rewrite Z.add_0_l, <- Z.pow_add_r by lia. f_equal. lia. }
  pose proof (shanks_loop_sound t max pre P Hinv (Z.to_nat (2 ^ (max - pre))) 0) as S1.
  pose proof (shanks_loop_complete t max pre P Hinv (Z.to_nat (2 ^ (max - pre))) 0 ltac:(lia)) as S2.
  rewrite Hsz in *. rewrite !Hz in *. destruct S2 as [[x Ex]|[Ee Hn]].
  - rewrite Ex. destruct (S1 x ltac:(lia) Ex) as [A B]. split; [exact A|]. lia.
  - rewrite Ee. intros x Hx. apply Hn. lia.
Qed.

Lemma get_discrete_log_big max pre t P : shanks_create C g max pre = Ok t -> 31 <= max - pre -> get_discrete_log C t P = UB.
Proof.
  intros Hc Hge. pose proof (shanks_create_inv _ _ _ Hc) as (Hg & Hmx & Hpr & R1 & R2 & _).
  unfold get_discrete_log. rewrite Hpr, Hmx. unfold shl_int. destruct (Z.leb_spec 0 pre), (Z.ltb_spec pre 31); try lia. cbn [andb bind].
  destruct (Z.leb_spec 0 (max - pre)), (Z.ltb_spec (max - pre) 31); try lia. reflexivity.
Qed.
End Shanks.
