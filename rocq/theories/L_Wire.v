(** Lemmas on the wire format: encodings are prefix-free and injective. *)
From Verif Require Import Base M_RecordIO L_RecordIO M_Wire.
From Coq Require Import String List. Import ListNotations. Open Scope list_scope. Open Scope Z_scope.


Lemma varint_bound v : 0 <= v -> v < 128 ^ Z.of_nat (S (Z.to_nat (Z.log2 v))).
Proof.
  intros H. pose proof (Z.log2_nonneg v). rewrite Nat2Z.inj_succ, Z2Nat.id by lia. destruct (Z.eq_dec v 0) as [->|]; [cbn; lia|].
  pose proof (Z.log2_spec v ltac:(lia)) as [_ B]. eapply Z.lt_le_trans; [exact B|]. change 128 with (2 ^ 7). rewrite <- Z.pow_mul_r by lia. apply Z.pow_le_mono_r; lia.
Qed.

Lemma bz_small v : 0 <= v < 256 -> bz (zb v) = v.
Proof. intros H. rewrite bz_zb. apply Z.mod_small. exact H. Qed.
Lemma groups_prefix f1 f2 a b x y : 0 <= a < 128 ^ Z.of_nat (S f1) -> 0 <= b < 128 ^ Z.of_nat (S f2) ->
  varint_groups (S f1) a ++ x = varint_groups (S f2) b ++ y -> a = b /\ x = y.
Proof.
  revert f2 a b. induction f1 as [|f1 IH]; intros f2 a b Ha Hb E.
  - change (128 ^ Z.of_nat 1) with 128 in Ha. cbn [varint_groups] in E. destruct (Z.ltb_spec a 128); [|lia].
    destruct (Z.ltb_spec b 128) as [Hb'|Hb'].
    + cbn [app] in E. injection E as E1 E2. apply (f_equal bz) in E1. rewrite !bz_small in E1 by lia. split; assumption.
    + cbn [app] in E. injection E as E1 E2. apply (f_equal bz) in E1. pose proof (Z.mod_pos_bound b 128). rewrite !bz_small in E1 by lia. lia.
  - cbn [varint_groups] in E. pose proof (Z.mod_pos_bound a 128). pose proof (Z.mod_pos_bound b 128).
    destruct (Z.ltb_spec a 128) as [Ha'|Ha'], (Z.ltb_spec b 128) as [Hb'|Hb']; cbn [app] in E; injection E as E1 E2; apply (f_equal bz) in E1; rewrite !bz_small in E1 by lia; try lia.
    + split; assumption.
    + destruct f2 as [|f2]; [change (128 ^ Z.of_nat 1) with 128 in Hb; lia|].
      assert (P : forall f v, 0 <= v < 128 ^ Z.of_nat (S (S f)) -> 0 <= v / 128 < 128 ^ Z.of_nat (S f)).
      { intros f v Hv. split; [apply Z.div_pos; lia|]. apply Z.div_lt_upper_bound; [lia|]. rewrite (Nat2Z.inj_succ (S f)), Z.pow_succ_r in Hv by lia. lia. }
      destruct (IH f2 (a / 128) (b / 128) (P _ _ Ha) (P _ _ Hb) E2) as [Q ->]. split; [|reflexivity].
      rewrite (Z.div_mod a 128), (Z.div_mod b 128) by lia. lia.
Qed.

Lemma varint_prefix a b x y : 0 <= a -> 0 <= b -> varint a ++ x = varint b ++ y -> a = b /\ x = y.
Proof. intros Ha Hb E. apply (groups_prefix _ _ _ _ _ _ (conj Ha (varint_bound a Ha)) (conj Hb (varint_bound b Hb)) E). Qed.

Lemma app_len_inj {A} (a b x y : list A) : length a = length b -> a ++ x = b ++ y -> a = b /\ x = y.
Proof.
  revert b. induction a as [|h a IH]; intros [|k b] L E; try discriminate; [split; [reflexivity|exact E]|].
  cbn in L, E. injection E as -> E. destruct (IH b ltac:(lia) E) as [-> ->]. split; reflexivity.
Qed.

Lemma delim_prefix a b x y : varint (Z.of_nat (length a)) ++ a ++ x = varint (Z.of_nat (length b)) ++ b ++ y -> a = b /\ x = y.
Proof.
  intros E. apply varint_prefix in E; [|lia|lia]. destruct E as [L E]. apply app_len_inj; [lia|exact E].
Qed.

Definition wf_entry (e : entry) : Prop := match e with EVarint k v => 0 <= k /\ 0 <= v | ELen k _ => 0 <= k end.

Lemma enc_entry_prefix e1 e2 x y : wf_entry e1 -> wf_entry e2 -> enc_entry e1 ++ x = enc_entry e2 ++ y -> e1 = e2 /\ x = y.
Proof.
  destruct e1 as [k1 v1|k1 b1], e2 as [k2 v2|k2 b2]; cbn [wf_entry enc_entry]; intros W1 W2 E; rewrite <- !app_assoc in E; apply varint_prefix in E; try lia;
    destruct E as [K E]; try lia.
  - apply varint_prefix in E; [|lia|lia]. destruct E as [-> ->]. assert (k1 = k2) by lia. subst. split; reflexivity.
  - apply delim_prefix in E. destruct E as [-> ->]. assert (k1 = k2) by lia. subst. split; reflexivity.
Qed.

Lemma varint_nonempty v x : varint v ++ x <> [].
Proof. unfold varint. cbn [varint_groups]. destruct (v <? 128); discriminate. Qed.
Lemma enc_entry_nonempty e x : enc_entry e ++ x <> [].
Proof. destruct e; cbn [enc_entry]; rewrite <- !app_assoc; apply varint_nonempty. Qed.

(** Messages are determined by their bytes. *)
Lemma enc_msg_inj es1 es2 : Forall wf_entry es1 -> Forall wf_entry es2 -> enc_msg es1 = enc_msg es2 -> es1 = es2.
Proof.
  revert es2. induction es1 as [|e1 es1 IH]; intros [|e2 es2] W1 W2 E; unfold enc_msg in E; cbn [map concat] in E.
  - reflexivity.
  - symmetry in E. apply enc_entry_nonempty in E. destruct E.
  - apply enc_entry_nonempty in E. destruct E.
  - inversion W1; inversion W2; subst. apply enc_entry_prefix in E; [|assumption|assumption]. destruct E as [-> E]. f_equal. apply IH; assumption.
Qed.

(** ** Splitting a message into its fields *)
Definition num_of (e : entry) : Z := match e with EVarint k _ => k | ELen k _ => k end.
Definition only (k : Z) (es : list entry) : Prop := Forall (fun e => num_of e = k) es.
Definition above (k : Z) (es : list entry) : Prop := Forall (fun e => k < num_of e) es.

Lemma split_fields k a b x y : only k a -> only k b -> above k x -> above k y -> a ++ x = b ++ y -> a = b /\ x = y.
Proof.
  intros A B X Y. revert b B. induction A as [|e a He A IH]; intros b B E.
  - destruct b as [|f b]; [split; [reflexivity|exact E]|]. cbn in E. rewrite E in X. inversion X; inversion B; subst. lia.
  - destruct B as [|f b Hf B].
    + cbn in E. rewrite <- E in Y. inversion Y; subst. lia.
    + cbn in E. injection E as -> E. destruct (IH b B E) as [-> ->]. split; reflexivity.
Qed.

Lemma above_app k a b : above k a -> above k b -> above k (a ++ b).
Proof. intros; apply Forall_app; split; assumption. Qed.
Lemma only_above j k es : j < k -> only k es -> above j es.
Proof. intros H. apply Forall_impl. intros e He. cbn beta in *. lia. Qed.
Lemma above_nil k : above k [].
Proof. constructor. Qed.

Lemma only_bytes k b : only k (f_bytes k b).
Proof. destruct b; repeat constructor. Qed.
Lemma only_int k v : only k (f_int64 k v).
Proof. unfold f_int64. destruct (v =? 0); repeat constructor. Qed.
Lemma only_msg k m : only k (f_msg k m).
Proof. repeat constructor. Qed.
Lemma only_rep k bs : only k (f_rep k bs).
Proof. apply Forall_forall. intros e He. apply in_map_iff in He. destruct He as (b & <- & _). reflexivity. Qed.
Lemma only_rep_msg k ms : only k (f_rep_msg k ms).
Proof. apply Forall_forall. intros e He. apply in_map_iff in He. destruct He as (b & <- & _). reflexivity. Qed.

Lemma wf_bytes k b : 0 <= k -> Forall wf_entry (f_bytes k b).
Proof. intros. destruct b; repeat constructor; assumption. Qed.
Lemma wf_int k v : 0 <= k -> Forall wf_entry (f_int64 k v).
Proof. intros. unfold f_int64. destruct (v =? 0); repeat constructor; [assumption|]. apply Z.mod_pos_bound. lia. Qed.
Lemma wf_msg k m : 0 <= k -> Forall wf_entry (f_msg k m).
Proof. intros. repeat constructor; assumption. Qed.
Lemma wf_rep k bs : 0 <= k -> Forall wf_entry (f_rep k bs).
Proof. intros. apply Forall_forall. intros e He. apply in_map_iff in He. destruct He as (b & <- & _). assumption. Qed.
Lemma wf_rep_msg k ms : 0 <= k -> Forall wf_entry (f_rep_msg k ms).
Proof. intros. apply Forall_forall. intros e He. apply in_map_iff in He. destruct He as (b & <- & _). assumption. Qed.

Lemma f_bytes_inj k a b : f_bytes k a = f_bytes k b -> a = b.
Proof. destruct a, b; cbn; congruence. Qed.
Lemma f_int_inj k a b : - 2 ^ 63 <= a < 2 ^ 63 -> - 2 ^ 63 <= b < 2 ^ 63 -> f_int64 k a = f_int64 k b -> a = b.
Proof.
  unfold f_int64. intros Ha Hb. destruct (Z.eqb_spec a 0), (Z.eqb_spec b 0); try congruence.
  intros E0. assert (E : a mod 2 ^ 64 = b mod 2 ^ 64) by congruence. assert (M : forall x, - 2 ^ 63 <= x < 2 ^ 63 -> x mod 2 ^ 64 = if x <? 0 then x + 2 ^ 64 else x).
  { intros x Hx. destruct (Z.ltb_spec x 0); [|apply Z.mod_small; lia]. symmetry. apply (Z.mod_unique_pos x (2 ^ 64) (-1)); lia. }
  rewrite (M a Ha), (M b Hb) in E. destruct (Z.ltb_spec a 0), (Z.ltb_spec b 0); lia.
Qed.
(** Unsigned fields. *)
Lemma f_uint_inj k a b : 0 <= a < 2 ^ 64 -> 0 <= b < 2 ^ 64 -> f_int64 k a = f_int64 k b -> a = b.
Proof.
  unfold f_int64. intros Ha Hb. destruct (Z.eqb_spec a 0), (Z.eqb_spec b 0); try congruence.
  rewrite !Z.mod_small by assumption. congruence.
Qed.
Lemma f_msg_inj k a b : Forall wf_entry a -> Forall wf_entry b -> f_msg k a = f_msg k b -> a = b.
Proof. intros Wa Wb E. injection E as E. apply enc_msg_inj; assumption. Qed.
Lemma f_rep_inj k a b : f_rep k a = f_rep k b -> a = b.
Proof. revert b. induction a as [|x a IH]; intros [|y b] E; try discriminate; [reflexivity|]. cbn in E. injection E as -> E. f_equal. apply IH. exact E. Qed.
Lemma f_rep_msg_inj {A} (w : A -> list entry) k a b : (forall x y, w x = w y -> x = y) -> (forall x, Forall wf_entry (w x)) ->
  f_rep_msg k (map w a) = f_rep_msg k (map w b) -> a = b.
Proof.
  intros Hi Hw. revert b. induction a as [|x a IH]; intros [|y b] E; try discriminate; [reflexivity|]. cbn in E. injection E as E1 E2.
  apply enc_msg_inj in E1; [|apply Hw|apply Hw]. f_equal; [apply Hi; exact E1|apply IH; exact E2].
Qed.

(** The framing determines statement and first message. *)
Lemma framed_inj d s1 m1 s2 m2 : Forall wf_entry s1 -> Forall wf_entry s2 -> Forall wf_entry m1 -> Forall wf_entry m2 ->
  framed d s1 m1 = framed d s2 m2 -> s1 = s2 /\ m1 = m2.
Proof.
  intros W1 W2 W3 W4 E. unfold framed in E. apply app_inv_head in E. apply delim_prefix in E. destruct E as [E1 E2].
  apply varint_prefix in E2; [|lia|lia]. destruct E2 as [_ E2].
  split; apply enc_msg_inj; assumption.
Qed.
