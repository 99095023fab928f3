(** Correctness of simultaneous exponentiation over any commutative monoid. *)
From Verif Require Import Base M_BigNum L_BigNum L_Mod M_Num L_Num M_Simul.

Section Proof.
Variable E : Type.
Variable mul : E -> E -> E.
Variable is_zero : E -> bool.
(** The values denoted by elements form a commutative monoid. *)
Variable M : Type.
Variable op : M -> M -> M.
Variable one : M.
Variable v : E -> M.
Hypothesis op_assoc : forall a b c, op a (op b c) = op (op a b) c.
Hypothesis op_comm : forall a b, op a b = op b a.
Hypothesis op_one : forall a, op one a = a.
Hypothesis v_mul : forall a b, v (mul a b) = op (v a) (v b).
Hypothesis v_zero : forall a, is_zero a = true -> v a = one.

Fixpoint mpow (a : M) (n : nat) : M := match n with O => one | S k => op a (mpow a k) end.
(** The product of powers. *)
Fixpoint prod_pow (bs : list E) (es : list nat) : M :=
  match bs, es with
  | b :: bs', e :: es' => op (mpow (v b) e) (prod_pow bs' es')
  | _, _ => one
  end.

Lemma op_one_r a : op a one = a.
Proof. rewrite op_comm. apply op_one. Qed.
Lemma op_swap a b c d : op (op a b) (op c d) = op (op a c) (op b d).
Proof. rewrite !op_assoc. f_equal. rewrite <- !op_assoc. f_equal. apply op_comm. Qed.
Lemma mpow_add a n m : mpow a (n + m) = op (mpow a n) (mpow a m).
Proof. induction n as [|n IH]; cbn [Nat.add mpow]; [symmetry; apply op_one|]. rewrite IH. apply op_assoc. Qed.

Fixpoint selprod (bs : list E) (f : nat -> bool) : M :=
  match bs with
  | [] => one
  | b :: r => op (if f 0%nat then v b else one) (selprod r (fun k => f (S k)))
  end.

Lemma selprod_ext bs f g : (forall k, (k < length bs)%nat -> f k = g k) -> selprod bs f = selprod bs g.
Proof.
  revert f g. induction bs as [|b bs IH]; intros f g H; [reflexivity|]. cbn [selprod]. rewrite (H 0%nat) by (cbn; lia).
  f_equal. apply IH. intros k Hk. apply H. cbn. lia.
Qed.
Lemma selprod_none bs f : (forall k, (k < length bs)%nat -> f k = false) -> selprod bs f = one.
Proof.
  revert f. induction bs as [|b bs IH]; intros f H; [reflexivity|]. cbn [selprod]. rewrite (H 0%nat) by (cbn; lia).
  rewrite op_one. apply IH. intros k Hk. apply H. cbn. lia.
Qed.
Lemma selprod_app a b f : selprod (a ++ b) f = op (selprod a f) (selprod b (fun k => f (length a + k)%nat)).
Proof.
  revert f. induction a as [|x a IH]; intros f; cbn [app selprod length]; [symmetry; apply op_one|].
  rewrite IH. rewrite op_assoc. reflexivity.
Qed.
Lemma selprod_flip bs f g h b : nth_error bs h = Some b -> f h = false -> g h = true ->
  (forall k, k <> h -> g k = f k) -> selprod bs g = op (selprod bs f) (v b).
Proof.
  revert f g h. induction bs as [|x bs IH]; intros f g h Hb Hf Hg He; [destruct h; discriminate|].
  destruct h as [|h]; cbn [nth_error] in Hb; cbn [selprod].
  - injection Hb as <-. rewrite Hf, Hg, op_one. rewrite op_comm. f_equal.
    apply selprod_ext. intros k _. apply He. lia.
  - rewrite (He 0%nat) by lia. rewrite (IH (fun k => f (S k)) (fun k => g (S k)) h Hb Hf Hg).
    + apply op_assoc.
    + intros k Hk. apply He. lia.
Qed.

Lemma nth_error_nth_skipn {A} (l : list A) a b : nth_error l (a + b) = nth_error (skipn a l) b.
Proof. revert l. induction a as [|a IH]; intros [|x l]; cbn; try reflexivity; [destruct b; reflexivity|apply IH]. Qed.

Lemma nth_error_firstn {A} (l : list A) n k : (k < n)%nat -> nth_error (firstn n l) k = nth_error l k.
Proof. revert l k. induction n as [|n IH]; intros l k Hk; [lia|]. destruct l, k; cbn; try reflexivity. apply IH. lia. Qed.

(** *** Table *)

Definition row_ok (zero : E) (batch : list E) (row : list E) : Prop :=
  length row = (2 ^ length batch)%nat /\
  forall idx e, nth_error row idx = Some e -> v e = if (idx =? 0)%nat then v zero else selprod batch (Nat.testbit idx).

Lemma log2_bound j h : (j < 2 ^ S h)%nat -> (2 ^ h <= j)%nat -> Nat.log2 j = h.
Proof. intros H1 H2. apply Nat.log2_unique; [lia|]. split; assumption. Qed.

Lemma testbit_small j n : (j < 2 ^ n)%nat -> Nat.testbit j n = false.
Proof. intros H. destruct (Nat.eq_dec j 0) as [->|Hj]; [apply Nat.bits_0|]. apply Nat.bits_above_log2. apply Nat.log2_lt_pow2; lia. Qed.

Lemma testbit_sub_high j h : (2 ^ h <= j)%nat -> (j < 2 ^ S h)%nat ->
  Nat.testbit (j - 2 ^ h) h = false /\ Nat.testbit j h = true /\ forall k, k <> h -> Nat.testbit j k = Nat.testbit (j - 2 ^ h) k.
Proof.
  intros H1 H2. remember (j - 2 ^ h)%nat as p eqn:Ep. assert (Hp : (p < 2 ^ h)%nat) by (cbn [Nat.pow] in H2; lia).
  assert (Hj : j = (p + 2 ^ h)%nat) by lia. clear Ep.
  assert (Hb : Nat.testbit p h = false) by (apply testbit_small; exact Hp).
  assert (Hl : Nat.land p (2 ^ h) = 0%nat).
  { apply Nat.bits_inj. intros k. rewrite Nat.land_spec, Nat.bits_0, Nat.pow2_bits_eqb.
    destruct (Nat.eqb_spec h k); [subst; rewrite Hb; reflexivity|apply andb_false_r]. }
  assert (Hx : forall k, Nat.testbit j k = xorb (Nat.testbit p k) (Nat.testbit (2 ^ h) k)).
  { intros k. rewrite Hj. rewrite (Nat.add_nocarry_lxor _ _ Hl). apply Nat.lxor_spec. }
  split; [exact Hb|]. split.
  - rewrite Hx, Hb, Nat.pow2_bits_true. reflexivity.
  - intros k Hk. rewrite Hx, Nat.pow2_bits_eqb. destruct (Nat.eqb_spec h k); [lia|]. apply xorb_false_r.
Qed.

Lemma pre_loop_ok bases start n zero : (start + n <= length bases)%nat ->
  forall cnt j h tbl, (j + cnt = 2 ^ n)%nat -> (1 <= j)%nat ->
  (2 ^ h <= j)%nat -> (j <= 2 ^ S h)%nat -> length tbl = j ->
  (forall idx e, nth_error tbl idx = Some e -> v e = if (idx =? 0)%nat then v zero else selprod (firstn n (skipn start bases)) (Nat.testbit idx)) ->
  exists row, pre_loop E mul cnt j h start bases tbl = Ok row /\ row_ok zero (firstn n (skipn start bases)) row.
Proof.
  intros Hlen. set (batch := firstn n (skipn start bases)).
  assert (Hbl : length batch = n) by (unfold batch; rewrite firstn_length, skipn_length; lia).
  induction cnt as [|cnt IH]; intros j h tbl Hj Hj1 Hh1 Hh2 Hl Ht; cbn [pre_loop].
  - exists tbl. split; [reflexivity|]. split; [rewrite Hbl, Hl; lia|]. exact Ht.
  - set (h' := if Nat.testbit j (S h) then S h else h).
    assert (Hh' : (2 ^ h' <= j)%nat /\ (j < 2 ^ S h')%nat).
    { unfold h'. destruct (Nat.eq_dec j (2 ^ S h)) as [Ej|Ej].
      - rewrite Ej, Nat.pow2_bits_true. cbn [Nat.pow]. pose proof (Nat.pow_nonzero 2 h ltac:(lia)). lia.
      - rewrite testbit_small by lia. lia. }
    assert (Hhn : (h' < n)%nat).
    { destruct (Nat.lt_ge_cases h' n) as [H|H]; [exact H|]. pose proof (Nat.pow_le_mono_r 2 n h' ltac:(lia) H). lia. }
    rewrite nth_error_nth_skipn. destruct (nth_error (skipn start bases) h') as [b|] eqn:Eb.
    2:{ apply nth_error_None in Eb. rewrite skipn_length in Eb. lia. }
    assert (Ebb : nth_error batch h' = Some b) by (unfold batch; rewrite nth_error_firstn; assumption).
    destruct (testbit_sub_high j h' (proj1 Hh') (proj2 Hh')) as (B1 & B2 & B3).
    assert (Hstep : forall e, v e = selprod batch (Nat.testbit j) ->
      exists row, pre_loop E mul cnt (S j) h' start bases (tbl ++ [e]) = Ok row /\ row_ok zero batch row).
    { intros e He. apply IH; try lia.
      - rewrite app_length, Hl. cbn. lia.
      - intros idx x Hx. destruct (Nat.lt_ge_cases idx j) as [Hi|Hi].
        + rewrite nth_error_app1 in Hx by lia. exact (Ht idx x Hx).
        + rewrite nth_error_app2 in Hx by lia. destruct (idx - length tbl)%nat as [|d] eqn:Ed; [|destruct d; discriminate Hx].
          cbn in Hx. injection Hx as <-. assert (idx = j) by lia. subst idx. destruct (Nat.eqb_spec j 0); [lia|exact He]. }
    destruct (Nat.eqb_spec (j - 2 ^ h') 0) as [Ep|Ep].
    + apply Hstep. rewrite (selprod_flip batch (Nat.testbit (j - 2 ^ h')) (Nat.testbit j) h' b Ebb B1 B2 B3).
      rewrite (selprod_none batch (Nat.testbit (j - 2 ^ h'))); [symmetry; apply op_one|].
      intros k _. rewrite Ep. apply Nat.bits_0.
    + destruct (nth_error tbl (j - 2 ^ h')) as [t|] eqn:Et.
      2:{ apply nth_error_None in Et. pose proof (Nat.pow_nonzero 2 h' ltac:(lia)). lia. }
      apply Hstep. rewrite v_mul. rewrite (Ht _ _ Et). destruct (Nat.eqb_spec (j - 2 ^ h') 0); [lia|].
      symmetry. apply selprod_flip with h'; assumption.
Qed.

Definition batch_of (bases : list E) (ns j : nat) : list E := firstn ns (skipn (j * ns) bases).

Lemma pre_batch_ok bases zero ns i : (i * ns < length bases)%nat -> (1 <= ns)%nat -> (ns < 31)%nat ->
  exists row, pre_batch E mul bases zero ns i = Ok row /\ row_ok zero (batch_of bases ns i) row.
Proof.
  intros Hi H1 H31. unfold pre_batch. set (items := Nat.min (length bases - i * ns) ns).
  assert (Hit : (1 <= items <= ns)%nat) by (unfold items; lia).
  unfold shl1. destruct (Nat.ltb_spec items 31); [|lia]. cbn [bind].
  assert (Eb : batch_of bases ns i = firstn items (skipn (i * ns) bases)).
  { unfold batch_of, items. destruct (Nat.le_ge_cases ns (length bases - i * ns)) as [H'|H'].
    - rewrite Nat.min_r by lia. reflexivity.
    - rewrite Nat.min_l by lia. rewrite !firstn_all2; [reflexivity|rewrite skipn_length; lia|rewrite skipn_length; lia]. }
  rewrite Eb. pose proof (Nat.pow_nonzero 2 items ltac:(lia)) as Hp.
  assert (Hp2 : (2 ^ 1 <= 2 ^ items)%nat) by (apply Nat.pow_le_mono_r; lia). cbn [Nat.pow] in Hp2.
  assert (Hle : (i * ns + items <= length bases)%nat) by (unfold items; lia). clearbody items.
  apply (pre_loop_ok bases (i * ns) items zero Hle); try (cbn; lia).
  - intros idx e He. destruct idx as [|idx]; [injection He as <-; reflexivity|destruct idx; discriminate He].
Qed.

(** More than 30 items in a batch: the shift of an int is undefined. *)
Lemma pre_batch_big bases zero ns : (31 <= ns)%nat -> (31 <= length bases)%nat -> pre_batch E mul bases zero ns 0 = UB.
Proof. intros H1 H2. unfold pre_batch, shl1. cbn [Nat.mul]. destruct (Nat.ltb_spec (Nat.min (length bases - 0) ns) 31); [lia|reflexivity]. Qed.

Definition table_ok (bases : list E) (zero : E) (ns nb : nat) (table : list (list E)) : Prop :=
  length table = nb /\ forall j row, nth_error table j = Some row -> row_ok zero (batch_of bases ns j) row.

Lemma mapM_seq_table bases zero ns : (1 <= ns)%nat -> (ns < 31)%nat -> forall n a,
  ((a + n) * ns < length bases + ns)%nat ->
  exists table, mapM (pre_batch E mul bases zero ns) (seq a n) = Ok table /\ length table = n /\
    forall j row, nth_error table j = Some row -> row_ok zero (batch_of bases ns (a + j)) row.
Proof.
  intros H1 H31. induction n as [|n IH]; intros a Ha; cbn [seq mapM].
  - exists []. split; [reflexivity|]. split; [reflexivity|]. intros [|j] row Hr; discriminate.
  - destruct (pre_batch_ok bases zero ns a) as (row0 & E0 & R0); [nia|exact H1|exact H31|]. rewrite E0. cbn [bind].
    destruct (IH (S a)) as (tb & Et & Hl & Ht); [lia|]. rewrite Et. cbn [bind]. exists (row0 :: tb). split; [reflexivity|].
    split; [cbn; lia|]. intros [|j] row Hr; cbn [nth_error] in Hr.
    + injection Hr as <-. rewrite Nat.add_0_r. exact R0.
    + replace (a + S j)%nat with (S a + j)%nat by lia. apply Ht. exact Hr.
Qed.

Definition simul_ok (bases : list E) (zero : E) (ns : nat) (t : simul E) : Prop :=
  sm_bases E t = length bases /\ sm_simultaneous E t = ns /\ sm_zero E t = zero /\
  (length bases <= sm_batches E t * ns)%nat /\ (sm_batches E t * ns < length bases + ns)%nat /\
  table_ok bases zero ns (sm_batches E t) (sm_table E t).

Lemma ceil_div a b : (1 <= b)%nat -> (a <= (a + b - 1) / b * b)%nat /\ ((a + b - 1) / b * b < a + b)%nat.
Proof.
  intros Hb. pose proof (Nat.div_mod (a + b - 1) b ltac:(lia)) as D. pose proof (Nat.mod_upper_bound (a + b - 1) b ltac:(lia)) as U.
  set (q := ((a + b - 1) / b)%nat) in *. nia.
Qed.

Lemma simul_create_ok bases zero ns : (1 <= ns)%nat -> (ns <= length bases)%nat -> (ns < 31)%nat ->
  exists t, simul_create E mul bases zero ns = Ok t /\ simul_ok bases zero ns t.
Proof.
  intros H1 Hl H31. unfold simul_create. destruct (Nat.eqb_spec ns 0); [lia|]. destruct (Nat.ltb_spec (length bases) ns); [lia|].
  destruct (ceil_div (length bases) ns H1) as [C1 C2].
  unfold precompute. destruct (mapM_seq_table bases zero ns H1 H31 ((length bases + ns - 1) / ns) 0) as (tb & Et & Hlt & Ht); [lia|].
  rewrite Et. cbn [bind]. eexists. split; [reflexivity|]. unfold simul_ok. cbn. 
  split; [reflexivity|]. split; [reflexivity|]. split; [reflexivity|]. split; [exact C1|]. split; [exact C2|]. split; [exact Hlt|exact Ht].
Qed.

(** *** Evaluation *)

Lemma pre_index_ok start i es : forall cnt k idx, (start + k + cnt <= length es)%nat -> (k + cnt < 31)%nat -> (idx < 2 ^ k)%nat ->
  exists idx', pre_index cnt k start i es idx = Ok idx' /\ (idx' < 2 ^ (k + cnt))%nat /\
    (forall b, (b < k)%nat -> Nat.testbit idx' b = Nat.testbit idx b) /\
    (forall b, (k <= b < k + cnt)%nat -> Nat.testbit idx' b = is_bit_set (nth (start + b) es 0) i).
Proof.
  induction cnt as [|cnt IH]; intros k idx Hl H31 Hi; cbn [pre_index].
  - exists idx. rewrite Nat.add_0_r. repeat split; auto. intros b Hb. lia.
  - destruct (nth_error es (start + k)) as [e|] eqn:Ee; [|apply nth_error_None in Ee; lia].
    pose proof (nth_error_nth es (start + k) 0 Ee) as En.
    pose proof (testbit_small idx k Hi) as Hk.
    destruct (is_bit_set e i) eqn:Eb.
    + unfold shl1. destruct (Nat.ltb_spec k 31); [|lia]. cbn [bind].
      assert (Hi' : (idx + 2 ^ k < 2 ^ S k)%nat) by (cbn [Nat.pow]; lia).
      destruct (IH (S k) (idx + 2 ^ k)%nat ltac:(lia) ltac:(lia) Hi') as (idx' & E' & L' & A' & B').
      destruct (testbit_sub_high (idx + 2 ^ k) k ltac:(lia) Hi') as (T1 & T2 & T3).
      exists idx'. split; [exact E'|]. split; [replace (k + S cnt)%nat with (S k + cnt)%nat by lia; exact L'|]. split.
      * intros b Hb. rewrite A' by lia. rewrite T3 by lia. f_equal. lia.
      * intros b Hb. destruct (Nat.eq_dec b k) as [->|Hn]; [|apply B'; lia]. rewrite A' by lia. rewrite T2, En. symmetry. exact Eb.
    + assert (Hi' : (idx < 2 ^ S k)%nat) by (cbn [Nat.pow]; lia).
      destruct (IH (S k) idx ltac:(lia) ltac:(lia) Hi') as (idx' & E' & L' & A' & B').
      exists idx'. split; [exact E'|]. split; [replace (k + S cnt)%nat with (S k + cnt)%nat by lia; exact L'|]. split.
      * intros b Hb. apply A'. lia.
      * intros b Hb. destruct (Nat.eq_dec b k) as [->|Hn]; [|apply B'; lia]. rewrite A' by lia. rewrite Hk, En. symmetry. exact Eb.
Qed.

Lemma skipn_skipn' {A} (l : list A) a b : skipn a (skipn b l) = skipn (b + a) l.
Proof. revert l. induction b as [|b IH]; intros l; [reflexivity|]. destruct l; cbn [skipn Nat.add]; [apply skipn_nil|apply IH]. Qed.

Lemma batch_loop_ok bases zero ns t es i : simul_ok bases zero ns t -> (1 <= ns)%nat -> (ns < 31)%nat -> length es = length bases ->
  forall cnt j r, (j + cnt = sm_batches E t)%nat ->
  exists r', batch_loop E mul t cnt j i es r = Ok r' /\
    v r' = op (v r) (selprod (skipn (j * ns) bases) (fun k => is_bit_set (nth (j * ns + k) es 0) i)).
Proof.
  intros (S1 & S2 & S3 & S4 & S5 & S6 & S7) H1 H31 Hes. induction cnt as [|cnt IH]; intros j r Hj; cbn [batch_loop].
  - exists r. split; [reflexivity|]. rewrite skipn_all2 by nia. cbn [selprod]. symmetry. apply op_one_r.
  - rewrite S1, S2.
    assert (Hs : (j * ns < length bases)%nat) by nia.
    set (bs := Nat.min ns (length bases - j * ns)).
    destruct (pre_index_ok (j * ns) i es bs 0 0) as (idx & Ei & Li & _ & Bi); try (cbn; unfold bs; lia).
    rewrite Ei. cbn [bind]. cbn [Nat.add] in Li, Bi.
    set (f := fun k => is_bit_set (nth (j * ns + k) es 0) i).
    assert (Hbl : length (batch_of bases ns j) = bs) by (unfold batch_of, bs; rewrite firstn_length, skipn_length; lia).
    assert (Hsplit : selprod (skipn (j * ns) bases) f =
      op (selprod (batch_of bases ns j) (Nat.testbit idx)) (selprod (skipn (S j * ns) bases) (fun k => is_bit_set (nth (S j * ns + k) es 0) i))).
    { rewrite <- (firstn_skipn ns (skipn (j * ns) bases)). fold (batch_of bases ns j). rewrite selprod_app. f_equal.
      - apply selprod_ext. intros k Hk. unfold f. symmetry. apply Bi. rewrite Hbl in Hk. lia.
      - rewrite skipn_skipn'. replace (j * ns + ns)%nat with (S j * ns)%nat by lia.
        destruct (Nat.le_gt_cases ns (length bases - j * ns)) as [Hle|Hgt].
        + assert (Hbn : bs = ns) by (unfold bs; lia). rewrite Hbl, Hbn. apply selprod_ext. intros k _. unfold f. do 2 f_equal. lia.
        + rewrite (skipn_all2 bases) by lia. reflexivity. }
    destruct (Nat.eqb_spec idx 0) as [E0|E0].
    + destruct (IH (S j) r ltac:(lia)) as (r' & Er & Vr). exists r'. split; [exact Er|]. rewrite Vr. f_equal.
      rewrite Hsplit, E0. rewrite (selprod_none (batch_of bases ns j) (Nat.testbit 0)); [rewrite op_one; reflexivity|].
      intros k _. apply Nat.bits_0.
    + destruct (nth_error (sm_table E t) j) as [row|] eqn:Er; [|apply nth_error_None in Er; lia].
      destruct (S7 j row Er) as [Hrl Hre]. rewrite Hbl in Hrl.
      destruct (nth_error row idx) as [e|] eqn:Ee; [|apply nth_error_None in Ee; lia].
      destruct (IH (S j) (mul r e) ltac:(lia)) as (r' & Er' & Vr). exists r'. split; [exact Er'|]. rewrite Vr.
      rewrite v_mul, (Hre idx e Ee). destruct (Nat.eqb_spec idx 0); [lia|]. rewrite Hsplit, op_assoc. reflexivity.
Qed.

Definition shifted (es : list Z) (n : nat) : list nat := map (fun e => Z.to_nat (Z.abs e / 2 ^ Z.of_nat n)) es.

Lemma prod_pow_step bases : forall es k, length es = length bases ->
  op (op (prod_pow bases (shifted es (S k))) (prod_pow bases (shifted es (S k))))
     (selprod bases (fun j => is_bit_set (nth j es 0) (Z.of_nat k))) = prod_pow bases (shifted es k).
Proof.
  induction bases as [|b bases IH]; intros es k Hl; destruct es as [|e es]; try discriminate; cbn [shifted map prod_pow selprod].
  - rewrite !op_one. reflexivity.
  - cbn [nth]. fold (shifted es (S k)). fold (shifted es k). rewrite <- (IH es k) by (cbn in Hl; lia).
    rewrite (op_swap (mpow (v b) _) (prod_pow _ _)), op_swap. f_equal.
    set (q := Z.abs e / 2 ^ Z.of_nat (S k)).
    assert (Hq : 0 <= q) by (apply Z.div_pos; [lia|apply Z.pow_pos_nonneg; lia]).
    assert (Hd : Z.abs e / 2 ^ Z.of_nat k = 2 * q + Z.b2z (is_bit_set e (Z.of_nat k))).
    { unfold q, is_bit_set. rewrite Nat2Z.inj_succ, Z.pow_succ_r by lia. rewrite Z.testbit_spec' by lia.
      rewrite (Z.mul_comm 2 (2 ^ Z.of_nat k)), <- (Z.div_div (Z.abs e) (2 ^ Z.of_nat k) 2) by (try apply Z.pow_nonzero; lia).
      apply Z.div_mod. lia. }
    rewrite Hd. destruct (is_bit_set e (Z.of_nat k)); cbn [Z.b2z].
    + replace (Z.to_nat (2 * q + 1)) with (Z.to_nat q + Z.to_nat q + 1)%nat by lia. rewrite !mpow_add. cbn [mpow]. rewrite op_one_r. reflexivity.
    + replace (Z.to_nat (2 * q + 0)) with (Z.to_nat q + Z.to_nat q)%nat by lia. rewrite mpow_add, op_one_r. reflexivity.
Qed.

Lemma bit_loop_ok bases zero ns t es : simul_ok bases zero ns t -> (1 <= ns)%nat -> (ns < 31)%nat -> length es = length bases ->
  forall n r, v r = prod_pow bases (shifted es n) ->
  exists r', bit_loop E mul is_zero t n es r = Ok r' /\ v r' = prod_pow bases (shifted es 0).
Proof.
  intros Hs H1 H31 Hes. induction n as [|n IH]; intros r Hr; cbn [bit_loop].
  - exists r. auto.
  - set (r1 := if is_zero r then r else mul r r).
    assert (Hr1 : v r1 = op (v r) (v r)).
    { unfold r1. destruct (is_zero r) eqn:Ez; [rewrite (v_zero r Ez), op_one; reflexivity|apply v_mul]. }
    destruct (batch_loop_ok bases zero ns t es (Z.of_nat n) Hs H1 H31 Hes (sm_batches E t) 0 r1 ltac:(lia)) as (r2 & E2 & V2).
    rewrite E2. cbn [bind]. apply IH. rewrite V2, Hr1, Hr. cbn [Nat.mul skipn Nat.add]. apply prod_pow_step. exact Hes.
Qed.

Lemma shifted_all_zero bases es n : (forall e, In e es -> Z.abs e < 2 ^ Z.of_nat n) -> prod_pow bases (shifted es n) = one.
Proof.
  revert bases. induction es as [|e es IH]; intros bases H; destruct bases as [|b bases]; try reflexivity.
  cbn [shifted map prod_pow]. fold (shifted es n). rewrite IH by (intros; apply H; right; assumption).
  rewrite Z.div_small by (specialize (H e (or_introl eq_refl)); lia). cbn. apply op_one.
Qed.

Lemma fold_max_bits es : forall m, m <= fold_left (fun m e => Z.max m (bit_length e)) es m /\
  forall e, In e es -> bit_length e <= fold_left (fun m e => Z.max m (bit_length e)) es m.
Proof.
  induction es as [|e es IH]; intros m; cbn [fold_left]; [split; [lia|intros ? []]|].
  destruct (IH (Z.max m (bit_length e))) as [A B]. split; [lia|]. intros x [<-|Hx]; [lia|apply B, Hx].
Qed.

Theorem simultaneous_exp_ok bases zero ns t es : v zero = one -> simul_ok bases zero ns t -> (1 <= ns)%nat -> (ns < 31)%nat ->
  length es = length bases ->
  exists r, simultaneous_exp E mul is_zero t es = Ok r /\ v r = prod_pow bases (map (fun e => Z.to_nat (Z.abs e)) es).
Proof.
  intros Hz Hs H1 H31 Hes. unfold simultaneous_exp. pose proof Hs as (S1 & S2 & S3 & _).
  rewrite S1, Hes, Nat.eqb_refl. cbn [negb].
  destruct (fold_max_bits es 0) as [Hm0 Hm]. set (mb := fold_left (fun m e => Z.max m (bit_length e)) es 0) in *.
  destruct (bit_loop_ok bases zero ns t es Hs H1 H31 Hes (Z.to_nat mb) (sm_zero E t)) as (r & Er & Vr).
  - rewrite S3, Hz. symmetry. apply shifted_all_zero. intros e He. rewrite Z2Nat.id by lia.
    destruct (Z.eq_dec e 0) as [->|Hne]; [apply Z.pow_pos_nonneg; lia|].
    pose proof (bit_length_pow e Hne) as [_ Hb]. pose proof (Z.pow_le_mono_r 2 _ _ ltac:(lia) (Hm e He)). lia.
  - exists r. split; [exact Er|]. rewrite Vr. f_equal. unfold shifted. apply map_ext. intros e. cbn. rewrite Z.div_1_r. reflexivity.
Qed.
End Proof.
