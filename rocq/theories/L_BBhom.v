(** Lemmas about the homomorphic computations of the oblivious signature: ciphertexts and commitments. *)
From Coq Require Import Znumtheory.
From Verif Require Import Base M_BigNum L_BigNum M_Num L_Mod L_Num L_NT M_DJ L_DJ M_Paillier L_Paillier L_PaillierKey M_EC M_Proto M_CS S_CS L_CS
  M_Simul M_Pedersen M_Wire M_VRF M_BB L_BBct S_Exp S_Pedersen L_Exp L_Protocol L_Pedersen L_VRF.

(** ** Loops *)
Lemma foldM_app {A B} (f : A -> B -> outcome A) l1 l2 a : foldM f a (l1 ++ l2) = (let* a' := foldM f a l1 in foldM f a' l2).
Proof. revert a. induction l1 as [|x l1 IH]; intros a; [reflexivity|]. cbn [app foldM]. destruct (f a x); cbn [bind]; [apply IH|reflexivity..]. Qed.
Lemma foldM_seq {A} (f : A -> nat -> outcome A) (st : nat -> A) k : (forall j, (j < k)%nat -> f (st j) j = Ok (st (S j))) -> foldM f (st 0%nat) (seq 0 k) = Ok (st k).
Proof.
  induction k as [|k IH]; intros H; [reflexivity|]. rewrite seq_S, foldM_app, IH by (intros; apply H; lia). cbn [bind foldM Nat.add]. rewrite (H k) by lia. reflexivity.
Qed.
Lemma map2_len {A B R} (f : A -> B -> R) a : forall b, length a = length b -> length (map2 f a b) = length a.
Proof. induction a as [|x a IH]; intros [|y b] H; cbn in *; try lia. rewrite IH by lia. reflexivity. Qed.
Lemma map2_nth (f : Z -> Z -> Z) a : forall b i, length a = length b -> f 0 0 = 0 -> nth i (map2 f a b) 0 = f (nth i a 0) (nth i b 0).
Proof. induction a as [|x a IH]; intros [|y b] i H H0; cbn in *; try lia; destruct i; cbn; try (symmetry; exact H0); try reflexivity. apply IH; [lia|exact H0]. Qed.
Lemma map2_mask c a : forall b, length a = length b -> map2 (mask c) a b = vadd a (vscale c b).
Proof. induction a as [|x a IH]; intros [|y b] H; cbn in *; try lia; [reflexivity|]. unfold vscale in IH. rewrite IH by lia. reflexivity. Qed.
Lemma nonneg_nth l i : nonneg l -> 0 <= nth i l 0.
Proof. intros H. destruct (lt_dec i (length l)) as [Hi|Hi]; [|rewrite nth_overflow by lia; lia]. unfold nonneg in H. rewrite Forall_forall in H. apply H, nth_In. exact Hi. Qed.
Lemma nonneg_map2 (f : Z -> Z -> Z) a b : (forall x y, 0 <= x -> 0 <= y -> 0 <= f x y) -> nonneg a -> nonneg b -> nonneg (map2 f a b).
Proof. intros Hf Ha. revert b. induction Ha as [|x a Hx Ha IH]; intros b Hb; [constructor|]. destruct Hb as [|y b Hy Hb]; constructor; [apply Hf; assumption|apply IH; exact Hb]. Qed.
Lemma sumz_trunc k m f : (k <= m)%nat -> (forall i, (k <= i < m)%nat -> f i = 0) -> sumz m f = sumz k f.
Proof. intros H. induction H as [|m H IH]; intros Hz; [reflexivity|]. cbn [sumz]. rewrite IH by (intros; apply Hz; lia). rewrite Hz by lia. lia. Qed.

(** ** Batches *)
Lemma num_cts_lt len total i : (0 < len)%nat -> (i < num_cts len total)%nat -> (i * len < total)%nat.
Proof.
  intros Hl H. unfold num_cts in H. pose proof (Nat.mul_div_le (total + len - 1) len ltac:(lia)) as D. set (d := ((total + len - 1) / len)%nat) in *.
  assert ((i + 1) * len <= len * d)%nat by nia. lia.
Qed.
Lemma num_cts_cover len total : (0 < len)%nat -> (total <= num_cts len total * len)%nat.
Proof.
  intros Hl. unfold num_cts. pose proof (Nat.mul_succ_div_gt (total + len - 1) len ltac:(lia)) as D. set (d := ((total + len - 1) / len)%nat) in *. nia.
Qed.
Lemma slice_ok {A} (l : list A) a k : (a + k <= length l)%nat -> slice l a (a + k) = Ok (firstn k (skipn a l)).
Proof. intros H. unfold slice. destruct (Nat.leb_spec a (a + k)); [|lia]. destruct (Nat.leb_spec (a + k) (length l)); [|lia]. cbn [andb]. do 2 f_equal. lia. Qed.
Lemma slice_nth (l : list Z) a k i : nth i (firstn k (skipn a l)) 0 = if (i <? k)%nat then nth (a + i) l 0 else 0.
Proof.
  destruct (Nat.ltb_spec i k) as [H|H].
  - rewrite <- (firstn_skipn a l) at 2. destruct (le_lt_dec a (length l)) as [Ha|Ha].
    + rewrite app_nth2 by (rewrite firstn_length; lia). rewrite firstn_length. replace (a + i - Nat.min a (length l))%nat with i by lia.
      clear - H. revert k H. generalize (skipn a l) as m. intros m. revert i. induction m as [|x m IH]; intros i k H; [rewrite firstn_nil; reflexivity|].
      destruct k; [lia|]. destruct i; [reflexivity|]. cbn. apply IH. lia.
    + rewrite (skipn_all2 l) by lia. rewrite firstn_nil, app_nil_r, firstn_all2 by lia. rewrite !nth_overflow; [reflexivity|lia|cbn; lia].
  - apply nth_overflow. rewrite firstn_length. lia.
Qed.
Lemma slice_len {A} (l : list A) a k : (a + k <= length l)%nat -> length (firstn k (skipn a l)) = k.
Proof. intros H. rewrite firstn_length, skipn_length. lia. Qed.

Lemma inverse_mod N a X : 1 < N -> Z.gcd a N = 1 -> exists i, bn_mod_inverse (a mod N) N = Ok i /\ 0 <= i < N /\ eqmod N (X * a * i) X.
Proof.
  intros HN G. assert (G' : Z.gcd (a mod N) N = 1) by (apply (gcd_eqmod _ a); [apply eqmod_mod|exact G]).
  destruct (bn_mod_inverse_ok (a mod N) N ltac:(lia) G') as (i & Ei & Ri & Pi). exists i. split; [exact Ei|]. split; [exact Ri|].
  apply eq_eqmod in Pi. rewrite (eqmod_mod N a) in Pi. rewrite <- Z.mul_assoc, Pi, Z.mul_1_r. reflexivity.
Qed.

Section Hom.
Variable flag : bool.
Variable C : ec.
Variable b : bb C.
Variables (n : Z) (s : nat) (xs : list Z).
Notation pk := (bb_cs C b).
Hypothesis W : cs_valid n s pk.
Hypothesis Hg : Z.gcd (cs_g pk) n = 1.
Hypothesis Hk : key_match n s (cs_g pk) xs (cs_ys pk).
Notation M := (n ^ (Z.of_nat s + 1)).
Notation len := (cs_len pk).
Notation E := (enc n s pk xs).
Hypothesis Hlen : (0 < len)%nat.

(** The public key's ciphertexts: k (or y) in slot j, with randomness rk j. *)
Definition key_cts (rk : nat -> Z) (k : Z) : list cs_ciphertext := tab len (fun j => E (rk j) (fun l => if (l =? j)%nat then k else 0)).

Variables (rk ry : nat -> Z) (k y : Z).
Hypothesis Hrk : forall j, 0 <= rk j.
Hypothesis Hry : forall j, 0 <= ry j.
Hypothesis Hk0 : 0 <= k.
Hypothesis Hy0 : 0 <= y.

Definition hr (as_ gs rnd : list Z) (i : nat) : Z :=
  nth i rnd 0 + sumz len (fun j => nth (i * len + j) as_ 0 * rk j + nth (i * len + j) gs 0 * ry j).
Definition hf (ms as_ gs : list Z) (i l : nat) : Z := nth (i * len + l) ms 0 + nth (i * len + l) as_ 0 * k + nth (i * len + l) gs 0 * y.

Lemma hf_nonneg ms as_ gs i l : nonneg ms -> nonneg as_ -> nonneg gs -> 0 <= hf ms as_ gs i l.
Proof.
  intros H1 H2 H3. unfold hf. pose proof (nonneg_nth _ (i * len + l) H1). pose proof (nonneg_nth _ (i * len + l) H2). pose proof (nonneg_nth _ (i * len + l) H3).
  pose proof (Z.mul_nonneg_nonneg (nth (i * len + l) as_ 0) k). pose proof (Z.mul_nonneg_nonneg (nth (i * len + l) gs 0) y). lia.
Qed.
Lemma hr_nonneg as_ gs rnd i : nonneg as_ -> nonneg gs -> nonneg rnd -> 0 <= hr as_ gs rnd i.
Proof.
  intros H1 H2 H3. unfold hr. pose proof (nonneg_nth _ i H3).
  assert (0 <= sumz len (fun j => nth (i * len + j) as_ 0 * rk j + nth (i * len + j) gs 0 * ry j)); [|lia].
  apply sumz_nonneg. intros j _. pose proof (nonneg_nth _ (i * len + j) H1). pose proof (nonneg_nth _ (i * len + j) H2).
  pose proof (Z.mul_nonneg_nonneg (nth (i * len + j) as_ 0) (rk j)). pose proof (Z.mul_nonneg_nonneg (nth (i * len + j) gs 0) (ry j)). pose proof (Hrk j). pose proof (Hry j). lia.
Qed.

Definition rnd_ok (r : Z) : Prop := 0 <= r /\ (r = 0 \/ Z.gcd r n = 1).

Lemma homomorphic_one ms as_ gs r i : length as_ = length ms -> length gs = length ms -> nonneg ms -> nonneg as_ -> nonneg gs ->
  (i < num_cts len (length ms))%nat -> rnd_ok r ->
  let start := (i * len)%nat in let size := Nat.min len (length ms - start) in
  (let* batch := slice ms start (start + size) in
   let* r' := Ok r in
   let* ct := cs_encrypt_with_rand flag pk batch r' in
   foldM (add_slot C b (key_cts rk k) (key_cts ry y) as_ gs start) ct (seq 0 size)) =
  Ok (E (r + sumz len (fun j => nth (start + j) as_ 0 * rk j + nth (start + j) gs 0 * ry j)) (hf ms as_ gs i)).
Proof.
  intros La Lg Hm Ha Hgs Hi [Hr Hc] start size. pose proof (num_cts_lt len (length ms) i Hlen Hi) as Hs. fold start in Hs.
  assert (Hsz : (start + size <= length ms)%nat) by (unfold size; lia). assert (Hsl : (size <= len)%nat) by (unfold size; lia).
  rewrite (slice_ok ms start size Hsz). cbn [bind].
  assert (Nb : Forall (fun m => 0 <= m) (firstn size (skipn start ms))).
  { apply Forall_forall. intros m Hin. unfold nonneg in Hm. rewrite Forall_forall in Hm. apply Hm. rewrite <- (firstn_skipn start ms). apply in_or_app. right.
    rewrite <- (firstn_skipn size (skipn start ms)). apply in_or_app. left. exact Hin. }
  rewrite (enc_with_rand flag n s pk xs W Hg Hk) by (try assumption; rewrite slice_len by exact Hsz; exact Hsl). cbn [bind].
  set (F := fun j => nth (start + j) as_ 0 * rk j + nth (start + j) gs 0 * ry j).
  set (base := fun l => nth l (firstn size (skipn start ms)) 0).
  set (g := fun l => nth (start + l) as_ 0 * k + nth (start + l) gs 0 * y).
  assert (HF : forall j, 0 <= F j).
  { intros j. unfold F. pose proof (nonneg_nth _ (start + j) Ha). pose proof (nonneg_nth _ (start + j) Hgs). pose proof (Hrk j). pose proof (Hry j).
    pose proof (Z.mul_nonneg_nonneg (nth (start + j) as_ 0) (rk j)). pose proof (Z.mul_nonneg_nonneg (nth (start + j) gs 0) (ry j)). lia. }
  assert (Hgl : forall l, 0 <= g l).
  { intros l. unfold g. pose proof (nonneg_nth _ (start + l) Ha). pose proof (nonneg_nth _ (start + l) Hgs).
    pose proof (Z.mul_nonneg_nonneg (nth (start + l) as_ 0) k). pose proof (Z.mul_nonneg_nonneg (nth (start + l) gs 0) y). lia. }
  assert (Hbl : forall l, 0 <= base l) by (intros l; apply nonneg_nth; exact Nb).
  set (st := fun j => E (r + sumz j F) (fun l => base l + if (l <? j)%nat then g l else 0)).
  assert (E0 : E r base = st 0%nat).
  { unfold st. apply enc_ext; [cbn; lia|]. intros l Hl. cbn. lia. }
  change (E r (fun l => nth l (firstn size (skipn start ms)) 0)) with (E r base). rewrite E0. rewrite (foldM_seq _ st size).
  - unfold st. f_equal. apply enc_ext.
    + f_equal. symmetry. apply sumz_trunc; [exact Hsl|]. intros j Hj. unfold F. rewrite (nth_overflow as_), (nth_overflow gs) by (unfold size in Hj; lia). lia.
    + intros l Hl. unfold base, g, hf. rewrite slice_nth. fold start. destruct (Nat.ltb_spec l size) as [Hls|Hls]; [lia|].
      rewrite (nth_overflow ms), (nth_overflow as_), (nth_overflow gs) by (unfold size in Hls; lia). lia.
  - intros j Hj. assert (Hjl : (j < len)%nat) by lia. unfold add_slot.
    rewrite (at_index_some (key_cts rk k) j (E (rk j) (fun l => if (l =? j)%nat then k else 0))) by (unfold key_cts; rewrite tab_at by exact Hjl; reflexivity). cbn [bind].
    rewrite (at_index_ok as_) by lia. cbn [bind].
    pose proof (nonneg_nth _ (start + j) Ha) as Haj. pose proof (nonneg_nth _ (start + j) Hgs) as Hgj.
    assert (Hsl0 : forall v, 0 <= v -> forall l, 0 <= if (l =? j)%nat then v else 0) by (intros v Hv l; destruct (l =? j)%nat; lia).
    rewrite (enc_mul n s pk xs W Hk) by (first [assumption|apply Hrk|intros l; destruct (l =? j)%nat; lia]). cbn [bind].
    assert (Hr1 : 0 <= r + sumz j F) by (pose proof (sumz_nonneg j F ltac:(intros; apply HF)); lia).
    unfold st at 1. rewrite (enc_add n s pk xs W Hk).
    2: exact Hr1. 2: apply Z.mul_nonneg_nonneg; [exact Haj|apply Hrk].
    2: intros l; specialize (Hbl l); specialize (Hgl l); destruct (l <? j)%nat; lia.
    2: intros l; apply Z.mul_nonneg_nonneg; [exact Haj|apply Hsl0; exact Hk0].
    cbn [bind]. rewrite (at_index_some (key_cts ry y) j (E (ry j) (fun l => if (l =? j)%nat then y else 0))) by (unfold key_cts; rewrite tab_at by exact Hjl; reflexivity). cbn [bind].
    rewrite (at_index_ok gs) by lia. cbn [bind].
    rewrite (enc_mul n s pk xs W Hk) by (first [assumption|apply Hry|intros l; destruct (l =? j)%nat; lia]). cbn [bind].
    rewrite (enc_add n s pk xs W Hk).
    2: pose proof (Z.mul_nonneg_nonneg _ _ Haj (Hrk j)); lia. 2: apply Z.mul_nonneg_nonneg; [exact Hgj|apply Hry].
    2: intros l; specialize (Hbl l); specialize (Hgl l); pose proof (Z.mul_nonneg_nonneg _ _ Haj (Hsl0 k Hk0 l)); destruct (l <? j)%nat; lia.
    2: intros l; apply Z.mul_nonneg_nonneg; [exact Hgj|apply Hsl0; exact Hy0].
    unfold st. f_equal. apply enc_ext.
    + cbn [sumz]. unfold F. lia.
    + intros l Hl. destruct (Nat.eqb_spec l j) as [->|Hne].
      * destruct (Nat.ltb_spec j j); [lia|]. destruct (Nat.ltb_spec j (S j)); [|lia]. unfold g. lia.
      * destruct (Nat.ltb_spec l j), (Nat.ltb_spec l (S j)); lia.
Qed.

Lemma homomorphic_ok ms as_ gs rnd : length as_ = length ms -> length gs = length ms -> length rnd = num_cts len (length ms) ->
  nonneg ms -> nonneg as_ -> nonneg gs -> Forall rnd_ok rnd ->
  homomorphic_cts flag C b ms as_ gs rnd (key_cts rk k) (key_cts ry y) = Ok (tab (num_cts len (length ms)) (fun i => E (hr as_ gs rnd i) (hf ms as_ gs i))).
Proof.
  intros La Lg Lr Hm Ha Hgs Hrnd. unfold homomorphic_cts. destruct (Nat.eqb_spec len 0) as [E0|_]; [lia|]. apply mapM_seq. intros i Hi.
  assert (Hri : rnd_ok (nth i rnd 0)) by (rewrite Forall_forall in Hrnd; apply Hrnd, nth_In; lia).
  pose proof (homomorphic_one ms as_ gs (nth i rnd 0) i La Lg Hm Ha Hgs Hi Hri) as O1. cbv zeta in O1. rewrite (at_index_ok rnd) by lia. exact O1.
Qed.

Lemma homomorphic_rejects ms as_ gs rnd : length as_ = length ms -> length gs = length ms -> length rnd = num_cts len (length ms) ->
  nonneg ms -> nonneg as_ -> nonneg gs -> nonneg rnd -> ~ Forall rnd_ok rnd ->
  homomorphic_cts flag C b ms as_ gs rnd (key_cts rk k) (key_cts ry y) = Err InvalidArgument.
Proof.
  intros La Lg Lr Hm Ha Hgs Hn0 Hrnd. unfold homomorphic_cts. destruct (Nat.eqb_spec len 0) as [E0|_]; [lia|].
  assert (Hdec : forall r, 0 <= r -> {rnd_ok r} + {~ rnd_ok r}).
  { intros r Hr. unfold rnd_ok. destruct (Z.eq_dec r 0); [left; lia|]. destruct (Z.eq_dec (Z.gcd r n) 1); [left; lia|right; lia]. }
  match goal with |- mapM ?f _ = _ => set (FF := f) end.
  assert (K : forall js, (forall i, In i js -> (i < num_cts len (length ms))%nat) -> (exists i, In i js /\ ~ rnd_ok (nth i rnd 0)) -> mapM FF js = Err InvalidArgument).
  { induction js as [|i js IH]; intros Hin (i0 & H0 & Hbad); [contradiction|]. cbn [mapM]. assert (Hi : (i < num_cts len (length ms))%nat) by (apply Hin; left; reflexivity).
    pose proof (num_cts_lt len (length ms) i Hlen Hi) as Hs. pose proof (nonneg_nth rnd i Hn0) as Hr0. destruct (Hdec (nth i rnd 0) Hr0) as [G|G].
    - pose proof (homomorphic_one ms as_ gs (nth i rnd 0) i La Lg Hm Ha Hgs Hi G) as O1. cbv zeta in O1. rewrite <- (at_index_ok rnd i) in O1 by lia.
      change (FF i = Ok (E (nth i rnd 0 + sumz len (fun j => nth (i * len + j) as_ 0 * rk j + nth (i * len + j) gs 0 * ry j)) (hf ms as_ gs i))) in O1.
      rewrite O1. cbn [bind]. rewrite IH; [reflexivity| |].
      + intros j Hj. apply Hin. right. exact Hj.
      + exists i0. split; [|exact Hbad]. destruct H0 as [->|H0]; [contradiction|exact H0].
    - assert (O1 : FF i = Err InvalidArgument); [|rewrite O1; reflexivity].
      unfold FF. cbv zeta. rewrite slice_ok by lia. rewrite (at_index_ok rnd) by lia. cbn [bind]. rewrite (cs_encrypt_with_rand_rejects flag n s pk W); [reflexivity|]. right. unfold rnd_ok in G.
      destruct (Z.eq_dec (nth i rnd 0) 0); [lia|]. destruct (Z.eq_dec (Z.gcd (nth i rnd 0) n) 1); [lia|]. right. split; assumption. }
  apply K; [intros i Hi; apply in_seq in Hi; lia|].
  assert (K2 : forall l : list Z, nonneg l -> ~ Forall rnd_ok l -> exists i, (i < length l)%nat /\ ~ rnd_ok (nth i l 0)).
  { induction l as [|r l IH]; intros Hn1 H; [exfalso; apply H; constructor|]. inversion Hn1 as [|? ? Hr Hl]; subst. destruct (Hdec r Hr) as [G|G].
    - destruct IH as (i & Hi & B); [exact Hl|intros F; apply H; constructor; assumption|]. exists (S i). split; [cbn; lia|exact B].
    - exists 0%nat. split; [cbn; lia|exact G]. }
  destruct (K2 rnd Hn0 Hrnd) as (i & Hi & B). exists i. split; [apply in_seq; lia|exact B].
Qed.

(** Dividing by the challenge power of the original ciphertext. *)
Lemma unmask_enc R R' f f' c : 0 <= R -> 0 <= R' -> 0 <= c -> (forall l, 0 <= f l) -> (forall l, 0 <= f' l) ->
  unmask_ct C b (E (R + c * R') (fun l => f l + c * f' l)) (E R' f') c = Ok (E R f).
Proof.
  intros HR HR' Hc Hf Hf'. pose proof (M1 n s pk W) as HM. unfold unmask_ct. rewrite (enc_mul n s pk xs W Hk) by assumption. cbn [bind].
  assert (HcR : 0 <= c * R') by (apply Z.mul_nonneg_nonneg; assumption). assert (Hcf : forall l, 0 <= c * f' l) by (intros l; apply Z.mul_nonneg_nonneg; [exact Hc|apply Hf']).
  rewrite (w_mod _ _ _ W).
  destruct (inverse_mod M (cs_g pk ^ (c * R')) (cs_g pk ^ R) HM (g_unit n s pk Hg _ HcR)) as (iu & Eu & Bu & Pu). cbn [enc ct_u ct_es]. rewrite Eu. cbn [bind].
  set (iv := fun l => match bn_mod_inverse (enc_e n s pk xs (c * R') (fun l => c * f' l) l) M with Ok i => i | _ => 0 end).
  assert (Ev : forall l, bn_mod_inverse (enc_e n s pk xs (c * R') (fun l => c * f' l) l) M = Ok (iv l) /\
    eqmod M (((cs_g pk ^ R) ^ nth l xs 0 * (1 + n) ^ f l) * ((cs_g pk ^ (c * R')) ^ nth l xs 0 * (1 + n) ^ (c * f' l)) * iv l) ((cs_g pk ^ R) ^ nth l xs 0 * (1 + n) ^ f l)).
  { intros l. destruct (inverse_mod M ((cs_g pk ^ (c * R')) ^ nth l xs 0 * (1 + n) ^ (c * f' l)) ((cs_g pk ^ R) ^ nth l xs 0 * (1 + n) ^ f l) HM
      (enc_e_raw_unit n s pk xs W Hg Hk (c * R') (fun l => c * f' l) l HcR (Hcf l))) as (i & Ei & Bi & Pi).
    unfold iv, enc_e. rewrite Ei. split; [reflexivity|exact Pi]. }
  assert (EM : mapM (fun e => bn_mod_inverse e M) (tab len (enc_e n s pk xs (c * R') (fun l => c * f' l))) = Ok (tab len iv)).
  { unfold tab. clear - Ev. generalize (seq 0 len) as js. induction js as [|j js IH]; [reflexivity|]. cbn [map mapM]. rewrite (proj1 (Ev j)). cbn [bind]. rewrite IH. reflexivity. }
  rewrite EM. cbn [bind]. unfold cs_add, enc. cbn [ct_u ct_es]. rewrite !tab_len, Nat.eqb_refl. cbn [negb]. rewrite (w_mod _ _ _ W), bn_mod_mul_ok by lia. cbn [bind].
  unfold tab. rewrite (add_loop_map n s pk W). cbn [bind]. unfold enc. do 2 f_equal.
  - apply eqmod_eq; [lia|]. rewrite (eqmod_mod M (_ ^ _)), (Z.pow_add_r (cs_g pk)) by assumption. exact Pu.
  - apply (tab_ext len). intros l Hl. unfold enc_e at 1. pose proof (x_nonneg n s pk xs W Hk l) as Hx. apply eqmod_eq; [lia|]. rewrite (eqmod_mod M (_ * _)).
    rewrite (Z.pow_add_r (cs_g pk)), (Z.pow_mul_l (cs_g pk ^ R)), (Z.pow_add_r (1 + n)) by (first [assumption|apply Hf|apply Hcf]).
    etransitivity; [|exact (proj2 (Ev l))]. exists 0. ring.
Qed.
End Hom.
