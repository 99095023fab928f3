(** Lemmas about the ciphertexts of the oblivious signature: every honest ciphertext is determined by its randomness and its messages. *)
From Coq Require Import Znumtheory.
From Verif Require Import Base M_BigNum L_BigNum M_Num L_Mod L_Num L_NT M_DJ L_DJ M_Paillier L_Paillier L_PaillierKey M_EC M_Proto M_CS S_CS L_CS
  M_Pedersen M_Wire M_VRF M_BB.

Definition tab {A} (k : nat) (f : nat -> A) : list A := map f (seq 0 k).
Lemma tab_len {A} k (f : nat -> A) : length (tab k f) = k. Proof. unfold tab. rewrite map_length, seq_length. reflexivity. Qed.
Lemma tab_ext {A} k (f g : nat -> A) : (forall i, (i < k)%nat -> f i = g i) -> tab k f = tab k g.
Proof. intros H. apply map_ext_in. intros i Hi. apply in_seq in Hi. apply H. lia. Qed.
Lemma tab_at {A} k (f : nat -> A) i : (i < k)%nat -> nth_error (tab k f) i = Some (f i).
Proof. intros H. unfold tab. rewrite nth_error_map, nth_error_nth' with (d := 0%nat) by (rewrite seq_length; exact H). rewrite seq_nth by exact H. reflexivity. Qed.
Lemma tab_nth k (f : nat -> Z) i : nth i (tab k f) 0 = if (i <? k)%nat then f i else 0.
Proof.
  destruct (Nat.ltb_spec i k) as [H|H]; [apply nth_error_nth, tab_at; exact H|]. apply nth_overflow. rewrite tab_len. exact H.
Qed.
Lemma map_tab {A B} (h : A -> B) k f : map h (tab k f) = tab k (fun i => h (f i)). Proof. apply map_map. Qed.
Lemma tab_of (l : list Z) : l = tab (length l) (fun i => nth i l 0). Proof. apply list_seq_nth. Qed.
Lemma tab_Forall {A} (Q : A -> Prop) k f : (forall i, (i < k)%nat -> Q (f i)) -> Forall Q (tab k f).
Proof. intros H. apply Forall_forall. intros x Hx. apply in_map_iff in Hx. destruct Hx as (i & <- & Hi). apply in_seq in Hi. apply H. lia. Qed.

Fixpoint sumz (k : nat) (f : nat -> Z) : Z := match k with O => 0 | S k' => sumz k' f + f k' end.
Lemma sumz_ext k f g : (forall i, (i < k)%nat -> f i = g i) -> sumz k f = sumz k g.
Proof. induction k as [|k IH]; intros H; [reflexivity|]. cbn [sumz]. rewrite IH by (intros; apply H; lia). rewrite H by lia. reflexivity. Qed.
Lemma sumz_nonneg k f : (forall i, (i < k)%nat -> 0 <= f i) -> 0 <= sumz k f.
Proof. induction k as [|k IH]; intros H; [cbn; lia|]. cbn [sumz]. specialize (IH ltac:(intros; apply H; lia)). specialize (H k ltac:(lia)). lia. Qed.
Lemma sumz_lin k f g c : sumz k (fun i => f i + c * g i) = sumz k f + c * sumz k g.
Proof. induction k as [|k IH]; cbn [sumz]; [lia|rewrite IH; ring]. Qed.

Section Ct.
Variable flag : bool.
Variables (n : Z) (s : nat) (pk : cs_public) (xs : list Z).
Hypothesis W : cs_valid n s pk.
Hypothesis Hg : Z.gcd (cs_g pk) n = 1.
Hypothesis Hk : key_match n s (cs_g pk) xs (cs_ys pk).
Notation M := (n ^ (Z.of_nat s + 1)).
Notation P := (n ^ Z.of_nat s).
Notation g := (cs_g pk).
Notation len := (cs_len pk).
Notation x := (fun l => nth l xs 0).

Lemma xs_len : length xs = len. Proof. unfold cs_len. apply (key_match_range _ _ _ _ _ (w_gt _ _ _ W) Hk). Qed.
Lemma x_nonneg l : 0 <= nth l xs 0.
Proof.
  destruct (lt_dec l (length xs)) as [H|H]; [|rewrite nth_overflow by lia; lia].
  destruct (key_match_range _ _ _ _ _ (w_gt _ _ _ W) Hk) as (F & _). rewrite Forall_forall in F. apply F. apply nth_In. exact H.
Qed.
Lemma M1 : 1 < M. Proof. exact (e_M n s pk W). Qed.
Lemma n1 : 1 < n. Proof. exact (w_gt _ _ _ W). Qed.

(** The ciphertext with randomness r and messages f 0, f 1, ... *)
Definition enc_e (r : Z) (f : nat -> Z) (l : nat) : Z := ((g ^ r) ^ x l * (1 + n) ^ f l) mod M.
Definition enc (r : Z) (f : nat -> Z) : cs_ciphertext := {| ct_u := g ^ r mod M; ct_es := tab len (enc_e r f) |}.
Lemma enc_ext r r' f f' : r = r' -> (forall l, (l < len)%nat -> f l = f' l) -> enc r f = enc r' f'.
Proof. intros -> H. unfold enc. f_equal. apply tab_ext. intros l Hl. unfold enc_e. rewrite (H l Hl). reflexivity. Qed.

Lemma gcdM a : Z.gcd a n = 1 -> Z.gcd a M = 1. Proof. intros H. apply gcd_pow_r; [lia|exact H]. Qed.
Lemma g_unit r : 0 <= r -> Z.gcd (g ^ r) M = 1. Proof. intros Hr. apply gcdM. apply gcd_pow_l; assumption. Qed.
Lemma np1_unit i : 0 <= i -> Z.gcd ((1 + n) ^ i) M = 1.
Proof. intros Hi. apply gcdM. apply gcd_pow_l; [exact Hi|]. apply (gcd_eqmod _ 1); [exists 1; lia|]. apply Z.gcd_1_l. Qed.
Lemma enc_e_raw_unit r f l : 0 <= r -> 0 <= f l -> Z.gcd ((g ^ r) ^ x l * (1 + n) ^ f l) M = 1.
Proof. intros Hr Hf. apply gcd_mul_l; [apply gcd_pow_l; [apply x_nonneg|apply g_unit; exact Hr]|apply np1_unit; exact Hf]. Qed.
Lemma mod_unit a : Z.gcd a M = 1 -> Z.gcd (a mod M) M = 1. Proof. apply gcd_eqmod. apply eqmod_mod. Qed.

(** From an opening to the canonical form. *)
Lemma opens_all_at u xs' es ms : cs_opens_all n s u xs' es ms -> forall l, (l < length xs')%nat -> cs_opens n s (nth l xs' 0) u (nth l es 0) (nth l ms 0).
Proof. intros H. induction H as [|x0 xs0 e es m ms O1 H IH]; intros l Hl; cbn in Hl; [lia|]. destruct l as [|l]; [exact O1|]. cbn. apply IH. lia. Qed.

Lemma enc_with_rand ms r : (length ms <= len)%nat -> Forall (fun m => 0 <= m) ms -> 0 <= r -> r = 0 \/ Z.gcd r n = 1 ->
  cs_encrypt_with_rand flag pk ms r = Ok (enc r (fun l => nth l ms 0)).
Proof.
  intros Hl Hm Hr Hc. destruct (cs_encrypt_with_rand_ok flag n s pk W Hg xs ms r Hk Hl Hr Hc) as (c & E & Bu & Be & O1). rewrite E. f_equal.
  assert (Eu : ct_u c = g ^ r mod M).
  { unfold cs_encrypt_with_rand in E. destruct (Nat.ltb (length (cs_ys pk)) (length ms)); [discriminate|]. destruct (_ || _); [discriminate|].
    rewrite (w_mod _ _ _ W) in E. rewrite fixed_base_exp_ok in E by (try exact M1; try exact Hr; try exact (w_g _ _ _ W); exact (e_odd n s pk W)). cbn [bind] in E.
    destruct (cs_encrypt_loop flag pk (cs_ys pk) ms r); cbn [bind] in E; try discriminate. injection E as <-. reflexivity. }
  destruct c as [u es]. cbn [ct_u ct_es] in *. unfold enc. f_equal; [exact Eu|].
  destruct (opens_all_length _ _ _ _ _ _ O1) as [L1 L2]. rewrite xs_len in L1. rewrite (tab_of es), <- L1. apply tab_ext. intros l Hll.
  pose proof (opens_all_at _ _ _ _ O1 l ltac:(rewrite xs_len; exact Hll)) as [_ D]. change (eqmod M (nth l es 0) (u ^ nth l xs 0 * (1 + n) ^ nth l (padded n s len ms) 0)) in D.
  assert (R : 0 <= nth l es 0 < M). { rewrite Forall_forall in Be. apply Be. apply nth_In. lia. }
  rewrite <- (Z.mod_small (nth l es 0) M R). unfold enc_e. apply eqmod_eq; [pose proof M1; lia|]. rewrite D, Eu, (eqmod_mod M (g ^ r)).
  assert (Ep : nth l (padded n s len ms) 0 = nth l ms 0 mod P).
  { unfold padded. destruct (lt_dec l (length (ms ++ repeat 0 (len - length ms)))) as [Hi|Hi].
    - rewrite (nth_indep _ 0 (0 mod P)) by (rewrite map_length; exact Hi). rewrite (map_nth (fun m => m mod P)). f_equal.
      destruct (lt_dec l (length ms)) as [Hj|Hj]; [apply app_nth1; exact Hj|]. rewrite app_nth2 by lia. rewrite nth_repeat. symmetry. apply nth_overflow. lia.
    - rewrite app_length, repeat_length in Hi. lia. }
  rewrite Ep. assert (Hml : 0 <= nth l ms 0).
  { destruct (lt_dec l (length ms)) as [Hj|Hj]; [rewrite Forall_forall in Hm; apply Hm, nth_In; exact Hj|rewrite nth_overflow by lia; lia]. }
  rewrite <- (one_plus_period n n s n1 (Z.divide_refl n) (nth l ms 0) Hml). reflexivity.
Qed.

Lemma add_loop_map (F G : nat -> Z) (l : list nat) : cs_add_loop M (map F l) (map G l) = Ok (map (fun i => (F i * G i) mod M) l).
Proof. induction l as [|i l IH]; [reflexivity|]. cbn [map cs_add_loop]. rewrite bn_mod_mul_ok by (pose proof M1; lia). cbn [bind]. rewrite IH. reflexivity. Qed.

Lemma enc_add r r' f f' : 0 <= r -> 0 <= r' -> (forall l, 0 <= f l) -> (forall l, 0 <= f' l) ->
  cs_add pk (enc r f) (enc r' f') = Ok (enc (r + r') (fun l => f l + f' l)).
Proof.
  intros Hr Hr' Hf Hf'. pose proof M1 as HM. unfold cs_add, enc. cbn [ct_es ct_u]. rewrite !tab_len, Nat.eqb_refl. cbn [negb].
  rewrite (w_mod _ _ _ W), bn_mod_mul_ok by lia. cbn [bind]. unfold tab. rewrite add_loop_map. cbn [bind]. do 2 f_equal.
  - apply eqmod_eq; [lia|]. rewrite !(eqmod_mod M), (Z.pow_add_r g) by assumption. reflexivity.
  - apply (tab_ext len). intros l Hl. unfold enc_e. apply eqmod_eq; [lia|]. rewrite !(eqmod_mod M). pose proof (x_nonneg l).
    rewrite (Z.pow_add_r g), Z.pow_mul_l, (Z.pow_add_r (1 + n)) by (first [assumption|apply Hf|apply Hf']). exists 0. ring.
Qed.
Lemma enc_mul r f k : 0 <= r -> (forall l, 0 <= f l) -> 0 <= k -> cs_multiply pk (enc r f) k = Ok (enc (k * r) (fun l => k * f l)).
Proof.
  intros Hr Hf Hkk. pose proof M1 as HM. unfold cs_multiply. cbn [ct_u ct_es enc]. rewrite (w_mod _ _ _ W), bn_mod_exp_ok by lia. cbn [bind].
  pose proof (cs_multiply_loop_ok n s pk W k (tab len (enc_e r f)) Hkk []) as E. cbn [length app] in E. rewrite tab_len in E. rewrite E. cbn [bind]. unfold enc. do 2 f_equal.
  - apply eqmod_eq; [lia|]. rewrite (eqmod_pow _ _ _ _ (eqmod_mod M (g ^ r))), <- Z.pow_mul_r by assumption. rewrite (Z.mul_comm r k). reflexivity.
  - rewrite map_tab. apply tab_ext. intros l Hl. unfold enc_e. apply eqmod_eq; [lia|]. pose proof (x_nonneg l).
    rewrite (eqmod_pow _ _ _ _ (eqmod_mod M _)), Z.pow_mul_l.
    rewrite <- (Z.pow_mul_r (1 + n)) by (first [assumption|apply Hf]). rewrite <- !(Z.pow_mul_r g) by (first [assumption|apply Z.mul_nonneg_nonneg; assumption]).
    replace (r * nth l xs 0 * k) with (k * r * nth l xs 0) by ring. replace (f l * k) with (k * f l) by ring. reflexivity.
Qed.


(** Serialization. *)
Lemma enc_range r f : 0 <= ct_u (enc r f) < M /\ Forall (fun e => 0 <= e < M) (ct_es (enc r f)).
Proof. pose proof M1. split; [apply Z.mod_pos_bound; lia|]. apply tab_Forall. intros i _. apply Z.mod_pos_bound. lia. Qed.
Lemma ct_proto_ok c : 0 <= ct_u c < M -> Forall (fun e => 0 <= e < M) (ct_es c) -> (length (ct_es c) <= len)%nat ->
  exists p, cs_ct_to_proto c = Ok p /\ cs_parse_ct pk p = Ok c.
Proof.
  intros Hu He Hl. unfold cs_ct_to_proto. destruct (to_bytes_of (ct_u c) ltac:(lia)) as (ub & Eu & Pu). rewrite Eu. cbn [bind].
  assert (He0 : Forall (fun x => 0 <= x) (ct_es c)) by (eapply Forall_impl; [|exact He]; cbn beta; lia).
  destruct (mapM_to_bytes (ct_es c) He0) as (eb & Ee & Pe). unfold bignum_vector_to_proto. rewrite Ee. cbn [bind]. eexists. split; [reflexivity|].
  unfold cs_parse_ct. cbn [cp_u cp_es]. unfold parse_bignum_vector. rewrite Pu, Pe, (w_mod _ _ _ W). unfold is_non_negative.
  destruct (Z.leb_spec M (ct_u c)); [lia|]. destruct (Z.ltb_spec (ct_u c) 0); [lia|]. cbn [negb orb]. destruct (Nat.ltb_spec len (length (ct_es c))); [lia|].
  assert (X : existsb (fun e => (M <=? e) || negb (negb (e <? 0))) (ct_es c) = false).
  { apply Bool.not_true_is_false. intros B. apply existsb_exists in B. destruct B as (e & Hin & B). rewrite Forall_forall in He. specialize (He e Hin).
    destruct (Z.leb_spec M e); [lia|]. destruct (Z.ltb_spec e 0); [lia|]. discriminate. }
  rewrite X. destruct c; reflexivity.
Qed.
Lemma enc_proto r f : exists p, cs_ct_to_proto (enc r f) = Ok p /\ cs_parse_ct pk p = Ok (enc r f).
Proof. destruct (enc_range r f) as [A B]. apply ct_proto_ok; [exact A|exact B|]. cbn [enc ct_es]. rewrite tab_len. lia. Qed.

(** Decryption. *)
Lemma enc_opens r f : 0 <= r -> (forall l, 0 <= f l) -> cs_opens_all n s (g ^ r mod M) xs (tab len (enc_e r f)) (tab len f).
Proof.
  intros Hr Hf. pose proof M1 as HM.
  assert (G : forall l, cs_opens n s (nth l xs 0) (g ^ r mod M) (enc_e r f l) (f l)).
  { intros l. split; [apply (noise_unit n s pk Hg); [exact Hr|apply x_nonneg]|]. apply eqmod_intro. unfold enc_e. rewrite (eqmod_mod M (_ * _)), (eqmod_mod M (g ^ r)). reflexivity. }
  rewrite <- xs_len. unfold tab. clear - G.
  revert G. generalize (enc_e r f) as e. intros e G.
  assert (K : forall ys a, (forall l, (l < length ys)%nat -> nth l ys 0 = nth (a + l) xs 0) ->
     cs_opens_all n s (g ^ r mod M) ys (map e (seq a (length ys))) (map f (seq a (length ys)))).
  { induction ys as [|y ys IH]; intros a Hy; cbn [length seq map]; [constructor|]. constructor.
    - specialize (Hy 0%nat ltac:(cbn; lia)). cbn in Hy. rewrite Nat.add_0_r in Hy. rewrite Hy. apply G.
    - apply IH. intros l Hl. specialize (Hy (S l) ltac:(cbn; lia)). cbn in Hy. rewrite Hy. f_equal. lia. }
  apply K. intros l Hl. reflexivity.
Qed.
Lemma enc_decrypt sk r f : cs_priv_valid n s sk -> cs_pub sk = pk -> cs_xs sk = xs -> 0 <= r -> (forall l, 0 <= f l) ->
  cs_decrypt sk (enc r f) = Ok (tab len (fun l => f l mod P)).
Proof.
  intros K Ep Ex Hr Hf. unfold enc. rewrite (cs_decrypt_open n s sk K _ _ (tab len f)).
  - rewrite map_tab. reflexivity.
  - rewrite Ex. apply (key_match_range _ _ _ _ _ n1 Hk).
  - apply tab_Forall. intros i _. apply Hf.
  - rewrite Ex. apply enc_opens; assumption.
Qed.
End Ct.
