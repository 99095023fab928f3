(** A calculus for "neither aborts nor reads out of bounds, and a result satisfies P", and the operations of the oblivious signature in it. *)
From Verif Require Import Base M_BigNum M_Num M_DJ M_EC M_Proto M_CS M_Pedersen M_Wire M_VRF M_BB S_Safe
  L_BigNum L_Num L_DJ L_Exp L_Paillier L_CS L_EC L_ElGamal L_Pedersen L_VRF.

Definition within {A} (P : A -> Prop) (o : outcome A) : Prop :=
  match o with Ok x => P x | Err _ => True | Diverge => True | Crash => False | UB => False end.
Lemma within_survives {A} (P : A -> Prop) o : within P o -> survives o.
Proof. destruct o; cbn; intros H; split; try discriminate; contradiction. Qed.
Lemma within_ok {A} (P : A -> Prop) o x : within P o -> o = Ok x -> P x.
Proof. intros H ->. exact H. Qed.
Lemma within_weaken {A} (P Q : A -> Prop) o : within P o -> (forall x, P x -> Q x) -> within Q o.
Proof. destruct o; cbn; auto. Qed.
Lemma within_bind {A B} (P : A -> Prop) (Q : B -> Prop) (o : outcome A) f : within P o -> (forall x, P x -> within Q (f x)) -> within Q (bind o f).
Proof. destruct o; cbn [within bind]; auto. Qed.
(** The value itself is also remembered. *)
Lemma within_bind_eq {A B} (P : A -> Prop) (Q : B -> Prop) (o : outcome A) f : within P o -> (forall x, o = Ok x -> P x -> within Q (f x)) -> within Q (bind o f).
Proof. destruct o; cbn [within bind]; auto. Qed.
Lemma within_mapM {A B} (P : B -> Prop) (f : A -> outcome B) xs : (forall x, In x xs -> within P (f x)) ->
  within (fun ys => length ys = length xs /\ Forall P ys) (mapM f xs).
Proof.
  induction xs as [|x xs IH]; intros H; cbn [mapM]; [split; [reflexivity|constructor]|].
  eapply within_bind; [apply H; left; reflexivity|]. intros y Hy. eapply within_bind; [apply IH; intros z Hz; apply H; right; exact Hz|].
  intros ys [L F]. cbn [within length]. split; [lia|constructor; assumption].
Qed.
Lemma within_foldM {A B} (P : A -> Prop) (f : A -> B -> outcome A) l : (forall a x, In x l -> P a -> within P (f a x)) -> forall a, P a -> within P (foldM f a l).
Proof.
  induction l as [|x l IH]; intros H a Ha; cbn [foldM]; [exact Ha|]. eapply within_bind; [apply H; [left; reflexivity|exact Ha]|].
  intros b Hb. apply IH; [|exact Hb]. intros c y Hy. apply H. right. exact Hy.
Qed.
Lemma within_if_err {A} (P : A -> Prop) (b : bool) e o : (b = false -> within P o) -> within P (if b then Err e else o).
Proof. destruct b; cbn; auto. Qed.

Definition any {A} (x : A) : Prop := True.
Notation inz m := (fun z : Z => 0 <= z < m).

Lemma within_at {A} (P : A -> Prop) l i : (i < length l)%nat -> Forall P l -> within P (at_index l i).
Proof.
  intros Hi F. unfold at_index. destruct (nth_error l i) eqn:E; [|apply nth_error_None in E; lia]. cbn. apply nth_error_In in E. exact (proj1 (Forall_forall _ _) F _ E).
Qed.
Lemma within_at_any {A} (l : list A) i : (i < length l)%nat -> within any (at_index l i).
Proof. intros Hi. apply within_at; [exact Hi|]. apply Forall_forall. intros; exact I. Qed.
Lemma within_slice {A} (P : A -> Prop) (l : list A) i j : (i <= j)%nat -> (j <= length l)%nat -> Forall P l -> within (fun x => length x = j - i /\ Forall P x)%nat (slice l i j).
Proof.
  intros H1 H2 F. unfold slice. destruct (Nat.leb_spec i j); [|lia]. destruct (Nat.leb_spec j (length l)); [|lia]. cbn [andb within].
  split; [rewrite firstn_length, skipn_length; lia|]. apply Forall_forall. intros x Hx.
  apply (proj1 (Forall_forall _ _) F). rewrite <- (firstn_skipn i l). apply in_or_app. right. rewrite <- (firstn_skipn (j - i) (skipn i l)). apply in_or_app. left. exact Hx.
Qed.
Lemma within_to_bytes x : 0 <= x -> within any (to_bytes x).
Proof. intros H. destruct (to_bytes_of x H) as (s & -> & _). exact I. Qed.
Lemma within_bytes_vector xs m : Forall (inz m) xs -> within (fun bs => length bs = length xs) (bignum_vector_to_proto xs).
Proof.
  intros H. unfold bignum_vector_to_proto. eapply within_weaken; [apply (within_mapM any)|intros x [E _]; exact E].
  intros x Hx. apply within_to_bytes. apply (proj1 (Forall_forall _ _) H x Hx).
Qed.
Lemma within_bytes_nonneg xs : nonneg xs -> within (fun bs => length bs = length xs) (bignum_vector_to_proto xs).
Proof.
  intros H. unfold bignum_vector_to_proto. eapply within_weaken; [apply (within_mapM any)|intros x [E _]; exact E].
  intros x Hx. apply within_to_bytes. apply (proj1 (Forall_forall _ _) H x Hx).
Qed.
Lemma within_mod_mul a b m : 0 < m -> within (inz m) (bn_mod_mul a b m).
Proof. intros H. rewrite bn_mod_mul_ok by exact H. apply Z.mod_pos_bound. exact H. Qed.
Lemma within_mod_exp a e m : 0 < m -> 0 <= e -> within (inz m) (bn_mod_exp a e m).
Proof. intros H He. rewrite bn_mod_exp_ok by assumption. apply Z.mod_pos_bound. exact H. Qed.
Lemma within_mod_inverse a m : 0 < m -> within (inz m) (bn_mod_inverse a m).
Proof.
  intros H. destruct (Z.eq_dec (Z.gcd a m) 1) as [G|G]; [|rewrite bn_mod_inverse_err by assumption; exact I].
  destruct (bn_mod_inverse_ok a m H G) as (r & -> & R & _). exact R.
Qed.
Lemma within_commit pd ms r : ped_ok pd -> within (inz (pp_n (pd_par pd))) (ped_commit_with_rand pd ms r).
Proof.
  intros O'. destruct (commit_cases pd ms r O') as [(c & E)| ->]; [|exact I]. rewrite E. destruct (commit_inv pd ms r c O' E) as [_ ->]. apply Z.mod_pos_bound. destruct O'. lia.
Qed.
Lemma within_lshift a k : 0 <= k -> within (fun z => z = a * 2 ^ k) (bn_lshift a k).
Proof. intros H. unfold bn_lshift. destruct (Z.ltb_spec k 0); [lia|]. reflexivity. Qed.
Lemma within_rand m raw : 0 < m -> within (inz m) (generate_rand_less_than m raw).
Proof. intros H. unfold generate_rand_less_than. destruct (Z.leb_spec m 0); [lia|]. apply Z.mod_pos_bound. exact H. Qed.
Lemma within_draws m f k : 0 < m -> within (fun l => length l = k /\ Forall (inz m) l) (draws m f k).
Proof.
  intros H. unfold draws. eapply within_weaken; [apply (within_mapM (inz m)); intros; apply within_rand; exact H|].
  cbn beta. intros l [E F]. rewrite seq_length in E. split; assumption.
Qed.
Lemma within_point_bytes C P : within any (point_to_bytes C P).
Proof. unfold point_to_bytes. destruct (is_inf C P); exact I. Qed.
Lemma within_points_proto C ps : within (fun bs => length bs = length ps) (point_vector_to_proto C ps).
Proof. unfold point_vector_to_proto. eapply within_weaken; [apply (within_mapM any); intros; apply within_point_bytes|intros x [E _]; exact E]. Qed.
Lemma within_parse_points C ps : ec_laws C -> within (fun l => length l = length ps) (parse_point_vector C ps).
Proof.
  intros L. unfold parse_point_vector. eapply within_weaken; [apply (within_mapM any)|intros x [E _]; exact E].
  intros s _. destruct (point_of_bytes_cases C L s) as [(P & -> & _)| ->]; exact I.
Qed.
Lemma inz_nonneg m xs : Forall (inz m) xs -> nonneg xs.
Proof. intros H. eapply Forall_impl; [|exact H]. cbn beta. intros; lia. Qed.
Lemma of_bytes_all l : nonneg (parse_bignum_vector l).
Proof. unfold nonneg, parse_bignum_vector. apply Forall_forall. intros x Hx. apply in_map_iff in Hx. destruct Hx as (s & <- & _). apply of_bytes_nonneg. Qed.
Lemma parse_len l : length (parse_bignum_vector l) = length l.
Proof. apply map_length. Qed.
Lemma map2_len {A B R} (f : A -> B -> R) xs : forall ys, length xs = length ys -> length (map2 f xs ys) = length xs.
Proof. induction xs as [|x xs IH]; intros [|y ys] H; cbn in *; try lia. rewrite IH; lia. Qed.
Lemma map2_Forall {A B R} (P : A -> Prop) (Q : B -> Prop) (T : R -> Prop) (f : A -> B -> R) xs : (forall x y, P x -> Q y -> T (f x y)) ->
  forall ys, Forall P xs -> Forall Q ys -> Forall T (map2 f xs ys).
Proof.
  intros H ys Hx. revert ys. induction Hx as [|x xs Px Hx IH]; intros ys Hy; cbn [map2]; [constructor|]. destruct Hy as [|y ys Qy Hy]; constructor; auto.
Qed.

(** ** Camenisch-Shoup *)
Section CSW.
Variable flag : bool.
Variables (n : Z) (s : nat) (pk : cs_public).
Hypothesis W : cs_valid n s pk.
Notation M := (cs_modulus pk).
Notation len := (cs_len pk).

Lemma cs_M_pos : 0 < M.
Proof. rewrite (w_mod _ _ _ W). pose proof (e_M n s pk W). lia. Qed.

(** A ciphertext with all its components, in range. *)
Definition full (c : cs_ciphertext) : Prop := inz M (ct_u c) /\ length (ct_es c) = len /\ Forall (inz M) (ct_es c).

Lemma within_encrypt_loop r : 0 <= r -> forall ys ms, Forall (inz M) ys -> within (fun es => length es = length ys /\ Forall (inz M) es) (cs_encrypt_loop flag pk ys ms r).
Proof.
  intros Hr. pose proof cs_M_pos as HM. induction ys as [|y ys IH]; intros ms F; cbn [cs_encrypt_loop]; [destruct ms; split; try reflexivity; constructor|].
  apply Forall_cons_iff in F. destruct F as [Hy F].
  eapply within_bind with (P := inz M).
  { rewrite (w_mod _ _ _ W) in *. rewrite (fixed_base_exp_ok flag y _ r (e_M n s pk W) (e_odd n s pk W) Hy Hr). cbn. apply Z.mod_pos_bound. exact HM. }
  intros z Hz. destruct ms as [|m ms].
  - eapply within_bind; [apply (IH [] F)|]. intros es [E Fe]. split; [cbn; lia|constructor; assumption].
  - destruct (binomial_expansion_ok n n s (cs_precomp pk) (w_gt _ _ _ W) (Z.divide_refl n) (w_pre _ _ _ W) (w_fact _ _ _ W) m) as (c & Ec & _).
    rewrite (w_pow _ _ _ W), Ec. cbn [bind]. rewrite bn_mod_ok by exact HM. cbn [bind].
    eapply within_bind; [apply (IH ms F)|]. intros es [E Fe]. split; [cbn; lia|constructor; [apply Z.mod_pos_bound; exact HM|exact Fe]].
Qed.
Lemma within_encrypt ms r : within full (cs_encrypt_with_rand flag pk ms r).
Proof.
  unfold cs_encrypt_with_rand. apply within_if_err. intros _. apply within_if_err. intros E. apply orb_false_elim in E. destruct E as [E _].
  unfold is_non_negative in E. destruct (Z.ltb_spec r 0) as [|Hr]; [discriminate|]. pose proof cs_M_pos as HM.
  eapply within_bind with (P := inz M).
  { pose proof (w_g _ _ _ W) as Hg. rewrite (w_mod _ _ _ W) in *. rewrite (fixed_base_exp_ok flag _ _ r (e_M n s pk W) (e_odd n s pk W) Hg Hr). cbn. apply Z.mod_pos_bound. exact HM. }
  intros u Hu. eapply within_bind; [apply within_encrypt_loop; [exact Hr|rewrite (w_mod _ _ _ W); exact (w_ys _ _ _ W)]|].
  intros es [E1 Fe]. cbn [within]. unfold full. cbn [ct_u ct_es]. auto.
Qed.
Lemma within_multiply_loop es k : 0 <= k -> forall cnt i, (i + cnt <= length es)%nat -> within (fun r => length r = cnt /\ Forall (inz M) r) (cs_multiply_loop cnt i M es k).
Proof.
  intros Hk. induction cnt as [|cnt IH]; intros i Hi; cbn [cs_multiply_loop]; [split; [reflexivity|constructor]|].
  unfold vec_at. destruct (nth_error es i) eqn:E; [|apply nth_error_None in E; lia]. cbn [bind].
  eapply within_bind; [apply within_mod_exp; [apply cs_M_pos|exact Hk]|]. intros x Hx. eapply within_bind; [apply IH; lia|]. intros r [E1 F]. cbn. split; [lia|constructor; assumption].
Qed.
Lemma within_multiply c k : 0 <= k -> (len <= length (ct_es c))%nat -> within full (cs_multiply pk c k).
Proof.
  intros Hk Hl. unfold cs_multiply. eapply within_bind; [apply within_mod_exp; [apply cs_M_pos|exact Hk]|]. intros u Hu.
  eapply within_bind; [apply within_multiply_loop; [exact Hk|exact Hl]|]. intros es [E F]. unfold full. cbn. auto.
Qed.
Lemma within_add_loop a : forall b, length a = length b -> within (fun r => length r = length a /\ Forall (inz M) r) (cs_add_loop M a b).
Proof.
  induction a as [|x a IH]; intros [|y b] E; cbn [cs_add_loop length] in *; try lia; [split; [reflexivity|constructor]|].
  eapply within_bind; [apply within_mod_mul; apply cs_M_pos|]. intros z Hz. eapply within_bind; [apply IH; lia|]. intros r [E1 F]. cbn. split; [lia|constructor; assumption].
Qed.
Lemma within_add c1 c2 : length (ct_es c1) = len -> length (ct_es c2) = len -> within full (cs_add pk c1 c2).
Proof.
  intros E1 E2. unfold cs_add. rewrite E1, E2, Nat.eqb_refl. cbn [negb].
  eapply within_bind; [apply within_mod_mul; apply cs_M_pos|]. intros u Hu. eapply within_bind; [apply within_add_loop; congruence|]. intros es [E F]. unfold full. cbn. split; [exact Hu|]. split; [congruence|exact F].
Qed.
(** Parsing may return a ciphertext with fewer components, but never more components than were sent. *)
Lemma within_parse_ct p : within (fun c => inz M (ct_u c) /\ Forall (inz M) (ct_es c) /\ length (ct_es c) = length (cp_es p) /\ (length (cp_es p) <= len)%nat) (cs_parse_ct pk p).
Proof.
  unfold cs_parse_ct. apply within_if_err. intros E1. apply orb_false_elim in E1. destruct E1 as [E1 _]. apply Z.leb_gt in E1.
  apply within_if_err. intros E2. apply Nat.ltb_ge in E2. rewrite parse_len in E2. apply within_if_err. intros E3. cbn [within ct_u ct_es].
  split; [split; [apply of_bytes_nonneg|exact E1]|]. split; [|split; [apply parse_len|exact E2]].
  apply Forall_forall. intros x Hx. split; [exact (proj1 (Forall_forall _ _) (of_bytes_all (cp_es p)) x Hx)|].
  destruct (Z.leb_spec M x) as [Hm|]; [|assumption]. exfalso.
  assert (T : existsb (fun e => (M <=? e) || negb (is_non_negative e)) (parse_bignum_vector (cp_es p)) = true).
  { apply existsb_exists. exists x. split; [exact Hx|]. destruct (Z.leb_spec M x); [reflexivity|lia]. }
  congruence.
Qed.
Lemma within_parse_full p : (len <= length (cp_es p))%nat -> within full (cs_parse_ct pk p).
Proof. intros H. eapply within_weaken; [apply within_parse_ct|]. cbn beta. intros c (A & B & E1 & E2). unfold full. split; [exact A|]. split; [lia|exact B]. Qed.
Lemma within_ct_proto c : full c -> within (fun p => length (cp_es p) = len) (cs_ct_to_proto c).
Proof.
  intros (A & B & F). unfold cs_ct_to_proto. eapply within_bind; [apply within_to_bytes; lia|]. intros ub _. eapply within_bind; [apply (within_bytes_vector _ M F)|].
  intros eb E. cbn. congruence.
Qed.
End CSW.
