(** Lemmas for the secrecy of ciphertexts made with a public key. *)
From Verif Require Import Base M_BigNum L_BigNum M_Num L_Num M_DJ M_Paillier S_Paillier L_Paillier M_CS L_Mod L_NT L_BigNumP L_DJ L_PaillierKey L_CS S_Hide L_Hide L_HideKey L_HideMix L_HideView S_Ddh L_Ddh S_PubHide.

Lemma firstn_len_app {X} (a b : list X) k : length a = k -> firstn k (a ++ b) = a.
Proof. intros <-. rewrite firstn_app, Nat.sub_diag, firstn_all, firstn_O, app_nil_r. reflexivity. Qed.
Lemma skipn_len_app {X} (a b : list X) k : length a = k -> skipn k (a ++ b) = b.
Proof. intros <-. rewrite skipn_app, Nat.sub_diag, skipn_all. reflexivity. Qed.

Lemma tuples_nonneg bs : Forall (fun b => 0 <= b) bs -> 0 <= tuples bs.
Proof. induction 1 as [|b bs Hb H IH]; [cbn; lia|]. apply Z.mul_nonneg_nonneg; [exact Hb|exact IH]. Qed.

(** ** The hybrid argument *)
Section Hybrid.
Context {P A M : Type}.
Variable draws : list Z.
Variable enc : P -> list Z -> A.
Variable mask : list Z -> M.
Variable put : P -> M -> A.
Variable noise : list Z.
Variable blur : list Z -> M -> M.
Variable valid : P -> Prop.
Hypothesis Henc : forall m ds, valid m -> drawn draws ds -> enc m ds = put m (mask ds).
Hypothesis Hinv : forall m m' ds (f : A -> Z), valid m -> valid m' -> drawn draws ds ->
  zsums noise (fun zs => f (put m (blur zs (mask ds)))) = zsums noise (fun zs => f (put m' (blur zs (mask ds)))).
Hypothesis Hnoise : Forall (fun b => 0 <= b) noise.
Variable ask : list A -> P * P.
Hypothesis Hask : forall seen, valid (fst (ask seen)) /\ valid (snd (ask seen)).
Variable guess : list A -> bool.
Notation k := (length draws).
Notation conv := (converse draws enc ask).
Notation tds := (turn_draws draws).

Lemma turn_draws_add a b : tds (a + b) = tds a ++ tds b.
Proof. unfold turn_draws. rewrite repeat_app, concat_app. reflexivity. Qed.
Lemma turn_draws_len a : length (tds a) = (a * k)%nat.
Proof. induction a as [|a IH]; [reflexivity|]. change (S a) with (1 + a)%nat. rewrite turn_draws_add, app_length, IH. unfold turn_draws. cbn [repeat concat]. rewrite app_nil_r. lia. Qed.
Lemma valid_pick second seen : valid (pick second (ask seen)).
Proof. destruct (Hask seen). destruct second; assumption. Qed.
Lemma skipn_add {X} a b (l : list X) : skipn (a + b) l = skipn b (skipn a l).
Proof. revert l. induction a as [|a IH]; intros l; [reflexivity|]. destruct l; [rewrite !skipn_nil; reflexivity|]. apply IH. Qed.
Lemma conv_add i j b seen ds : conv (i + j) b seen ds = conv j b (conv i b seen ds) (skipn (i * k) ds).
Proof.
  revert seen ds. induction i as [|i IH]; intros seen ds; [reflexivity|]. cbn [Nat.add converse]. rewrite IH. f_equal. rewrite <- skipn_add. f_equal.
Qed.
Lemma conv_app j b seen p r : length p = (j * k)%nat -> conv j b seen (p ++ r) = conv j b seen p.
Proof.
  revert seen p. induction j as [|j IH]; intros seen p E; [reflexivity|]. cbn [converse].
  assert (E1 : (k <= length p)%nat) by lia. rewrite firstn_app, skipn_app. replace (k - length p)%nat with O by lia. cbn [firstn skipn]. rewrite app_nil_r.
  apply IH. rewrite skipn_length. lia.
Qed.
Variable turns : nat.
(** The first [j] answers come from the first alternative, the others from the second. *)
Definition mixed (j : nat) : Z := count (tds turns) (fun ds => guess (conv (turns - j) true (conv j false [] ds) (skipn (j * k) ds))).
(** A player on a mask. *)
Definition sees (j : nat) (second : bool) (p q : list Z) (c : M) : Z :=
  let before := conv j false [] p in
  if guess (conv (turns - 1 - j) true (before ++ [put (pick second (ask before)) c]) q) then 1 else 0.

Lemma tds_split j : (j < turns)%nat -> tds turns = tds j ++ draws ++ tds (turns - 1 - j).
Proof. intros H. replace turns with (j + (1 + (turns - 1 - j)))%nat at 1 by lia. rewrite !turn_draws_add. unfold turn_draws at 2. cbn [repeat concat]. rewrite app_nil_r. reflexivity. Qed.
Lemma tds_split' j : (j < turns)%nat -> tds (turns - 1) = tds j ++ tds (turns - 1 - j).
Proof. intros H. rewrite <- turn_draws_add. f_equal. lia. Qed.
Lemma mixed_is j (second : bool) : (j < turns)%nat -> mixed (if second then j else S j) =
  zsums draws (fun a => zsums (tds j) (fun p => zsums (tds (turns - 1 - j)) (fun q => sees j second p q (mask a)))).
Proof.
  intros Hj. unfold mixed. rewrite (tds_split j Hj), count_zsums, sums_app.
  rewrite (zsums_ext (tds j) _ (fun p => zsums draws (fun a => zsums (tds (turns - 1 - j)) (fun q => sees j second p q (mask a))))); [apply zsums_swap|].
  intros p Hp. rewrite sums_app. apply zsums_ext. intros a Ha. apply zsums_ext. intros q Hq. unfold sees.
  pose proof (drawn_len _ _ Hp) as Lp. pose proof (drawn_len _ _ Ha) as La. rewrite turn_draws_len in Lp.
  assert (E : conv (turns - (if second then j else S j)) true (conv (if second then j else S j) false [] (p ++ a ++ q)) (skipn ((if second then j else S j) * k) (p ++ a ++ q)) =
              conv (turns - 1 - j) true (conv j false [] p ++ [put (pick second (ask (conv j false [] p))) (mask a)]) q); [|rewrite E; reflexivity].
  rewrite <- (Henc _ a (valid_pick second _) Ha). destruct second.
  - rewrite (conv_app j false [] p) by exact Lp. rewrite skipn_len_app by exact Lp. replace (turns - j)%nat with (S (turns - 1 - j)) by lia. cbn [converse].
    rewrite firstn_len_app, skipn_len_app by exact La. reflexivity.
  - replace (S j) with (j + 1)%nat by lia. rewrite conv_add, (conv_app j false [] p), skipn_len_app by exact Lp. cbn [converse]. rewrite firstn_len_app by exact La.
    replace (turns - (j + 1))%nat with (turns - 1 - j)%nat by lia. rewrite app_assoc. rewrite skipn_len_app by (rewrite app_length; lia). reflexivity.
Qed.
Lemma world_is j (second : bool) (shown : list Z -> M -> M) : (j < turns)%nat ->
  count (draws ++ noise ++ tds (turns - 1)) (fun ds => let rest := skipn k ds in
    mask_player draws enc put ask guess turns j second (skipn (length noise) rest) (shown (firstn (length noise) rest) (mask (firstn k ds)))) =
  zsums draws (fun a => zsums (tds j) (fun p => zsums (tds (turns - 1 - j)) (fun q => zsums noise (fun zs => sees j second p q (shown zs (mask a)))))).
Proof.
  intros Hj. rewrite (tds_split' j Hj), count_zsums, sums_app. apply zsums_ext. intros a Ha. rewrite sums_app.
  rewrite (zsums_ext (tds j) _ (fun p => zsums noise (fun zs => zsums (tds (turns - 1 - j)) (fun q => sees j second p q (shown zs (mask a)))))) by (intros p _; apply zsums_swap).
  rewrite <- (zsums_swap noise (tds j)). apply zsums_ext. intros zs Hz. rewrite sums_app. apply zsums_ext. intros p Hp. apply zsums_ext. intros q Hq.
  pose proof (drawn_len _ _ Hp) as Lp. pose proof (drawn_len _ _ Ha) as La. pose proof (drawn_len _ _ Hz) as Lz. rewrite turn_draws_len in Lp.
  cbv zeta. rewrite (firstn_len_app a), (skipn_len_app a) by exact La. rewrite (firstn_len_app zs), (skipn_len_app zs) by exact Lz.
  unfold mask_player, sees. rewrite (conv_app j false [] p), (skipn_len_app p) by exact Lp. reflexivity.
Qed.
Lemma mixed_step j : (j < turns)%nat -> tuples noise * Z.abs (mixed (S j) - mixed j) <=
  mask_gap draws mask noise blur (tds (turns - 1)) (mask_player draws enc put ask guess turns j false) +
  mask_gap draws mask noise blur (tds (turns - 1)) (mask_player draws enc put ask guess turns j true).
Proof.
  intros Hj. unfold mask_gap. cbv zeta.
  pose proof (world_is j false (fun _ c => c) Hj) as R0. pose proof (world_is j true (fun _ c => c) Hj) as R1. pose proof (world_is j false blur Hj) as B0. pose proof (world_is j true blur Hj) as B1.
  cbv zeta in R0, R1, B0, B1. rewrite R0, R1, B0, B1.
  assert (R : forall second : bool, zsums draws (fun a => zsums (tds j) (fun p => zsums (tds (turns - 1 - j)) (fun q => zsums noise (fun _ => sees j second p q (mask a))))) = tuples noise * mixed (if second then j else S j)).
  { intros second. rewrite (mixed_is j second Hj), zsums_scale. apply zsums_ext. intros a _. rewrite zsums_scale. apply zsums_ext. intros p _. rewrite zsums_scale. apply zsums_ext. intros q _. apply zsums_const, Hnoise. }
  pose proof (R false) as F. pose proof (R true) as T. cbn iota in F, T. rewrite F, T.
  assert (Q : zsums draws (fun a => zsums (tds j) (fun p => zsums (tds (turns - 1 - j)) (fun q => zsums noise (fun zs => sees j false p q (blur zs (mask a)))))) =
              zsums draws (fun a => zsums (tds j) (fun p => zsums (tds (turns - 1 - j)) (fun q => zsums noise (fun zs => sees j true p q (blur zs (mask a))))))).
  { apply zsums_ext. intros a Ha. apply zsums_ext. intros p _. apply zsums_ext. intros q _. unfold sees.
    apply (Hinv _ _ a (fun x => if guess (conv (turns - 1 - j) true (conv j false [] p ++ [x]) q) then 1 else 0)); [apply valid_pick|apply valid_pick|exact Ha]. }
  rewrite Q. pose proof (tuples_nonneg noise Hnoise) as T0.
  replace (tuples noise * Z.abs (mixed (S j) - mixed j)) with (Z.abs (tuples noise * mixed (S j) - tuples noise * mixed j)); [lia|].
  rewrite <- Z.mul_sub_distr_l, Z.abs_mul, (Z.abs_eq (tuples noise)) by exact T0. reflexivity.
Qed.
Theorem hybrid : tuples noise * Z.abs (says_yes draws enc ask guess turns false - says_yes draws enc ask guess turns true) <= mask_total draws enc mask put noise blur ask guess turns.
Proof.
  pose proof (tuples_nonneg noise Hnoise) as T0.
  assert (E0 : says_yes draws enc ask guess turns true = mixed 0) by (unfold says_yes, mixed; rewrite Nat.sub_0_r; reflexivity).
  assert (E1 : says_yes draws enc ask guess turns false = mixed turns) by (unfold says_yes, mixed; rewrite Nat.sub_diag; reflexivity).
  rewrite E0, E1. unfold mask_total.
  assert (G : forall i, (i <= turns)%nat -> tuples noise * Z.abs (mixed i - mixed 0) <= zsum i (fun j =>
    mask_gap draws mask noise blur (tds (turns - 1)) (mask_player draws enc put ask guess turns (Z.to_nat j) false) +
    mask_gap draws mask noise blur (tds (turns - 1)) (mask_player draws enc put ask guess turns (Z.to_nat j) true))); [|apply G; lia].
  induction i as [|i IH]; intros Hi; [rewrite Z.sub_diag; cbn [zsum Z.abs]; lia|]. cbn [zsum]. rewrite Nat2Z.id. specialize (IH ltac:(lia)). pose proof (mixed_step i ltac:(lia)) as S1.
  assert (Q : tuples noise * Z.abs (mixed (S i) - mixed 0) <= tuples noise * Z.abs (mixed (S i) - mixed i) + tuples noise * Z.abs (mixed i - mixed 0)); [|lia].
  rewrite <- Z.mul_add_distr_l. apply Z.mul_le_mono_nonneg_l; lia.
Qed.
End Hybrid.

(** ** Powers of 1 + n *)
Section Times.
Variable n : Z.
Variable s : nat.
Hypothesis Hn : 1 < n.
Notation N := (n ^ Z.of_nat s).
Notation M := (n ^ (Z.of_nat s + 1)).
Notation tm := (times n s).
Lemma t_N : 0 < N.
Proof. apply Z.pow_pos_nonneg; lia. Qed.
Lemma t_M : 1 < M.
Proof. apply Z.pow_gt_1; lia. Qed.
Lemma power_period v : 0 <= v -> eqmod M ((1 + n) ^ (v mod N)) ((1 + n) ^ v).
Proof.
  intros Hv. pose proof t_N. pose proof (lift n s (1 + n) 1 ltac:(lia) ltac:(exists 1; ring)) as E. rewrite Z.pow_1_l in E by lia.
  assert (D : eqmod M ((1 + n) ^ v) ((1 + n) ^ (N * (v / N) + v mod N))) by (rewrite <- Z.div_mod by lia; reflexivity).
  assert (B : 0 <= v / N) by (apply Z.div_pos; lia). assert (B' : 0 <= v mod N) by (apply Z.mod_pos_bound; lia).
  rewrite D, (Z.pow_add_r (1 + n) (N * (v / N))), (Z.pow_mul_r (1 + n) N) by (try apply Z.mul_nonneg_nonneg; lia). rewrite E, Z.pow_1_l, Z.mul_1_l by exact B. reflexivity.
Qed.
Lemma times_times v z x : tm v (tm z x) = tm ((v + z) mod N) x.
Proof.
  pose proof t_N. pose proof t_M. unfold times. apply eqmod_eq; [lia|]. rewrite (eqmod_mod M), Z.mul_assoc. apply eqmod_mul; [|reflexivity].
  pose proof (Z.mod_pos_bound v N ltac:(lia)). pose proof (Z.mod_pos_bound z N ltac:(lia)). rewrite <- Z.pow_add_r by lia. rewrite Z.mod_mod by lia. rewrite Zplus_mod. symmetry. apply power_period. lia.
Qed.
Lemma times_0 x : tm 0 x = x mod M.
Proof. pose proof t_N. unfold times. rewrite Z.mod_0_l, Z.pow_0_r, Z.mul_1_l by lia. reflexivity. Qed.
Lemma zsum_shift m f : zsum (Z.to_nat N) (fun z => f ((m + z) mod N)) = zsum (Z.to_nat N) f.
Proof.
  pose proof t_N. apply zsum_rename.
  - intros d _. rewrite Z2Nat.id by lia. apply Z.mod_pos_bound. lia.
  - intros d e Hd He E. rewrite Z2Nat.id in Hd, He by lia. apply mod_eqmod_iff in E; [|lia]. apply (eqmod_small N); [lia|lia|]. destruct E as [z Hz]. exists z. lia.
Qed.
(** Random powers absorb the plaintexts. *)
Lemma absorb_one m m' (f : Z -> Z) x : zsum (Z.to_nat N) (fun z => f (tm m (tm z x))) = zsum (Z.to_nat N) (fun z => f (tm m' (tm z x))).
Proof.
  assert (G : forall v, zsum (Z.to_nat N) (fun z => f (tm v (tm z x))) = zsum (Z.to_nat N) (fun z => f (tm z x))).
  { intros v. rewrite <- (zsum_shift v (fun z => f (tm z x))). apply zsum_ext. intros z _. rewrite times_times. reflexivity. }
  rewrite (G m), (G m'). reflexivity.
Qed.
Notation under ms es := (map (fun me => tm (fst me) (snd me)) (combine ms es)).
Lemma absorb_all es : forall ms ms' (f : list Z -> Z), length ms = length es -> length ms' = length es ->
  zsums (repeat N (length es)) (fun zs => f (under ms (under zs es))) = zsums (repeat N (length es)) (fun zs => f (under ms' (under zs es))).
Proof.
  induction es as [|e es IH]; intros ms ms' f E E'; [destruct ms; destruct ms'; try (cbn in E, E'; lia); reflexivity|]. destruct ms as [|m ms]; destruct ms' as [|m' ms']; try (cbn in E, E'; lia).
  cbn [length repeat zsums combine map fst snd].
  transitivity (zsum (Z.to_nat N) (fun z => zsums (repeat N (length es)) (fun zs => f (tm m (tm z e) :: under ms' (under zs es))))).
  - apply zsum_ext. intros z _. apply (IH ms ms' (fun l => f (tm m (tm z e) :: l))); [cbn in E; lia|cbn in E'; lia].
  - apply (absorb_one m m' (fun c => zsums (repeat N (length es)) (fun zs => f (c :: under ms' (under zs es))))).
Qed.
End Times.

(** ** The library's encryptions *)
Lemma first_unit_draw n raws : 1 < n -> Forall (fun d => 0 <= d < n) raws -> relatively_prime_random raws n = match first_unit n raws with Some r => Ok r | None => Diverge end.
Proof.
  intros Hn H. induction H as [|d raws Hd H IH]; [reflexivity|]. cbn [relatively_prime_random first_unit find]. unfold generate_rand_less_than. destruct (Z.leb_spec n 0); [lia|]. cbn [bind]. rewrite Z.mod_small by exact Hd. unfold bn_gcd.
  assert (G : 1 <= Z.gcd d n). { pose proof (Z.gcd_nonneg d n). destruct (Z.eq_dec (Z.gcd d n) 0) as [E|]; [apply Z.gcd_eq_0 in E; lia|lia]. }
  destruct (Z.ltb_spec 1 (Z.gcd d n)); destruct (Z.eqb_spec (Z.gcd d n) 1); try lia; [exact IH|reflexivity].
Qed.
Lemma first_unit_inv n raws r : first_unit n raws = Some r -> In r raws /\ Z.gcd r n = 1.
Proof. intros E. apply find_some in E. destruct E as [I E]. apply Z.eqb_eq in E. auto. Qed.
Lemma drawn_repeat b l ds : drawn (repeat b l) ds -> Forall (fun d => 0 <= d < b) ds.
Proof. revert ds. induction l as [|l IH]; intros ds H; inversion H; subst; constructor; auto. Qed.

Section Cs.
Variable flag : bool.
Variables (n : Z) (s : nat) (pk : cs_public).
Hypothesis W : cs_valid n s pk.
Notation M := (n ^ (Z.of_nat s + 1)).
Let Hn := w_gt _ _ _ W.

Lemma cs_odd : Z.odd M = true.
Proof. apply odd_pow; [lia|apply (w_odd _ _ _ W)]. Qed.
Lemma cs_loop_is r ys : 0 <= r -> Forall (fun y => 0 <= y < M) ys -> forall ms, (length ms <= length ys)%nat ->
  cs_encrypt_loop flag pk ys ms r = Ok (map (fun me => times n s (fst me) (snd me)) (combine (ms ++ repeat 0 (length ys - length ms)) (map (fun y => y ^ r mod M) ys))).
Proof.
  intros Hr H. pose proof (t_M n s Hn) as HM. induction H as [|y ys Hy H IH]; intros ms Hl.
  - destruct ms; [reflexivity|cbn in Hl; lia].
  - cbn [cs_encrypt_loop]. rewrite (w_mod _ _ _ W). rewrite (fixed_base_exp_ok flag y M r HM cs_odd Hy Hr). cbn [bind].
    destruct ms as [|m ms].
    + rewrite (IH []) by (cbn; lia). cbn [bind app length Nat.sub repeat combine map fst snd]. rewrite Nat.sub_0_r. rewrite times_0, Z.mod_mod by (assumption || lia). reflexivity.
    + destruct (binomial_expansion_ok n n s (cs_precomp pk) (w_gt _ _ _ W) (Z.divide_refl n) (w_pre _ _ _ W) (w_fact _ _ _ W) m) as (c & Ec & Hc).
      rewrite (w_pow _ _ _ W), Ec. cbn [bind]. rewrite bn_mod_ok by lia. cbn [bind]. cbn [length] in Hl. rewrite (IH ms) by lia. cbn [bind app length Nat.sub combine map fst snd].
      f_equal. f_equal. unfold times. apply eqmod_eq; [lia|]. rewrite Hc, Z.mul_comm. reflexivity.
Qed.
Lemma cs_encrypt_is ms raws : (length ms <= cs_len pk)%nat -> Forall (fun m => 0 <= m) ms -> Forall (fun d => 0 <= d < n) raws ->
  cs_encrypt flag pk ms raws = cs_put n s ms (cs_mask n s (cs_g pk) (cs_ys pk) raws).
Proof.
  intros Hl Hm Hd. unfold cs_encrypt, cs_encrypt_and_get_rand.
  assert (F : forallb is_non_negative ms = true). { apply forallb_forall. intros m Hin. rewrite Forall_forall in Hm. specialize (Hm m Hin). unfold is_non_negative. destruct (Z.ltb_spec m 0); [lia|reflexivity]. }
  rewrite F. cbn [negb]. rewrite (w_n _ _ _ W), (first_unit_draw n raws Hn Hd). unfold cs_mask. destruct (first_unit n raws) as [r|] eqn:Er; [|reflexivity]. cbn [bind cs_put].
  apply first_unit_inv in Er. destruct Er as [Ir Gr]. rewrite Forall_forall in Hd. specialize (Hd r Ir).
  unfold cs_encrypt_with_rand. unfold cs_len in Hl. destruct (Nat.ltb_spec (length (cs_ys pk)) (length ms)); [lia|]. unfold is_non_negative, bn_gcd. destruct (Z.ltb_spec r 0); [lia|]. cbn [negb orb].
  rewrite (w_n _ _ _ W), Gr, Z.eqb_refl. cbn [negb andb]. rewrite (w_mod _ _ _ W).
  rewrite (fixed_base_exp_ok flag _ M r (t_M n s Hn) cs_odd (w_g _ _ _ W)) by lia. cbn [bind].
  rewrite (cs_loop_is r (cs_ys pk)) by (try apply (w_ys _ _ _ W); lia). cbn [bind]. rewrite map_length. reflexivity.
Qed.
End Cs.

Section Paillier.
Variable flag : bool.
Variables (n : Z) (s : nat) (pk : public_paillier).
Hypothesis U : pub_valid n s pk.
Notation M := (n ^ (Z.of_nat s + 1)).
Notation N := (n ^ Z.of_nat s).
Let Hn := u_gt _ _ _ U.
Lemma p_odd : Z.odd M = true.
Proof. apply odd_pow; [lia|apply (u_odd _ _ _ U)]. Qed.
Lemma pub_encrypt_is m d : 0 <= m < N -> 0 <= d < n -> pub_encrypt flag pk m d = p_put n s m (power_mask n s (pub_base pk) [d]).
Proof.
  intros Hm Hd. pose proof (t_M n s Hn) as HM. pose proof (t_N n s Hn) as HN. unfold pub_encrypt, is_non_negative. destruct (Z.ltb_spec m 0); [lia|]. cbn [negb]. rewrite (u_pow _ _ _ U), (u_s _ _ _ U), get_powers_at by lia. cbn [bind].
  destruct (Z.leb_spec N m); [lia|]. rewrite (u_n _ _ _ U). unfold generate_rand_less_than. destruct (Z.leb_spec n 0); [lia|]. cbn [bind]. rewrite Z.mod_small by exact Hd.
  unfold pub_encrypt_using_generator_and_rand. rewrite (u_n _ _ _ U). destruct (Z.ltb_spec n d); [lia|]. destruct (pub_expansion n s pk U m) as (c & E & Hc). rewrite E. cbn [bind]. rewrite (u_mod _ _ _ U).
  destruct (u_base _ _ _ U) as (g & Gg & Eb). rewrite (fixed_base_exp_ok flag (pub_base pk) M d HM p_odd) by (try (rewrite Eb; apply Z.mod_pos_bound); lia).
  cbn [bind]. rewrite bn_mod_mul_ok by lia. cbn [p_put power_mask hd]. f_equal. unfold times. apply eqmod_eq; [lia|]. rewrite Hc. reflexivity.
Qed.
Lemma pub_encrypt_rand_is m raws : Forall (fun d => 0 <= d < n) raws ->
  (let* (c, _) := pub_encrypt_and_get_rand pk m raws in Ok c) = p_put n s m (residue_mask n s raws).
Proof.
  intros Hd. pose proof (t_M n s Hn) as HM. pose proof (t_N n s Hn) as HN. unfold pub_encrypt_and_get_rand. rewrite (u_n _ _ _ U), (first_unit_draw n raws Hn Hd). unfold residue_mask.
  destruct (first_unit n raws) as [r|] eqn:Er; [|reflexivity]. cbn [bind option_map p_put]. apply first_unit_inv in Er. destruct Er as [Ir Gr].
  unfold pub_encrypt_with_rand, bn_gcd. rewrite (u_n _ _ _ U), Gr. cbn [Z.eqb Pos.eqb negb].
  destruct (pub_expansion n s pk U m) as (c & E & Hc). rewrite E. cbn [bind]. rewrite (u_pow _ _ _ U), (u_s _ _ _ U), get_powers_at by lia. cbn [bind].
  rewrite (u_mod _ _ _ U). rewrite bn_mod_exp_ok by lia. cbn [bind]. rewrite bn_mod_mul_ok by lia. cbn [bind]. f_equal. unfold times. apply eqmod_eq; [lia|]. rewrite Hc. reflexivity.
Qed.
End Paillier.
