(** C95: ciphertexts made with a public key hide what is in them. *)
From Verif Require Import Base M_BigNum L_BigNum M_Num L_Num M_DJ M_Paillier S_Paillier L_Paillier M_CS L_Mod L_NT L_BigNumP L_DJ L_PaillierKey L_CS S_Hide L_Hide L_HideKey L_HideMix L_HideView S_Ddh L_Ddh S_PubHide L_PubHide S_CS P_CS.

Lemma noise_nonneg n s l : 1 < n -> Forall (fun b => 0 <= b) (repeat (n ^ Z.of_nat s) l).
Proof. intros Hn. apply Forall_forall. intros b Hb. apply repeat_spec in Hb. subst. apply Z.pow_nonneg. lia. Qed.
Lemma noise_tuples b l : tuples (repeat b l) = b ^ Z.of_nat l.
Proof.
  induction l as [|l IH]; [reflexivity|]. cbn [repeat tuples fold_right]. fold (tuples (repeat b l)). rewrite IH, Nat2Z.inj_succ, Z.pow_succ_r by lia. reflexivity.
Qed.
Lemma padded_len ms k : (length ms <= k)%nat -> length (ms ++ repeat 0 (k - length ms)) = k.
Proof. intros H. rewrite app_length, repeat_length. lia. Qed.

(** ** Camenisch and Shoup *)

(** An observer who knows the public key, and in every turn names two vectors of plaintexts, depending on what it has seen, tells encryptions of the first ones from encryptions of the second ones
    at most as well as the players tell masks from blurred masks, added up over the turns. *)
Theorem C95_camenisch_shoup : forall flag n s g ys pk tries turns ask guess, 1 < n -> Z.odd n = true -> 0 <= g < n ^ (Z.of_nat s + 1) -> Forall (fun y => 0 <= y < n ^ (Z.of_nat s + 1)) ys ->
  cs_public_create flag n s g ys = Ok pk ->
  (forall seen second, let ms := pick second (ask seen) in (length ms <= length ys)%nat /\ Forall (fun m => 0 <= m) ms) ->
  let draws := repeat n tries in
  let enc := cs_encrypt flag pk in
  (n ^ Z.of_nat s) ^ Z.of_nat (length ys) * Z.abs (says_yes draws enc ask guess turns false - says_yes draws enc ask guess turns true) <=
  mask_total draws enc (cs_mask n s g ys) (cs_put n s) (repeat (n ^ Z.of_nat s) (length ys)) (cs_blur n s) ask guess turns.
Proof.
  intros flag n s g ys pk tries turns ask guess Hn Ho Hg Hys E Hask draws enc. destruct (cs_public_inv flag n s Hn Ho g ys pk Hg Hys E) as (W & Eg & Ey). rewrite <- noise_tuples.
  apply (hybrid draws enc (cs_mask n s g ys) (cs_put n s) _ (cs_blur n s) (fun ms => (length ms <= length ys)%nat /\ Forall (fun m => 0 <= m) ms)).
  - intros ms ds [Hl Hm] Hd. unfold enc. rewrite (cs_encrypt_is flag n s pk W ms ds); [rewrite Eg, Ey; reflexivity| |exact Hm|exact (drawn_repeat _ _ _ Hd)]. unfold cs_len. rewrite Ey. exact Hl.
  - intros ms ms' ds f [Hl _] [Hl' _] _. unfold cs_mask. destruct (first_unit n ds) as [r|]; [|reflexivity]. cbn [cs_blur].
    set (es := map (fun y => y ^ r mod n ^ (Z.of_nat s + 1)) ys). assert (Le : length es = length ys) by (unfold es; apply map_length).
    pose proof (absorb_all n s Hn es (ms ++ repeat 0 (length ys - length ms)) (ms' ++ repeat 0 (length ys - length ms'))
      (fun l => f (Ok {| ct_u := g ^ r mod n ^ (Z.of_nat s + 1); ct_es := l |}))) as Q.
    rewrite Le in Q. specialize (Q (padded_len _ _ Hl) (padded_len _ _ Hl')).
    assert (G : forall v, zsums (repeat (n ^ Z.of_nat s) (length ys)) (fun zs => f (cs_put n s v (Some (g ^ r mod n ^ (Z.of_nat s + 1), map (fun ze => times n s (fst ze) (snd ze)) (combine zs es))))) =
      zsums (repeat (n ^ Z.of_nat s) (length ys)) (fun zs => f (Ok {| ct_u := g ^ r mod n ^ (Z.of_nat s + 1); ct_es := map (fun me => times n s (fst me) (snd me)) (combine (v ++ repeat 0 (length ys - length v)) (map (fun ze => times n s (fst ze) (snd ze)) (combine zs es))) |}))).
    { intros v. apply zsums_ext. intros zs Hz. apply drawn_len in Hz. rewrite repeat_length in Hz. cbn [cs_put]. rewrite map_length, combine_length, Hz, Le, Nat.min_id. reflexivity. }
    rewrite !G. exact Q.
  - apply noise_nonneg, Hn.
  - intros seen. exact (conj (Hask seen false) (Hask seen true)).
Qed.
Print Assumptions C95_camenisch_shoup.

(** The game is about the library's own ciphertexts: masks are encryptions of nothing, blurred masks are encryptions of random vectors. *)
Theorem C95_camenisch_shoup_game : forall flag n s g ys pk tries coins player, 1 < n -> Z.odd n = true -> 0 <= g < n ^ (Z.of_nat s + 1) -> Forall (fun y => 0 <= y < n ^ (Z.of_nat s + 1)) ys ->
  cs_public_create flag n s g ys = Ok pk ->
  let world (f : list Z -> list Z) := count (repeat n tries ++ repeat (n ^ Z.of_nat s) (length ys) ++ coins) (fun ds =>
    player (skipn (length ys) (skipn tries ds)) (cs_encrypt flag pk (f (firstn (length ys) (skipn tries ds))) (firstn tries ds))) in
  mask_gap (repeat n tries) (cs_mask n s g ys) (repeat (n ^ Z.of_nat s) (length ys)) (cs_blur n s) coins (fun cs c => player cs (cs_put n s [] c)) =
  Z.abs (world (fun _ => []) - world (fun zs => zs)).
Proof.
  intros flag n s g ys pk tries coins player Hn Ho Hg Hys E world. destruct (cs_public_inv flag n s Hn Ho g ys pk Hg Hys E) as (W & Eg & Ey). pose proof (t_N n s Hn) as HN. pose proof (t_M n s Hn) as HM.
  unfold mask_gap, world. cbv zeta. rewrite !repeat_length. f_equal. f_equal.
  - rewrite !count_zsums, !sums_app. apply zsums_ext. intros a Ha. apply zsums_ext. intros r _. pose proof (drawn_len _ _ Ha) as La. rewrite repeat_length in La. rewrite (firstn_len_app a), (skipn_len_app a) by exact La.
    rewrite (cs_encrypt_is flag n s pk W [] a); [rewrite Eg, Ey; reflexivity|cbn; lia|constructor|exact (drawn_repeat _ _ _ Ha)].
  - rewrite !count_zsums, !sums_app. apply zsums_ext. intros a Ha. rewrite !sums_app. apply zsums_ext. intros zs Hz. apply zsums_ext. intros r _.
    pose proof (drawn_len _ _ Ha) as La. pose proof (drawn_len _ _ Hz) as Lz. rewrite repeat_length in La, Lz. rewrite !(firstn_len_app a), !(skipn_len_app a) by exact La. rewrite !(firstn_len_app zs), !(skipn_len_app zs) by exact Lz.
    pose proof (drawn_repeat _ _ _ Hz) as Bz.
    rewrite (cs_encrypt_is flag n s pk W zs a); [|unfold cs_len; rewrite Ey; lia|eapply Forall_impl; [|exact Bz]; cbn beta; lia|exact (drawn_repeat _ _ _ Ha)].
    rewrite Eg, Ey. assert (Q : cs_put n s [] (cs_blur n s zs (cs_mask n s g ys a)) = cs_put n s zs (cs_mask n s g ys a)); [|rewrite Q; reflexivity].
    unfold cs_mask. destruct (first_unit n a) as [x|]; [|reflexivity]. cbn [cs_blur cs_put]. do 2 f_equal. set (es := map (fun y => y ^ x mod n ^ (Z.of_nat s + 1)) ys).
    assert (Le : length es = length zs) by (unfold es; rewrite map_length; lia). rewrite Le, Nat.sub_diag. cbn [repeat app length]. rewrite app_nil_r, map_length, combine_length, Le, Nat.min_id, Nat.sub_0_r.
    clear -Le Hn HM. revert zs Le. induction es as [|e es IH]; intros zs Le; [destruct zs; reflexivity|]. destruct zs as [|z zs]; [discriminate|]. cbn [length repeat combine map fst snd]. f_equal; [|apply IH; cbn in Le; lia].
    rewrite times_0 by exact Hn. unfold times. apply Z.mod_mod. lia.
Qed.
Print Assumptions C95_camenisch_shoup_game.

(** ** Paillier *)

Lemma paillier_inv (mask : list Z -> option Z) n s m m' ds (f : outcome Z -> Z) : 1 < n ->
  zsums [n ^ Z.of_nat s] (fun zs => f (p_put n s m (p_blur n s zs (mask ds)))) = zsums [n ^ Z.of_nat s] (fun zs => f (p_put n s m' (p_blur n s zs (mask ds)))).
Proof. intros Hn. cbn [zsums]. unfold p_blur. destruct (mask ds) as [x|]; [|reflexivity]. cbn [option_map p_put hd]. apply (absorb_one n s Hn m m' (fun c => f (Ok c))). Qed.
Lemma one_tuple b : tuples [b] = b.
Proof. unfold tuples. cbn [fold_right]. lia. Qed.

(** Encrypt, which multiplies with a power of the published generator. *)
Theorem C95_paillier_generator : forall flag n s raws pk turns ask guess, 1 < n -> Z.odd n = true -> public_create flag n s raws = Ok pk ->
  (forall seen second, 0 <= pick second (ask seen) < n ^ Z.of_nat s) ->
  let enc m ds := pub_encrypt flag pk m (hd 0 ds) in
  n ^ Z.of_nat s * Z.abs (says_yes [n] enc ask guess turns false - says_yes [n] enc ask guess turns true) <=
  mask_total [n] enc (power_mask n s (pub_base pk)) (p_put n s) [n ^ Z.of_nat s] (p_blur n s) ask guess turns.
Proof.
  intros flag n s raws pk turns ask guess Hn Ho E Hask enc. pose proof (public_inv flag n s raws pk Hn Ho E) as U. rewrite <- (one_tuple (n ^ Z.of_nat s)) at 1.
  apply (hybrid [n] enc (power_mask n s (pub_base pk)) (p_put n s) _ (p_blur n s) (fun m => 0 <= m < n ^ Z.of_nat s)).
  - intros m ds Hm Hd. inversion Hd as [|b d bs r Bd Hr]; subst. inversion Hr; subst. apply (pub_encrypt_is flag n s pk U m d Hm Bd).
  - intros m m' ds f _ _ _. apply paillier_inv, Hn.
  - apply (noise_nonneg n s 1 Hn).
  - intros seen. exact (conj (Hask seen false) (Hask seen true)).
Qed.
Print Assumptions C95_paillier_generator.

(** EncryptAndGetRand, to one who is not shown the random number. All integers are plaintexts. *)
Theorem C95_paillier_units : forall flag n s raws pk tries turns ask guess, 1 < n -> Z.odd n = true -> public_create flag n s raws = Ok pk ->
  let draws := repeat n tries in
  let enc m ds := let* (c, _) := pub_encrypt_and_get_rand pk m ds in Ok c in
  n ^ Z.of_nat s * Z.abs (says_yes draws enc ask guess turns false - says_yes draws enc ask guess turns true) <=
  mask_total draws enc (residue_mask n s) (p_put n s) [n ^ Z.of_nat s] (p_blur n s) ask guess turns.
Proof.
  intros flag n s raws pk tries turns ask guess Hn Ho E draws enc. pose proof (public_inv flag n s raws pk Hn Ho E) as U. rewrite <- (one_tuple (n ^ Z.of_nat s)) at 1.
  apply (hybrid draws enc (residue_mask n s) (p_put n s) _ (p_blur n s) (fun m => True)).
  - intros m ds _ Hd. apply (pub_encrypt_rand_is n s pk U m ds (drawn_repeat _ _ _ Hd)).
  - intros m m' ds f _ _ _. apply paillier_inv, Hn.
  - apply (noise_nonneg n s 1 Hn).
  - intros seen. auto.
Qed.
Print Assumptions C95_paillier_units.

(** In both games the player tells encryptions of zero from encryptions of random numbers. *)
Theorem C95_paillier_game : forall flag n s raws pk tries coins (player : list Z -> outcome Z -> bool), 1 < n -> Z.odd n = true -> public_create flag n s raws = Ok pk ->
  let world (enc : Z -> list Z -> outcome Z) k (f : Z -> Z) := count (repeat n k ++ [n ^ Z.of_nat s] ++ coins) (fun ds =>
    player (skipn 1 (skipn k ds)) (enc (f (hd 0 (skipn k ds))) (firstn k ds))) in
  let by_generator m ds := pub_encrypt flag pk m (hd 0 ds) in
  let by_unit m ds := let* (c, _) := pub_encrypt_and_get_rand pk m ds in Ok c in
  mask_gap (repeat n 1) (power_mask n s (pub_base pk)) [n ^ Z.of_nat s] (p_blur n s) coins (fun cs c => player cs (p_put n s 0 c)) =
    Z.abs (world by_generator 1%nat (fun _ => 0) - world by_generator 1%nat (fun z => z)) /\
  mask_gap (repeat n tries) (residue_mask n s) [n ^ Z.of_nat s] (p_blur n s) coins (fun cs c => player cs (p_put n s 0 c)) =
    Z.abs (world by_unit tries (fun _ => 0) - world by_unit tries (fun z => z)).
Proof.
  intros flag n s raws pk tries coins player Hn Ho E world by_generator by_unit. pose proof (public_inv flag n s raws pk Hn Ho E) as U. pose proof (t_N n s Hn) as HN. pose proof (t_M n s Hn) as HM.
  assert (B : forall z c, p_put n s 0 (p_blur n s [z] c) = p_put n s z c).
  { intros z [x|]; [|reflexivity]. cbn [p_blur option_map p_put hd]. f_equal. rewrite times_0 by exact Hn. unfold times. apply Z.mod_mod. lia. }
  assert (G : forall enc mask k, (forall m a, 0 <= m < n ^ Z.of_nat s -> drawn (repeat n k) a -> enc m a = p_put n s m (mask a)) ->
    mask_gap (repeat n k) mask [n ^ Z.of_nat s] (p_blur n s) coins (fun cs c => player cs (p_put n s 0 c)) = Z.abs (world enc k (fun _ => 0) - world enc k (fun z => z))).
  { intros enc mask k Henc. unfold mask_gap, world. cbv zeta. rewrite !repeat_length. f_equal.
    assert (X : forall (shown : list Z -> option Z -> option Z) f, (forall z c, p_put n s 0 (shown [z] c) = p_put n s (f z) c) -> (forall z, 0 <= z < n ^ Z.of_nat s -> 0 <= f z < n ^ Z.of_nat s) ->
      count (repeat n k ++ [n ^ Z.of_nat s] ++ coins) (fun ds => player (skipn (length [n ^ Z.of_nat s]) (skipn k ds)) (p_put n s 0 (shown (firstn (length [n ^ Z.of_nat s]) (skipn k ds)) (mask (firstn k ds))))) =
      count (repeat n k ++ [n ^ Z.of_nat s] ++ coins) (fun ds => player (skipn 1 (skipn k ds)) (enc (f (hd 0 (skipn k ds))) (firstn k ds)))).
    { intros shown f Hs Hf. rewrite !count_zsums, !sums_app. apply zsums_ext. intros a Ha. rewrite !sums_app. apply zsums_ext. intros zs Hz. apply zsums_ext. intros r _.
      pose proof (drawn_len _ _ Ha) as La. rewrite repeat_length in La. rewrite !(firstn_len_app a), !(skipn_len_app a) by exact La. inversion Hz as [|b z bs t Bz Ht]; subst. inversion Ht; subst. cbn [app length firstn skipn hd].
      rewrite Hs, Henc by (try apply Hf; assumption). reflexivity. }
    f_equal; [apply (X (fun _ c => c) (fun _ => 0)); [reflexivity|intros; lia]|apply (X (p_blur n s) (fun z => z)); [exact B|intros; lia]]. }
  split; apply G.
  - intros m a Hm Ha. inversion Ha as [|b d bs r Bd Hr]; subst. inversion Hr; subst. apply (pub_encrypt_is flag n s pk U m d Hm Bd).
  - intros m a _ Ha. apply (pub_encrypt_rand_is n s pk U m a (drawn_repeat _ _ _ Ha)).
Qed.
Print Assumptions C95_paillier_game.

(** All this is about fresh draws: with the same random number twice, the observer sees whether the plaintexts were the same. *)
Theorem C95_same_randomness_refuted : forall flag n s g xs ys sk ms ms' r c c', cs_keypair n s g xs ys -> cs_private_create flag n s g ys xs = Ok sk ->
  (length ms <= length ys)%nat -> (length ms' <= length ys)%nat -> 0 <= r -> r = 0 \/ Z.gcd r n = 1 ->
  cs_encrypt_with_rand flag (cs_pub sk) ms r = Ok c -> cs_encrypt_with_rand flag (cs_pub sk) ms' r = Ok c' -> padded n s (length ys) ms <> padded n s (length ys) ms' -> c <> c'.
Proof.
  intros flag n s g xs ys sk ms ms' r c c' K E Hl Hl' Hr Hu Ec Ec' N ->.
  destruct (C43_decrypt_inverts_encrypt flag n s g xs ys sk ms r K E Hl Hr Hu) as (d & Ed & D). destruct (C43_decrypt_inverts_encrypt flag n s g xs ys sk ms' r K E Hl' Hr Hu) as (d' & Ed' & D').
  rewrite Ec in Ed. rewrite Ec' in Ed'. injection Ed as <-. injection Ed' as <-. apply N. congruence.
Qed.
Print Assumptions C95_same_randomness_refuted.

(** A conversation of two turns with n = 3, s = 1 and two components: the second request repeats a part of the first answer, and the bound is attained. With the same vector asked for twice nothing
    is learned. *)
Definition ex_ask (seen : list (outcome cs_ciphertext)) : list Z * list Z := match seen with Ok c :: _ => ([ct_u c; 1], [2]) | _ => ([0; 2], [1; 2]) end.
Definition ex_guess (seen : list (outcome cs_ciphertext)) : bool :=
  match seen with [Ok c; Ok d] => match ct_es c, ct_es d with e :: _, f :: _ => (e mod 4 =? 1) && (f mod 2 =? 0) | _, _ => false end | _ => false end.
Lemma ex_ask_ok : forall seen second, let ms := pick second (ex_ask seen) in (length ms <= 2)%nat.
Proof. intros seen second. unfold ex_ask. destruct seen as [|[c|?| | | ] ?], second; cbn; lia. Qed.
Example C95_camenisch_shoup_ex : match cs_public_create false 3 1 2 [4; 7] with
  | Ok pk =>
      let enc := cs_encrypt false pk in
      says_yes [3] enc ex_ask ex_guess 2 false = 0 /\ says_yes [3] enc ex_ask ex_guess 2 true = 1 /\
      mask_total [3] enc (cs_mask 3 1 2 [4; 7]) (cs_put 3 1) [3; 3] (cs_blur 3 1) ex_ask ex_guess 2 = 9 /\
      says_yes [3] enc (fun _ => ([1; 2], [1; 2])) ex_guess 2 false = says_yes [3] enc (fun _ => ([1; 2], [1; 2])) ex_guess 2 true
  | _ => False end.
Proof. vm_compute. repeat split; reflexivity. Qed.
(** Paillier with n = 15, s = 1: an observer of one turn. *)
Definition ex_small (seen : list (outcome Z)) : bool := match seen with [Ok c] => c <? 40 | _ => false end.
Example C95_paillier_ex : match public_create false 15 1 [2] with
  | Ok pk =>
      let enc m ds := pub_encrypt false pk m (hd 0 ds) in
      let enc' m ds := let* (c, _) := pub_encrypt_and_get_rand pk m ds in Ok c in
      (says_yes [15] enc (fun _ => (1, 2)) ex_small 1 false, says_yes [15] enc (fun _ => (1, 2)) ex_small 1 true,
       says_yes [15] enc' (fun _ => (1, 2)) ex_small 1 false, says_yes [15] enc' (fun _ => (1, 2)) ex_small 1 true,
       mask_total [15] enc' (residue_mask 15 1) (p_put 15 1) [15] (p_blur 15 1) (fun _ => (1, 2)) ex_small 1) = (8, 8, 3, 1, 30)
  | _ => False end.
Proof. vm_compute. reflexivity. Qed.
