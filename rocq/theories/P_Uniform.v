(** C96: random numbers, keys and parameters are drawn without bias. *)
From Coq Require Import Znumtheory.
From Verif Require Import Base M_BigNum L_BigNum M_Num L_Num L_Mod L_NT M_DJ L_DJ M_Paillier S_Paillier L_Paillier L_PaillierKey M_EC L_EC M_Group M_Cipher L_Cipher M_ElGamal M_CS L_CS M_Pedersen
  S_Hide L_Hide L_HideKey L_HideMix L_HideView S_Uniform S_PubHide L_PubHide L_Uniform L_Toy L_Toy2.

Lemma uniform_shift b c (f : list Z -> outcome Z) : 0 < b -> (forall d, 0 <= d < b -> f [d] = Ok (d + c)) -> uniform Z.eqb 1 [b] f (fun x => c <= x < c + b).
Proof.
  intros Hb Hf. assert (F : forall a, frequency Z.eqb [b] f a = if (0 <=? a - c) && (a - c <? b) then 1 else 0).
  { intros a. unfold frequency. cbn [count]. rewrite <- (Z2Nat.id b) at 2 by lia. change ((0 <=? a - c) && (a - c <? Z.of_nat (Z.to_nat b))) with (true && (0 <=? a - c) && (a - c <? Z.of_nat (Z.to_nat b))).
    rewrite <- (zsum_single (Z.to_nat b) (a - c) (fun _ => true)). apply zsum_ext. intros d Hd. rewrite Z2Nat.id in Hd by lia. rewrite Hf by exact Hd. cbn [gives andb].
    destruct (Z.eqb_spec (d + c) a), (Z.eqb_spec d (a - c)); try reflexivity; lia. }
  split; [lia|]. split; intros a Ha; rewrite F; destruct (Z.leb_spec 0 (a - c)), (Z.ltb_spec (a - c) b); cbn [andb]; lia.
Qed.

(** GenerateRandLessThan and GenerateRandBetween, for every positive range. *)
Theorem C96_range : forall bound start stop, 0 < bound -> start < stop ->
  unbiased Z.eqb [bound] (fun ds => generate_rand_less_than bound (hd 0 ds)) (fun x => 0 <= x < bound) /\
  unbiased Z.eqb [stop - start] (fun ds => generate_rand_between start stop (hd 0 ds)) (fun x => start <= x < stop).
Proof.
  intros bound start stop Hb Hs. split; apply (uniform_unbiased _ 1).
  - apply (uniform_shift bound 0); [exact Hb|]. intros d Hd. unfold generate_rand_less_than. cbn [hd]. destruct (Z.leb_spec bound 0); [lia|]. rewrite Z.mod_small by exact Hd. f_equal. lia.
  - apply (uniform_good _ _ _ _ (fun x => start <= x < start + (stop - start))); [intros; lia|]. apply (uniform_shift (stop - start) start); [lia|]. intros d Hd.
    unfold generate_rand_between, generate_rand_less_than. cbn [hd]. destruct (Z.ltb_spec start stop); [|lia]. destruct (Z.leb_spec (stop - start) 0); [lia|]. cbn [bind]. rewrite Z.mod_small by exact Hd. reflexivity.
Qed.
Print Assumptions C96_range.
Example C96_range_ex : frequency Z.eqb [7] (fun ds => generate_rand_between (-3) 4 (hd 0 ds)) (-2) = 1 /\ frequency Z.eqb [7] (fun ds => generate_rand_between (-3) 4 (hd 0 ds)) 4 = 0.
Proof. split; reflexivity. Qed.

(** RelativelyPrimeRandomLessThan, which draws again until it has a good number: all numbers prime to n are equally likely, however many draws are allowed. *)
Theorem C96_units : forall n tries, 1 < n -> (0 < tries)%nat -> unbiased Z.eqb (repeat n tries) (fun ds => relatively_prime_random ds n) (unit_below n).
Proof. intros n t Hn Ht. exact (uniform_unbiased _ _ _ _ _ (uniform_random n Hn t Ht)). Qed.
Print Assumptions C96_units.
Example C96_units_ex : map (frequency Z.eqb [6; 6] (fun ds => relatively_prime_random ds 6)) [0; 1; 2; 3; 4; 5] = [0; 10; 0; 0; 0; 10].
Proof. vm_compute. reflexivity. Qed.

(** The generator in a Paillier public key: n minus the square of a number prime to n, each equally likely. *)
Theorem C96_paillier_generator : forall n tries, 1 < n -> (0 < tries)%nat ->
  unbiased Z.eqb (repeat n tries) (fun ds => generator_for_safe_modulus ds n) (fun g => exists x, unit_below n x /\ g = n - x ^ 2 mod n).
Proof.
  intros n t Hn Ht. apply (uniform_unbiased _ (ends n t * fibre n 2)). eapply uniform_ext; [|apply (uniform_power n Hn (fun x => n - x) 2 t); [intros; lia|lia|exact Ht]].
  intros ds _. unfold generator_for_safe_modulus. destruct (relatively_prime_random ds n) as [x|?| | | ]; cbn [bind]; try reflexivity. unfold bn_mod_sqr. rewrite bn_mod_ok by lia. cbn [bind]. rewrite Z.pow_2_r. reflexivity.
Qed.
Print Assumptions C96_paillier_generator.
Example C96_paillier_generator_ex : map (frequency Z.eqb [15; 15] (fun ds => generator_for_safe_modulus ds 15)) [14; 11; 6; 4] = [88; 88; 0; 0].
Proof. vm_compute. reflexivity. Qed.

(** A Camenisch-Shoup key: the generator and all secret exponents together; each generator is a 2 n^s-th power modulo n^(s+1), the exponents are prime to n. *)
Theorem C96_camenisch_shoup_key : forall n s tries l, 1 < n -> (0 < tries)%nat ->
  unbiased same_pair (repeat (n ^ (Z.of_nat s + 1)) tries ++ concat (repeat (repeat n tries) l))
    (fun ds => let* k := cs_generate_key_base (firstn tries ds) (cut tries l (skipn tries ds)) n s in Ok (key_g k, key_xs k))
    (fun r => (exists x, unit_below (n ^ (Z.of_nat s + 1)) x /\ fst r = x ^ (2 * n ^ Z.of_nat s) mod n ^ (Z.of_nat s + 1)) /\ length (snd r) = l /\ Forall (unit_below n) (snd r)).
Proof.
  intros n s t l Hn Ht. pose proof (t_M n s Hn) as HM. pose proof (t_N n s Hn) as HN. set (M := n ^ (Z.of_nat s + 1)) in *. set (e := 2 * n ^ Z.of_nat s). eapply uniform_unbiased.
  eapply uniform_ext; [|eapply (uniform_pair _ _ _ _ (fun raws => let* x := relatively_prime_random raws M in Ok (x ^ e mod M)) (units_list n t l) (fun g => exists x, unit_below M x /\ g = x ^ e mod M) (fun xs => length xs = l /\ Forall (unit_below n) xs))].
  - intros ds _. unfold both. rewrite repeat_length. unfold cs_generate_key_base, cs_generator. unfold bn_exp. rewrite (Z.abs_eq (Z.of_nat s)), (Z.abs_eq (Z.of_nat s + 1)) by lia. fold M. fold e. 
    destruct (relatively_prime_random (firstn t ds) M) as [x|?| | | ]; cbn [bind]; try reflexivity. rewrite bn_mod_exp_ok by (unfold e; lia). cbn [bind].
    unfold units_list. generalize (x ^ e mod M) as g. generalize (cut t l (skipn t ds)) as css. clear -Hn HM. intros css g.
    assert (G : (let* (xs, ys) := cs_key_loop css g n M in Ok xs) = mapM (fun raws => relatively_prime_random raws n) css).
    { induction css as [|raws css IH]; [reflexivity|]. cbn [cs_key_loop mapM]. destruct (relatively_prime_random raws n) as [x|?| | | ] eqn:Ex; cbn [bind]; try reflexivity.
      apply relprime_draw in Ex; [|exact Hn]. rewrite bn_mod_exp_ok by lia. cbn [bind]. rewrite <- IH. destruct (cs_key_loop css g n M) as [[xs ys]|?| | | ]; reflexivity. }
    rewrite <- G. destruct (cs_key_loop css g n M) as [[xs ys]|?| | | ]; reflexivity.
  - intros xs. destruct (Nat.eq_dec (length xs) l) as [E|E]; [|right; tauto]. destruct (list_units_dec n xs); [left; tauto|right; tauto].
  - apply (uniform_power M HM (fun x => x) e t); [auto|unfold e; lia|exact Ht].
  - apply (uniform_units n Hn t l Ht).
Qed.
Print Assumptions C96_camenisch_shoup_key.
Example C96_camenisch_shoup_key_ex : let process := fun ds => let* k := cs_generate_key_base (firstn 1 ds) (cut 1 2 (skipn 1 ds)) 3 1 in Ok (key_g k, key_xs k) in
  map (frequency same_pair [9; 3; 3] process) [(1, [1; 1]); (1, [1; 2]); (1, [2; 2]); (1, [0; 1]); (8, [1; 1]); (1, [1])] = [6; 6; 6; 0; 0; 0].
Proof. vm_compute. reflexivity. Qed.

(** Pedersen parameters: the base of the randomness and the secret exponents of all other bases together. *)
Theorem C96_pedersen_parameters : forall n tries l, 4 <= n -> (0 < tries)%nat ->
  unbiased same_pair (repeat n tries ++ repeat (n / 4) l)
    (fun ds => let* (pp, rs) := generate_parameters n (firstn tries ds) (skipn tries ds) in Ok (pp_h pp, rs))
    (fun r => (exists x, unit_below n x /\ fst r = x ^ 2 mod n) /\ length (snd r) = l /\ Forall (fun x => 0 <= x < n / 4) (snd r)).
Proof.
  intros n t l Hn Ht. assert (Hq : 0 < n / 4) by (apply Z.div_str_pos; lia). set (Q := n / 4) in *. eapply uniform_unbiased.
  eapply uniform_ext; [|eapply (uniform_pair _ _ _ _ (fun raws => let* x := relatively_prime_random raws n in Ok (x ^ 2 mod n)) (fun raws => Ok raws) (fun g => exists x, unit_below n x /\ g = x ^ 2 mod n) (fun xs => length xs = l /\ Forall (fun x => 0 <= x < Q) xs))].
  - intros ds Hds. apply Forall2_app_inv_l in Hds. destruct Hds as (a & b & Ha & Hb & ->). pose proof (drawn_len _ _ Ha) as La. rewrite repeat_length in La.
    unfold both. rewrite repeat_length. rewrite (firstn_len_app a), (skipn_len_app a) by exact La. unfold generate_parameters.
    destruct (relatively_prime_random a n) as [x|?| | | ]; cbn [bind]; try reflexivity. unfold bn_mod_sqr. rewrite bn_mod_ok by lia. cbn [bind]. rewrite <- Z.pow_2_r.
    assert (G : forall h raws, Forall (fun d => 0 <= d < Q) raws -> exists gs, gen_gs h n raws = Ok (gs, raws)).
    { intros h raws H. induction H as [|d raws Hd H (gs & E)]; [exists []; reflexivity|]. cbn [gen_gs]. unfold bn_div_trunc. cbn [Z.eqb bind]. rewrite Z.quot_div_nonneg by lia. fold Q.
      unfold generate_rand_less_than. destruct (Z.leb_spec Q 0); [lia|]. cbn [bind]. rewrite Z.mod_small by exact Hd. rewrite bn_mod_exp_ok by lia. cbn [bind]. rewrite E. cbn [bind fst snd]. eexists. reflexivity. }
    destruct (G (x ^ 2 mod n) b (drawn_repeat _ _ _ Hb)) as (gs & E). rewrite E. reflexivity.
  - intros xs. destruct (Nat.eq_dec (length xs) l) as [E|E]; [|right; tauto].
    destruct (forallb (fun x => (0 <=? x) && (x <? Q)) xs) eqn:F; [left|right].
    + split; [exact E|]. rewrite forallb_forall in F. apply Forall_forall. intros x Hx. specialize (F x Hx). cbv beta in F. lia.
    + intros [_ H]. apply Bool.not_true_iff_false in F. apply F. apply forallb_forall. intros x Hx. rewrite Forall_forall in H. specialize (H x Hx). cbv beta. lia.
  - apply (uniform_power n ltac:(lia) (fun x => x) 2 t); [auto|lia|exact Ht].
  - instantiate (1 := 1 ^ Z.of_nat l). clear -Hq. induction l as [|l IH].
    + split; [reflexivity|]. unfold frequency. cbn [repeat count]. split; intros [|x xs] H; cbn in *; try reflexivity; [lia|]. destruct H. split; [reflexivity|constructor].
    + rewrite Nat2Z.inj_succ, Z.pow_succ_r by lia. cbn [repeat]. change (Q :: repeat Q l) with ([Q] ++ repeat Q l).
      apply (uniform_ext _ _ _ _ (both cons [Q] (fun ds => Ok (hd 0 ds)) (fun ds => Ok ds))).
      * intros ds H. inversion H; subst. reflexivity.
      * eapply uniform_good; [|eapply (uniform_cons _ _ _ _ _ _ (fun x => 0 <= x < 0 + Q)); [intros; lia| |exact IH]].
        -- intros [|x xs]; cbn [length]; split; [intros []|intros [E _]; discriminate| |].
           ++ intros (U & E & F). split; [lia|constructor; assumption].
           ++ intros (E & F). inversion F; subst. split; [assumption|]. split; [lia|assumption].
        -- apply uniform_shift; [exact Hq|]. intros d _. cbn [hd]. f_equal. lia.
Qed.
Print Assumptions C96_pedersen_parameters.
Example C96_pedersen_parameters_ex : let process := fun ds => let* (pp, rs) := generate_parameters 15 (firstn 1 ds) (skipn 1 ds) in Ok (pp_h pp, rs) in
  map (frequency same_pair [15; 3; 3] process) [(1, [0; 2]); (4, [1; 1]); (4, [1; 3]); (9, [1; 1])] = [4; 4; 0; 0].
Proof. vm_compute. reflexivity. Qed.

(** Private keys on a curve: each number above zero and below the order comes from exactly one draw, in a key pair for ElGamal, in a new cipher and in a key message. *)
Theorem C96_private_keys : forall C hash_type curve_id, ec_laws C -> validate_hash_type hash_type = true ->
  let key (k : Z) := 0 < k < ec_order C in
  unbiased Z.eqb [ec_order C - 1] (fun ds => Ok (snd (eg_generate C (hd 0 ds)))) key /\
  unbiased Z.eqb [ec_order C - 1] (fun ds => let* c := cipher_new C (hd 0 ds) hash_type in Ok (ci_key c)) key /\
  unbiased Z.eqb [ec_order C - 1] (fun ds => let* p := ec_key_proto C curve_id (hd 0 ds) in deserialize_ec_key curve_id p) key.
Proof.
  intros C h id L V key. pose proof (order_gt1 C L) as N1.
  assert (G : forall f, (forall d, 0 <= d < ec_order C - 1 -> f [d] = Ok (d + 1)) -> unbiased Z.eqb [ec_order C - 1] f key).
  { intros f Hf. apply (uniform_unbiased _ 1).
    apply (uniform_good _ _ _ _ (fun x => 1 <= x < 1 + (ec_order C - 1))); [intros; unfold key; lia|]. apply uniform_shift; [lia|exact Hf]. }
  split; [|split]; apply G; intros d Hd; cbn [hd].
  - unfold eg_generate, generate_private_key. cbn [snd]. rewrite Z.mod_small by exact Hd. f_equal. lia.
  - destruct (cipher_new_key C L d h Hd V) as (c & E & Ek & _). rewrite E. cbn [bind]. rewrite Ek. reflexivity.
  - unfold ec_key_proto, generate_private_key. rewrite Z.mod_small by exact Hd. destruct (to_bytes_of (1 + d)) as (b & E & V1); [lia|]. rewrite E. cbn [bind]. unfold deserialize_ec_key. cbn [fst snd]. rewrite Z.eqb_refl. cbn [negb]. rewrite V1. f_equal. lia.
Qed.
Print Assumptions C96_private_keys.
Example C96_private_keys_ex : map (frequency Z.eqb [6] (fun ds => Ok (snd (eg_generate L_Toy2.toy (hd 0 ds))))) [0; 1; 2; 3; 4; 5; 6; 7] = [0; 1; 1; 1; 1; 1; 1; 0].
Proof. vm_compute. reflexivity. Qed.

(** Points: GetRandomCurvePoint and the public half of a new ElGamal key give the encoding of every point other than the point at infinity equally often. *)
Theorem C96_points : forall C, ec_laws C ->
  let point s := exists P, P <> pinf C /\ s = ec_enc C P in
  unbiased bytes_eqb [ec_order C - 1] (fun ds => random_point C (hd 0 ds)) point /\
  unbiased bytes_eqb [ec_order C - 1] (fun ds => point_to_bytes C (eg_y C (fst (eg_generate C (hd 0 ds))))) point.
Proof.
  intros C L point. pose proof (order_gt1 C L) as N1. pose proof (gen_not_inf C L) as NG.
  assert (NI : forall k, 0 < k < ec_order C -> pmul C k (pgen C) <> pinf C). { intros k Hk. apply (pmul_not_inf C L); [exact NG|]. rewrite Z.mod_small by lia. lia. }
  assert (G : forall f, (forall d, 0 <= d < ec_order C - 1 -> f [d] = Ok (ec_enc C (pmul C (d + 1) (pgen C)))) -> unbiased bytes_eqb [ec_order C - 1] f point).
  { intros f Hf. exists 1. split; [lia|]. split; intros a Ha; unfold frequency; cbn [count].
    - destruct Ha as (P & NP & ->). destruct (log_unit C L (pgen C) P NG NP) as (k & Hk & ->).
      rewrite (zsum_ext _ _ (fun d => if true && (d =? k - 1) then 1 else 0)).
      + rewrite (zsum_single (Z.to_nat (ec_order C - 1)) (k - 1) (fun _ => true)). cbn [andb]. destruct (Z.leb_spec 0 (k - 1)), (Z.ltb_spec (k - 1) (Z.of_nat (Z.to_nat (ec_order C - 1)))); try reflexivity; lia.
      + intros d Hd. rewrite Z2Nat.id in Hd by lia. rewrite Hf by exact Hd. cbn [gives andb]. destruct (Z.eqb_spec d (k - 1)) as [->|N].
        * replace (k - 1 + 1) with k by lia. rewrite (proj2 (bytes_eqb_eq _ _) eq_refl). reflexivity.
        * destruct (bytes_eqb _ _) eqn:E; [|reflexivity]. exfalso. apply bytes_eqb_eq in E. apply (enc_inj C L) in E; [|apply NI; lia|apply NI; lia].
          apply (pmul_inj_iff C L) in E; [|exact NG]. rewrite !Z.mod_small in E by lia. lia.
    - rewrite (zsum_ext _ _ (fun _ => 0)); [rewrite zsum_const; lia|]. intros d Hd. rewrite Z2Nat.id in Hd by lia. rewrite Hf by exact Hd. cbn [gives].
      destruct (bytes_eqb _ a) eqn:E; [|reflexivity]. exfalso. apply bytes_eqb_eq in E. apply Ha. eexists. split; [|symmetry; exact E]. apply NI. lia. }
  split; apply G; intros d Hd; cbn [hd].
  - unfold random_point, generate_private_key. rewrite Z.mod_small by exact Hd. rewrite (point_mul_eq C L). rewrite (point_to_bytes_ok C L) by (apply NI; lia). do 3 f_equal. lia.
  - unfold eg_generate, generate_private_key. cbn [fst eg_y]. rewrite Z.mod_small by exact Hd. rewrite (point_mul_eq C L). rewrite (point_to_bytes_ok C L) by (apply NI; lia). do 3 f_equal. lia.
Qed.
Print Assumptions C96_points.
Example C96_points_ex : let e k := ec_enc L_Toy2.toy (point_mul L_Toy2.toy (pgen L_Toy2.toy) k) in
  map (fun k => frequency bytes_eqb [6] (fun ds => random_point L_Toy2.toy (hd 0 ds)) (e k)) [0; 1; 2; 3; 4; 5; 6] = [0; 1; 1; 1; 1; 1; 1].
Proof. vm_compute. reflexivity. Qed.
