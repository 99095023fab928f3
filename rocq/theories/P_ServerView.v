(** What the server's messages show the client (C82). *)
From Coq Require Import Permutation.
From Verif Require Import Base M_BigNum L_BigNum M_Num M_EC L_EC L_Toy M_Group M_Cipher S_Cipher L_Cipher M_Paillier S_Paillier L_Paillier L_PaillierKey P_Paillier M_Protocol S_Protocol L_Protocol S_Hide L_Hide L_HideKey L_HideMix L_HideView
  S_HideSum L_HideReply S_Ddh L_Ddh S_Group L_Group P_Group P_Protocol P_HideSum P_Ddh S_Dcr L_DcrUnits S_ClientView L_Dcr L_ClientView P_ClientView S_ServerView L_ServerView L_TwoServers L_Collide.

(** Counts of tests that agree outside bad draws. *)
Lemma count_bad B (f g bad : list Z -> bool) : (forall ds, drawn B ds -> bad ds = false -> f ds = g ds) -> Z.abs (S_Hide.count B f - S_Hide.count B g) <= S_Hide.count B bad.
Proof.
  intros H. rewrite !count_zsums, zsums_sub. apply zsums_abs_le. intros ds Hd. specialize (H ds Hd). destruct (bad ds), (f ds), (g ds); try lia; discriminate (H eq_refl).
Qed.

Lemma app_front {A} (a b c d : list A) : a ++ b = c ++ d -> length a = length c -> a = c.
Proof. intros E El. apply (f_equal (firstn (length a))) in E. rewrite firstn_exact, El, firstn_exact in E. exact E. Qed.

(** ** C82. What a client that follows the protocol sees: the server's first message and the server's reply.  The draws are the server's key, a hash function, a random point for every identifier of the server,
    and the server's encryption randomness.  The client's own draws, its key, its two primes and the generator it is sent are arbitrary, and the observer may depend on all of them.
    The made-up view has random points as the first message, and a reply computed from the ciphertexts of the common rows alone: of the server's data it depends on the number of
    identifiers and the common rows.  The difference is at most the sum of the gaps of the Diffie-Hellman players, and the number of draws for which two identifiers have the same hash. *)
Theorem C82_client_view : forall C sqrt_p fuel isp flag srt (hash : list Z -> externals) (xs : list bytes) (vs : list Z) (ys others : list bytes) p q sk pk gen kc vd,
  ec_laws C -> sorts srt -> safe_prime p -> safe_prime q -> private_create isp flag p q 2 = Ok sk -> public_create flag (p * q) 2 gen = Ok pk ->
  NoDup xs -> incl xs (ys ++ others) -> length vs = length xs -> Forall (fun v => 0 <= v < (p * q) ^ 2) vs -> 0 <= kc < ec_order C - 1 -> (3 * length xs <= length vd)%nat ->
  let n := length ys in let m := length others in
  let points := draws C (1 + 2 * n + m) in
  (forall ds, Forall2 (fun b d => 0 <= d < b) points ds -> hashes_to C (hash ds) sqrt_p fuel (ys ++ others) (hash_table C n m (tl ds))) ->
  forall observer : list (pt C) -> option server_message -> outcome (Z * bytes) -> bool,
  let first ds := first_reply C (hash (firstn (1 + 2 * n + m) ds)) sqrt_p fuel flag srt ys (hd 0 ds) in
  let reply ds := second_reply C (hash (firstn (1 + 2 * n + m) ds)) sqrt_p fuel isp flag srt xs vs p q kc (fun i => nth (3 * i) vd 0) (fun i => nth (3 * i + 1) vd 0) ys
    {| sr_key := hd 0 ds; sr_gen := []; sr_zero := 0 |} {| sr_key := 0; sr_gen := gen; sr_zero := nth (1 + 2 * n + m) ds 0 |} in
  let common_cts := map snd (common (combine xs (row_ciphertexts flag sk (map Some vs) vd)) ys) in
  let made_up_reply d := Ok (reply_from (p * q) (pub_base pk) d common_cts) in
  let made_up_first ds := Some (round_one_of C (random_points C n (tl ds))) in
  Z.abs (S_Hide.count (points ++ [p * q]) (fun ds => observer (hash_table C n m (tl ds)) (first ds) (reply ds)) -
         S_Hide.count (points ++ [p * q]) (fun ds => observer (hash_table C n m (tl ds)) (made_up_first ds) (made_up_reply (nth (1 + 2 * n + m) ds 0)))) <=
  ddh_total C n m [p * q] (fun coins table pts => observer table (Some (round_one_of C pts)) (made_up_reply (nth 0 coins 0))) +
  S_Hide.count (points ++ [p * q]) (fun ds => points_repeated C (hash_table C n m (tl ds))).
Proof.
  intros C sq fuel isp flag srt hash xs vs ys others p q sk pk gen kc vd L S Hp Hq Esk Epk Nx Ix El Hv Hkc Ld n m points H observer first reply common_cts made_up_reply made_up_first.
  pose proof (ddh_hybrid C L n m [p * q] (fun coins table pts => observer table (Some (round_one_of C pts)) (made_up_reply (nth 0 coins 0)))) as D. cbv beta in D. fold points in D.
  assert (Lp : length points = (1 + 2 * n + m)%nat) by (unfold points, draws; apply repeat_length).
  set (A := S_Hide.count (points ++ [p * q]) (fun ds => observer (hash_table C n m (tl ds)) (first ds) (reply ds))).
  set (B := S_Hide.count (points ++ [p * q]) (fun ds => observer (hash_table C n m (tl ds)) (made_up_first ds) (made_up_reply (nth (1 + 2 * n + m) ds 0)))).
  match type of D with Z.abs (?a - ?b) <= _ => assert (E1 : Z.abs (A - a) <= S_Hide.count (points ++ [p * q]) (fun ds => points_repeated C (hash_table C n m (tl ds)))); [|assert (E2 : b = B)] end.
  { apply count_bad. intros ds Hd NR. apply Forall2_app_inv_l in Hd. destruct Hd as (pd & zd & Hpd & Hzd & ->). pose proof (drawn_len _ _ Hpd) as Lpd. rewrite Lp in Lpd.
    inversion Hzd as [|? d0 ? ? Hd0 Hz0]; subst. inversion Hz0; subst. clear Hz0 Hzd.
    specialize (H pd Hpd). unfold first, reply. rewrite <- Lpd, firstn_exact. rewrite app_nth2, Nat.sub_diag by lia. cbn [nth].
    unfold points, draws in Hpd. apply drawn_forall in Hpd. destruct pd as [|k r]; [cbn in Lpd; lia|]. cbn [tl hd length app] in *. inversion Hpd as [|? ? Hk Hr]; subst.
    rewrite (table_prefix C n m r) in NR |- * by lia. unfold extra_coins. replace (2 * n + m)%nat with (length r) by lia. rewrite skipn_exact. cbn [nth].
    assert (V : Forall (fun P => P <> pinf C) (hash_table C n m r)) by (apply table_valid; [exact L|rewrite firstn_all2 by lia; exact Hr|lia]).
    destruct (table_function C (hash (k :: r)) sq fuel (ys ++ others) _ L H V) as (h & Eh & Hh).
    assert (Ey : map h ys = map (fun d => hash_point C (fst d)) (pairs n r)).
    { rewrite map_app in Eh. unfold hash_table in Eh. apply (app_front _ _ _ _) in Eh; [exact Eh|]. rewrite !map_length, pairs_len by lia. reflexivity. }
    unfold L_ClientView.hashed in Hh. assert (Hy : hashed C (hash (k :: r)) sq fuel h ys) by (unfold L_ClientView.hashed; apply Forall_app in Hh; apply Hh).
    assert (Hxy : hashed C (hash (k :: r)) sq fuel h (xs ++ ys)).
    { unfold L_ClientView.hashed. apply Forall_app. split; [|exact Hy]. rewrite Forall_forall in Hh |- *. intros x Hx. apply Hh, Ix, Hx. }
    rewrite (first_reply_is C (hash (k :: r)) sq fuel flag srt ys k (map h ys) L Hk).
    2:{ unfold hashes_to. unfold L_ClientView.hashed in Hy. clear - Hy. induction Hy as [|y ys [E _] _ IH]; constructor; assumption. }
    2:{ unfold L_ClientView.hashed in Hy. apply Forall_map. revert Hy. apply Forall_impl. tauto. }
    rewrite (second_reply_is C L (hash (k :: r)) sq fuel isp flag srt S p q sk Hp Hq Esk h xs vs ys pk gen kc k vd d0 0); try assumption.
    2:{ apply repeated_nodup in NR. rewrite <- Eh, map_map in NR. intros a b Ha Hb E. assert (Q : forall c, In c (xs ++ ys) -> In c (ys ++ others)) by (intros c Hc; apply in_app_or in Hc; destruct Hc as [Hc|Hc]; [apply Ix, Hc|apply in_or_app; left; exact Hc]).
        apply (nodup_map_inj _ _ NR); [apply Q; assumption..|]. rewrite E. reflexivity. }
    fold common_cts. unfold made_up_reply. unfold under_key. rewrite pairs_prefix by lia. rewrite Ey, map_map. reflexivity. }
  { apply count_ext. intros ds Ed Hd. apply Forall2_app_inv_l in Hd. destruct Hd as (pd & zd & Hpd & Hzd & ->). pose proof (drawn_len _ _ Hpd) as Lpd. rewrite Lp in Lpd. unfold made_up_first. rewrite <- Lpd, app_nth2, Nat.sub_diag by lia.
    destruct pd as [|k r]; [cbn in Lpd; lia|]. cbn [tl length app] in *. unfold extra_coins. replace (2 * n + m)%nat with (length r) by lia. rewrite skipn_exact. reflexivity. }
  rewrite E2 in D. clear E2. lia.
Qed.
Print Assumptions C82_client_view.

(** The draws in another order. *)
Lemma count_regroup C n m z (t : list (pt C) -> list (pt C) -> Z -> bool) : 1 < ec_order C ->
  S_Hide.count (draws C (1 + 2 * n + m) ++ [z]) (fun ds => t (hash_table C n m (tl ds)) (random_points C n (tl ds)) (nth (1 + 2 * n + m) ds 0)) =
  (ec_order C - 1) * zsums (draws C n) (fun c => zsums (draws C (n + m)) (fun a => S_Hide.count [z] (fun zs => t (map (hash_point C) a) (map (drawn_point C) c) (nth 0 zs 0)))).
Proof.
  intros O1. rewrite count_app. unfold draws. change (1 + 2 * n + m)%nat with (S (2 * n + m)). cbn [repeat zsums].
  rewrite <- (sum_regroup (ec_order C - 1) m (fun a c => S_Hide.count [z] (fun zs => t (map (hash_point C) a) (map (drawn_point C) c) (nth 0 zs 0))) n).
  rewrite (zsum_ext _ _ (fun _ => zsums (repeat (ec_order C - 1) (2 * n + m)) (fun ds => S_Hide.count [z] (fun zs => t (map (hash_point C) (map fst (pairs n ds) ++ skipn (2 * n) ds)) (map (drawn_point C) (map snd (pairs n ds))) (nth 0 zs 0))))).
  - rewrite zsum_const, Z2Nat.id by lia. reflexivity.
  - intros k _. apply zsums_ext. intros r Hr. pose proof (drawn_len _ _ Hr) as Lr. rewrite repeat_length in Lr. apply count_ext. intros zs _ _. cbn [app tl nth]. rewrite table_prefix by lia. unfold random_points. rewrite pairs_prefix by lia.
    rewrite app_nth2 by lia. replace (2 * n + m - length r)%nat with 0%nat by lia. unfold hash_table. rewrite map_app, !map_map. rewrite (firstn_all2 (n := m)) by (rewrite skipn_length; lia). reflexivity.
Qed.

Lemma points_tuples C n m : tuples (draws C (1 + 2 * n + m)) = (ec_order C - 1) * (tuples (draws C n) * tuples (draws C (n + m))).
Proof. unfold draws. replace (1 + 2 * n + m)%nat with (1 + (n + (n + m)))%nat by lia. rewrite repeat_app, tuples_app, repeat_app, tuples_app. change (tuples (repeat (ec_order C - 1) 1)) with ((ec_order C - 1) * 1). ring. Qed.

(** The last term is small: at most N (N - 1) / (order - 1) of the draws, for N identifiers. *)
Theorem C82_collisions : forall C n m z, ec_laws C -> 0 <= z ->
  let draws_all := draws C (1 + 2 * n + m) ++ [z] in let N := Z.of_nat (n + m) in
  (ec_order C - 1) * S_Hide.count draws_all (fun ds => points_repeated C (hash_table C n m (tl ds))) <= N * (N - 1) * tuples draws_all.
Proof.
  intros C n m z L Hz draws_all N. pose proof (order_gt1 C L) as O1. unfold draws_all. rewrite (count_regroup C n m z (fun table _ _ => points_repeated C table)) by lia.
  rewrite (zsums_ext (draws C n) _ (fun _ => z * S_Hide.count (draws C (n + m)) (fun a => points_repeated C (map (hash_point C) a)))).
  2:{ intros c _. rewrite count_zsums, zsums_scale. apply zsums_ext. intros a _. cbn [S_Hide.count]. rewrite zsum_const, Z2Nat.id by lia. destruct (points_repeated C _); lia. }
  assert (NR : forall k, Forall (fun x => 0 <= x) (draws C k)) by (intros k; unfold draws; apply L_HideMask.Forall_repeat; lia). rewrite zsums_const by apply NR. rewrite tuples_app.
  rewrite points_tuples. change (tuples [z]) with (z * 1).
  pose proof (repeated_count C L (n + m)) as R. fold (draws C (n + m)) in R. fold N in R. pose proof (tuples_nonneg _ (NR n)) as T1. set (W := S_Hide.count _ _) in *. set (T := tuples (draws C n)) in *. set (T' := tuples (draws C (n + m))) in *.
  transitivity ((ec_order C - 1) * T * z * ((ec_order C - 1) * W)); [apply Z.eq_le_incl; ring|]. transitivity ((ec_order C - 1) * T * z * (N * (N - 1) * T')); [|apply Z.eq_le_incl; ring].
  apply Z.mul_le_mono_nonneg_l; [|exact R]. apply Z.mul_nonneg_nonneg; [apply Z.mul_nonneg_nonneg; [lia|exact T1]|exact Hz].
Qed.
Print Assumptions C82_collisions.

(** ** The client learns the number of the server's identifiers, the size of the intersection and the sum, and the parity of its own exponents over the common rows, but nothing more.
    Two servers with as many identifiers each, and with the same size, sum and parity: however an observer looks at hashes, first message and reply, its answers about the two servers
    differ at most as often as the two Diffie-Hellman totals, the collisions, and p + q - 1 out of each p q draws of the encryption randomness allow.  [ys ++ others] and [ys' ++ others'] list the
    same identifiers, and the observer gets the table in the order of the first. *)
Theorem C82_two_servers : forall C sqrt_p fuel isp flag srt (hash hash' : list Z -> externals) (xs : list bytes) (vs : list Z) (ys others ys' others' : list bytes) p q sk pk gen x kc vd,
  ec_laws C -> sorts srt -> safe_prime p -> safe_prime q -> 5 < p -> 5 < q -> p <= 2 * q -> q <= 2 * p ->
  private_create isp flag p q 2 = Ok sk -> public_create flag (p * q) 2 gen = Ok pk -> relatively_prime_random gen (p * q) = Ok x -> Z.gcd (x * x - 1) (p * q) = 1 ->
  NoDup xs -> incl xs (ys ++ others) -> NoDup (ys ++ others) -> Permutation (ys ++ others) (ys' ++ others') -> length ys = length ys' ->
  length vs = length xs -> Forall (fun v => 0 <= v < (p * q) ^ 2) vs -> 0 <= kc < ec_order C - 1 -> (3 * length xs <= length vd)%nat ->
  length (common (combine xs vs) ys) = length (common (combine xs vs) ys') ->
  S_Protocol.zsum (map snd (common (combine xs vs) ys)) mod (p * q) ^ 2 = S_Protocol.zsum (map snd (common (combine xs vs) ys')) mod (p * q) ^ 2 ->
  Z.even (S_Protocol.zsum (map snd (common (combine xs (row_exponents p q vd (length xs))) ys))) = Z.even (S_Protocol.zsum (map snd (common (combine xs (row_exponents p q vd (length xs))) ys'))) ->
  let n := length ys in let m := length others in
  let points := draws C (1 + 2 * n + m) in
  (forall ds, Forall2 (fun b d => 0 <= d < b) points ds -> hashes_to C (hash ds) sqrt_p fuel (ys ++ others) (hash_table C n m (tl ds))) ->
  (forall ds, Forall2 (fun b d => 0 <= d < b) points ds -> hashes_to C (hash' ds) sqrt_p fuel (ys' ++ others') (hash_table C n m (tl ds))) ->
  forall observer : list (pt C) -> option server_message -> outcome (Z * bytes) -> bool,
  let first X inputs ds := first_reply C (X (firstn (1 + 2 * n + m) ds)) sqrt_p fuel flag srt inputs (hd 0 ds) in
  let reply X inputs ds := second_reply C (X (firstn (1 + 2 * n + m) ds)) sqrt_p fuel isp flag srt xs vs p q kc (fun i => nth (3 * i) vd 0) (fun i => nth (3 * i + 1) vd 0) inputs
    {| sr_key := hd 0 ds; sr_gen := []; sr_zero := 0 |} {| sr_key := 0; sr_gen := gen; sr_zero := nth (1 + 2 * n + m) ds 0 |} in
  let made_up_reply inputs d := Ok (reply_from (p * q) (pub_base pk) d (map snd (common (combine xs (row_ciphertexts flag sk (map Some vs) vd)) inputs))) in
  let in_first_order table := in_order (pinf C) (ys ++ others) (ys' ++ others') table in
  Z.abs (S_Hide.count (points ++ [p * q]) (fun ds => observer (hash_table C n m (tl ds)) (first hash ys ds) (reply hash ys ds)) -
         S_Hide.count (points ++ [p * q]) (fun ds => observer (in_first_order (hash_table C n m (tl ds))) (first hash' ys' ds) (reply hash' ys' ds))) <=
  ddh_total C n m [p * q] (fun coins table pts => observer table (Some (round_one_of C pts)) (made_up_reply ys (nth 0 coins 0))) +
  ddh_total C n m [p * q] (fun coins table pts => observer (in_first_order table) (Some (round_one_of C pts)) (made_up_reply ys' (nth 0 coins 0))) +
  2 * S_Hide.count (points ++ [p * q]) (fun ds => points_repeated C (hash_table C n m (tl ds))) +
  (p + q - 1) * tuples points.
Proof.
  intros C sq fuel isp flag srt hash hash' xs vs ys others ys' others' p q sk pk gen x kc vd L S Hp Hq Hp5 Hq5 Hpq Hqp Esk Epk Ex Gx Nx Ix ND P Eln El Hv Hkc Ld Esz Esum Epar n m points H H' observer first reply made_up_reply in_first_order.
  pose proof (order_gt1 C L) as O1.
  assert (Em : length others' = m). { pose proof (Permutation_length P) as Q. rewrite !app_length in Q. unfold m. lia. }
  pose proof (C82_client_view C sq fuel isp flag srt hash xs vs ys others p q sk pk gen kc vd L S Hp Hq Esk Epk Nx Ix El Hv Hkc Ld H observer) as V. cbv zeta in V. fold n m points in V.
  assert (Ix' : incl xs (ys' ++ others')) by (intros y Hy; apply (Permutation_in _ P), Ix, Hy).
  pose proof (C82_client_view C sq fuel isp flag srt hash' xs vs ys' others' p q sk pk gen kc vd L S Hp Hq Esk Epk Nx Ix' El Hv Hkc Ld) as V'. cbv zeta in V'. rewrite <- Eln, Em in V'. fold n points in V'.
  specialize (V' H' (fun table => observer (in_first_order table))). cbv beta in V'.
  set (R := S_Hide.count (points ++ [p * q]) (fun ds => observer (hash_table C n m (tl ds)) (first hash ys ds) (reply hash ys ds))) in *.
  set (R' := S_Hide.count (points ++ [p * q]) (fun ds => observer (in_first_order (hash_table C n m (tl ds))) (first hash' ys' ds) (reply hash' ys' ds))) in *.
  match type of V with Z.abs (_ - ?a) <= _ => set (A := a) in * end. match type of V' with Z.abs (_ - ?a) <= _ => set (A' := a) in * end.
  assert (D : Z.abs (A - A') <= (p + q - 1) * tuples points); [|match type of V with _ <= ?d1 + ?c => match type of V' with _ <= ?d2 + _ => change (Z.abs (R - R') <= d1 + d2 + 2 * c + (p + q - 1) * tuples points) end end; match type of V with Z.abs (?a - _) <= _ => change a with R in V end; match type of V' with Z.abs (?a - _) <= _ => change a with R' in V' end; lia].
  set (cts := map snd (common (combine xs (row_ciphertexts flag sk (map Some vs) vd)) ys)) in *. set (cts' := map snd (common (combine xs (row_ciphertexts flag sk (map Some vs) vd)) ys')) in *.
  assert (EA : A = (ec_order C - 1) * zsums (draws C n) (fun c => zsums (draws C (n + m)) (fun a => S_Hide.count [p * q] (fun zs => observer (map (hash_point C) a) (Some (round_one_of C (map (drawn_point C) c))) (Ok (reply_from (p * q) (pub_base pk) (nth 0 zs 0) cts)))))).
  { apply (count_regroup C n m (p * q) (fun table pts d => observer table (Some (round_one_of C pts)) (Ok (reply_from (p * q) (pub_base pk) d cts)))). exact O1. }
  assert (EA' : A' = (ec_order C - 1) * zsums (draws C n) (fun c => zsums (draws C (n + m)) (fun a => S_Hide.count [p * q] (fun zs => observer (map (hash_point C) a) (Some (round_one_of C (map (drawn_point C) c))) (Ok (reply_from (p * q) (pub_base pk) (nth 0 zs 0) cts')))))).
  { etransitivity; [apply (count_regroup C n m (p * q) (fun table pts d => observer (in_first_order table) (Some (round_one_of C pts)) (Ok (reply_from (p * q) (pub_base pk) d cts')))); exact O1|]. f_equal. apply zsums_ext. intros c _.
    pose proof (sum_in_order (pinf C) (hash_point C) (ec_order C - 1) (ys ++ others) (ys' ++ others') (fun t => S_Hide.count [p * q] (fun zs => observer t (Some (round_one_of C (map (drawn_point C) c))) (Ok (reply_from (p * q) (pub_base pk) (nth 0 zs 0) cts')))) P ND) as Q.
    rewrite !app_length, <- Eln, Em in Q. exact Q. }
  rewrite EA, EA'. clear EA EA' A A' V V'. rewrite <- Z.mul_sub_distr_l, Z.abs_mul, (Z.abs_eq (ec_order C - 1)) by lia. rewrite zsums_sub.
  assert (NR : forall k, Forall (fun x => 0 <= x) (draws C k)) by (intros k; unfold draws; apply L_HideMask.Forall_repeat; lia).
  unfold points. rewrite points_tuples.
  transitivity ((ec_order C - 1) * zsums (draws C n) (fun _ => tuples (draws C (n + m)) * (p + q - 1))); [|rewrite zsums_const by apply NR; apply Z.eq_le_incl; ring].
  apply Z.mul_le_mono_nonneg_l; [lia|]. apply zsums_abs_le. intros c _. rewrite zsums_sub, <- (zsums_const (draws C (n + m))) by apply NR. apply zsums_abs_le. intros a _.
  pose proof (cts_facts isp flag p q Hp Hq Hp5 Hq5 sk Esk vs vd Hv ltac:(rewrite El; exact Ld)) as [F1 F2]. rewrite El in F2.
  apply (replies_close isp flag p q Hp Hq Hp5 Hq5 Hpq Hqp sk Esk gen pk Epk (map snd (common (combine xs vs) ys)) (map snd (common (combine xs vs) ys')) _ _ cts cts' x Ex Gx
    (common_rel _ xs ys _ _ F1) (common_rel _ xs ys' _ _ F1) (common_rel _ xs ys _ _ F2) (common_rel _ xs ys' _ _ F2)) with (test := fun r => observer (map (hash_point C) a) (Some (round_one_of C (map (drawn_point C) c))) (Ok r)); [rewrite !map_length; exact Esz|exact Esum|exact Epar].
Qed.
Print Assumptions C82_two_servers.

(** A client with three customers who all spent 5, on the concrete curve; one server has the first customer, the other the second. The client encrypts with exponents of which the first two have the same parity. *)
Example C82_not_vacuous : exists sk pk, private_create sum_safe false 47 59 2 = Ok sk /\ public_create false (47 * 59) 2 [19] = Ok pk /\ relatively_prime_random [19] (47 * 59) = Ok 19 /\ Z.gcd (19 * 19 - 1) (47 * 59) = 1 /\
  (let xs := [[x41]; [x42]; [x43]] in let vs := [5; 5; 5] in let vd := [0; 6; 0; 0; 6; 0; 1; 6; 0] in
   map snd (common (combine xs vs) [[x41]]) = [5] /\ map snd (common (combine xs vs) [[x42]]) = [5] /\
   map snd (common (combine xs (row_exponents 47 59 vd 3)) [[x41]]) = [8] /\ map snd (common (combine xs (row_exponents 47 59 vd 3)) [[x42]]) = [8] /\
   Permutation ([[x41]] ++ [[x42]; [x43]]) ([[x42]] ++ [[x41]; [x43]])) /\
  forall ds, Forall2 (fun b d => 0 <= d < b) (draws toy 5) ds ->
    (exists X, hashes_to toy X toy_sqrt 20 ([[x41]] ++ [[x42]; [x43]]) (hash_table toy 1 2 (tl ds))) /\ (exists X, hashes_to toy X toy_sqrt 20 ([[x42]] ++ [[x41]; [x43]]) (hash_table toy 1 2 (tl ds))).
Proof.
  assert (E1 : is_ok (private_create sum_safe false 47 59 2) = true) by (vm_compute; reflexivity). assert (E2 : is_ok (public_create false (47 * 59) 2 [19]) = true) by (vm_compute; reflexivity).
  destruct (private_create sum_safe false 47 59 2) as [sk|c| | |]; try discriminate E1. destruct (public_create false (47 * 59) 2 [19]) as [pk|c| | |]; try discriminate E2.
  exists sk, pk. split; [reflexivity|]. split; [reflexivity|]. split; [vm_compute; reflexivity|]. split; [reflexivity|]. split; [cbv zeta; split; [reflexivity|]; split; [reflexivity|]; split; [reflexivity|]; split; [reflexivity|apply perm_swap]|].
  intros ds Hd. split.
  - destruct (C80_tables_exist toy toy_sqrt 19 [[x41]] [[x42]; [x43]] ds toy_laws toy_sqrt_ok toy_mirrors) as (X & _ & H); [vm_compute; discriminate| |exact Hd|exists X; exact H]. repeat constructor; cbn; intuition discriminate.
  - destruct (C80_tables_exist toy toy_sqrt 19 [[x42]] [[x41]; [x43]] ds toy_laws toy_sqrt_ok toy_mirrors) as (X & _ & H); [vm_compute; discriminate| |exact Hd|exists X; exact H]. repeat constructor; cbn; intuition discriminate.
Qed.
