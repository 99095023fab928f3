(** What the client's message shows the server (C81). *)
From Coq Require Import Permutation.
From Verif Require Import Base M_BigNum L_BigNum M_Num M_EC L_EC L_Toy M_Group M_Cipher S_Cipher L_Cipher M_Paillier S_Paillier L_Paillier L_PaillierKey P_Paillier M_Protocol S_Protocol L_Protocol S_Hide L_Hide L_HideKey L_HideMix
  S_Ddh L_Ddh S_Group L_Group P_Group P_Protocol P_Ddh S_Dcr L_DcrUnits S_ClientView L_Dcr L_ClientView.

(** The client's answer to the server's first message; [vd] are its draws, three for each row of which the encryption uses two. *)
Definition client_reply (C : ec) X sqrt_p fuel isp flag srt (xs : list bytes) (vs : list Z) (p q key_raw : Z) (vd : list Z) (msg : option server_message) : option client_message :=
  match client_create C xs vs p q key_raw, msg with
  | Ok cl, Some m => snd (fst (client_handle C X sqrt_p fuel isp flag srt (fun i => nth (3 * i) vd 0) (fun i => nth (3 * i + 1) vd 0) (fun _ => Ok tt) cl m))
  | _, _ => None
  end.

Lemma client_reply_is C X sqrt_p fuel isp flag srt xs vs ys p q sk h k ks vd : ec_laws C -> sorts srt -> safe_prime p -> safe_prime q -> private_create isp flag p q 2 = Ok sk -> NoDup xs -> NoDup ys ->
  length vs = length xs -> Forall (fun v => 0 <= v < (p * q) ^ 2) vs -> 0 <= k < ec_order C - 1 -> 0 <= ks < ec_order C - 1 -> (3 * length xs <= length vd)%nat ->
  hashed C X sqrt_p fuel h (xs ++ only_server xs ys) ->
  client_reply C X sqrt_p fuel isp flag srt xs vs p q k vd (first_reply C X sqrt_p fuel flag srt ys ks) =
  Some (message_from C srt (p * q) (ks + 1) (common_rows xs ys) (map (fun x => pmul C (k + 1) (h x)) (xs ++ only_server xs ys)) (row_ciphertexts flag sk (map Some vs) vd)).
Proof.
  intros L S Hp Hq Esk Nx Ny El Hv Hk Hks Ld Hh. pose proof (order_gt1 C L) as O1.
  assert (Hx : hashed C X sqrt_p fuel h xs) by (apply Forall_app in Hh; apply Hh).
  pose proof (server_split xs ys Nx Ny) as Ps.
  assert (Hy : hashed C X sqrt_p fuel h ys).
  { unfold hashed in *. rewrite Forall_forall in *. intros y Iy. apply Hh. apply (Permutation_in _ Ps) in Iy. apply in_app_or in Iy. apply in_or_app. destruct Iy as [Iy|Iy]; [left; apply filter_In in Iy; apply Iy|right; exact Iy]. }
  rewrite (first_reply_is C X sqrt_p fuel flag srt ys ks (map h ys) L Hks).
  2:{ unfold hashes_to, hashed in *. clear -Hy. induction Hy as [|y ys [E _] _ IH]; constructor; assumption. }
  2:{ unfold hashed in Hy. apply Forall_map. revert Hy. apply Forall_impl. tauto. }
  destruct (cipher_new_key C L k 0 Hk eq_refl) as (c & Ec & Ek & Eh & G).
  unfold client_reply, client_create. rewrite Ec. cbn [value_or_crash bind]. unfold client_handle, round_one_of. cbn [cl_finished]. unfold reencrypt_set. cbn [cl_p cl_q cl_cipher cl_elements cl_values cl_finished cl_size cl_sum].
  rewrite Esk. assert (Pn : 0 <= p * q). { pose proof (safe_prime_facts p Hp) as (_ & ? & _). pose proof (safe_prime_facts q Hq) as (_ & ? & _). nia. }
  rewrite (wire_ok (p * q) Pn). cbn [bind].
  rewrite (client_rows_are C L X sqrt_p fuel isp flag p q sk Hp Hq Esk h c G Eh xs vs vd _ _ 0%nat Hx El Hv Ld) by reflexivity. cbn [bind].
  rewrite (client_second C L h c (ks + 1) ys G) by (try (rewrite Z.mod_small by lia; lia); unfold hashed in Hy; revert Hy; apply Forall_impl; tauto). cbn [bind fst snd].
  unfold message_from. do 3 f_equal.
  - rewrite map_app. unfold common_rows at 1. rewrite map_length. rewrite <- (map_length (fun x => pmul C (k + 1) (h x)) xs), firstn_app, Nat.sub_diag, firstn_all, firstn_O, app_nil_r. rewrite Ek. reflexivity.
  - apply srt_perm; [exact S| |apply Forall_forall; intros e He; apply in_map_iff in He; destruct He as (P & <- & _); reflexivity].
    apply Permutation_map. rewrite map_app. assert (Lm : length (common_rows xs ys) = length (map (fun x => pmul C (k + 1) (h x)) xs)) by (unfold common_rows; rewrite !map_length; reflexivity).
    rewrite Lm, firstn_exact, skipn_exact.
    rewrite chosen_common, <- map_app, Ek. apply Permutation_map, Ps.
Qed.

(** A hash function that gives the table. *)
Lemma table_function C X sqrt_p fuel ids table : ec_laws C -> hashes_to C X sqrt_p fuel ids table -> Forall (fun P => P <> pinf C) table ->
  exists h, map h ids = table /\ hashed C X sqrt_p fuel h ids.
Proof.
  intros L H V. exists (fun x => match hash_internal C X sqrt_p None fuel 0 x with Ok P => P | _ => pinf C end). unfold hashed. induction H as [|x P xs ps Hx H IH]; [split; [reflexivity|constructor]|].
  inversion V as [|? ? NP V']; subst. destruct (IH V') as [E F]. cbn [map]. split; [rewrite Hx, E; reflexivity|]. constructor; [rewrite Hx; auto|exact F].
Qed.
(** The table and the points depend on their own draws only. *)
Lemma pairs_prefix n r e : (2 * n <= length r)%nat -> pairs n (r ++ e) = pairs n r.
Proof.
  intros H. rewrite <- (firstn_skipn (2 * n) r), <- app_assoc, !(pairs_app n n) by (rewrite ?firstn_length; lia). rewrite Nat.sub_diag. reflexivity.
Qed.
Lemma table_prefix C n m r e : (2 * n + m <= length r)%nat -> hash_table C n m (r ++ e) = hash_table C n m r.
Proof.
  intros H. unfold hash_table. rewrite pairs_prefix by lia. f_equal. f_equal. rewrite skipn_app, firstn_app, skipn_length. replace (m - (length r - 2 * n))%nat with 0%nat by lia. rewrite firstn_O, app_nil_r. reflexivity.
Qed.

(** ** C81. The client's message shows a server that follows the protocol only which rows are common, as long as the decisional Diffie-Hellman problem and the decisional composite
    residuosity problem are hard.  Draws: the client's key, a hash function (for every identifier one even point), a random point for every identifier, and three values for every row.
    The observer knows the server's key and the points of all identifiers, and sees the message.  The made-up message has random points in place of the identifiers and encryptions of
    random numbers in place of the values; of the inputs it shows the number of rows, which of them are common, and how many identifiers the server has.  The difference between the
    numbers of draws for which the observer says yes is at most the sum of the gaps of the players [ddh_player], one for each identifier, and [dcr_player], one for each row. *)
Theorem C81_client_message : forall C sqrt_p fuel isp flag srt (hash : list Z -> externals) (xs : list bytes) (vs : list Z) (ys others : list bytes) p q sk ks,
  ec_laws C -> sorts srt -> safe_prime p -> safe_prime q -> private_create isp flag p q 2 = Ok sk -> NoDup xs -> NoDup ys -> length vs = length xs -> Forall (fun v => 0 <= v < (p * q) ^ 2) vs ->
  0 <= ks < ec_order C - 1 ->
  let ids := xs ++ only_server xs ys in let n := length ids in let m := length others in
  let points := draws C (1 + 2 * n + m) in let values := key_draws p q 2 (length xs) in
  (forall ds, Forall2 (fun b d => 0 <= d < b) points ds -> hashes_to C (hash ds) sqrt_p fuel (ids ++ others) (hash_table C n m (tl ds))) ->
  forall observer : list (pt C) -> option client_message -> bool,
  let real ds := let X := hash (firstn (1 + 2 * n + m) ds) in
    client_reply C X sqrt_p fuel isp flag srt xs vs p q (hd 0 ds) (skipn (1 + 2 * n + m) ds) (first_reply C X sqrt_p fuel flag srt ys ks) in
  let shown pts cts := Some (message_from C srt (p * q) (ks + 1) (common_rows xs ys) pts cts) in
  let made_up ds := shown (random_points C n (tl ds)) (row_ciphertexts flag sk (repeat None (length xs)) (skipn (1 + 2 * n + m) ds)) in
  Z.abs (S_Hide.count (points ++ values) (fun ds => observer (hash_table C n m (tl ds)) (real ds)) - S_Hide.count (points ++ values) (fun ds => observer (hash_table C n m (tl ds)) (made_up ds))) <=
  ddh_total C n m values (fun coins table pts => observer table (shown pts (row_ciphertexts flag sk (map Some vs) coins))) +
  dcr_total (p * q) 2 points vs (fun coins cts => observer (hash_table C n m (tl coins)) (shown (random_points C n (tl coins)) cts)).
Proof.
  intros C sq fuel isp flag srt hash xs vs ys others p q sk ks L S Hp Hq Esk Nx Ny El Hv Hks ids n m points values H observer real shown made_up.
  pose proof (ddh_hybrid C L n m values (fun coins table pts => observer table (shown pts (row_ciphertexts flag sk (map Some vs) coins)))) as D1.
  pose proof (dcr_hybrid isp flag p q 2 sk Hp Hq ltac:(lia) Esk points vs (fun coins cts => observer (hash_table C n m (tl coins)) (shown (random_points C n (tl coins)) cts)) Hv) as D2.
  cbv beta in D1, D2. rewrite El in D2. fold values in D2. fold points in D1.
  assert (Lp : length points = (1 + 2 * n + m)%nat) by (unfold points, draws; apply repeat_length). rewrite Lp in D2.
  set (A1 := S_Hide.count (points ++ values) (fun ds => observer (hash_table C n m (tl ds)) (real ds))) in *.
  set (A3 := S_Hide.count (points ++ values) (fun ds => observer (hash_table C n m (tl ds)) (made_up ds))) in *.
  match type of D1 with Z.abs (?a - ?b) <= _ => assert (E1 : A1 = a) end.
  { apply count_ext. intros ds Ed Hd. apply Forall2_app_inv_l in Hd. destruct Hd as (pd & vd & Hpd & Hvd & ->). pose proof (drawn_len _ _ Hpd) as Lpd. pose proof (drawn_len _ _ Hvd) as Lvd. rewrite Lp in Lpd.
    specialize (H pd Hpd). unfold real. rewrite <- Lpd, firstn_exact, skipn_exact.
    unfold points, draws in Hpd. apply drawn_forall in Hpd. destruct pd as [|k r]; [cbn in Lpd; lia|]. cbn [tl hd length app] in *. inversion Hpd as [|? ? Hk Hr]; subst.
    rewrite (table_prefix C n m r vd) by lia. unfold extra_coins. replace (2 * n + m)%nat with (length r) by lia. rewrite skipn_exact.
    assert (V : Forall (fun P => P <> pinf C) (hash_table C n m r)) by (apply table_valid; [exact L|rewrite firstn_all2 by lia; exact Hr|lia]).
    unfold hash_table in V, H. apply Forall_app in V. destruct V as [V _]. apply hashes_app in H; [|rewrite map_length, pairs_len by lia; reflexivity]. destruct H as [H _].
    destruct (table_function C (hash (k :: r)) sq fuel ids _ L H V) as (h & Eh & Hh).
    rewrite (client_reply_is C (hash (k :: r)) sq fuel isp flag srt xs vs ys p q sk h k ks vd L S Hp Hq Esk Nx Ny El Hv Hk Hks); [| |exact Hh].
    2:{ rewrite Lvd. unfold values. clear. induction (length xs) as [|l IH]; [cbn; lia|]. unfold key_draws in *. cbn [repeat concat app length]. lia. }
    unfold shown. fold ids. f_equal. f_equal. f_equal. unfold under_key. rewrite pairs_prefix by lia. rewrite <- (map_map h (pmul C (k + 1))), Eh, map_map. reflexivity. }
  match type of D1 with Z.abs (?a - ?b) <= _ => match type of D2 with Z.abs (?c - ?d) <= _ => assert (E2 : b = c) end end.
  { apply count_ext. intros ds Ed Hd. apply Forall2_app_inv_l in Hd. destruct Hd as (pd & vd & Hpd & Hvd & ->). pose proof (drawn_len _ _ Hpd) as Lpd. rewrite Lp in Lpd. rewrite <- Lpd, firstn_exact, skipn_exact.
    destruct pd as [|k r]; [cbn in Lpd; lia|]. cbn [tl length app] in *. rewrite (table_prefix C n m r vd) by lia. unfold extra_coins, random_points. replace (2 * n + m)%nat with (length r) by lia. rewrite skipn_exact, pairs_prefix by lia. reflexivity. }
  match type of D2 with Z.abs (?c - ?d) <= _ => assert (E3 : A3 = d) end.
  { apply count_ext. intros ds Ed Hd. apply Forall2_app_inv_l in Hd. destruct Hd as (pd & vd & Hpd & Hvd & ->). pose proof (drawn_len _ _ Hpd) as Lpd. rewrite Lp in Lpd. unfold made_up. rewrite <- Lpd, firstn_exact, skipn_exact.
    destruct pd as [|k r]; [cbn in Lpd; lia|]. cbn [tl length app] in *. rewrite (table_prefix C n m r vd) by lia. unfold random_points. rewrite pairs_prefix by lia. reflexivity. }
  rewrite E1, E3. rewrite E2 in *. lia.
Qed.
Print Assumptions C81_client_message.

(** The server's test of every row: does the row's identifier under the server's key occur among the client's re-encryptions of the server's own identifiers? *)
Definition rows_read (C : ec) (key_raw : Z) (m : option client_message) : list bool :=
  match m, cipher_new C key_raw 0 with
  | Some (Some (CRoundOne _ rows again)), Ok c => map (fun e => match cipher_reencrypt C c (el e) with Ok b => existsb (fun r => bytes_eqb b (el r)) again | _ => false end) rows
  | _, _ => []
  end.
(** The mask of common rows cannot be left out of the made-up message: the server reads it off the real one, because the client sends its rows in the order of its input.
    So the server learns the places of the common rows, and not only how many there are. *)
Theorem C81_rows_known : forall C X sqrt_p fuel isp flag srt xs vs ys p q sk k ks vd, ec_laws C -> sorts srt -> safe_prime p -> safe_prime q -> private_create isp flag p q 2 = Ok sk ->
  NoDup xs -> NoDup ys -> length vs = length xs -> Forall (fun v => 0 <= v < (p * q) ^ 2) vs -> 0 <= k < ec_order C - 1 -> 0 <= ks < ec_order C - 1 -> (3 * length xs <= length vd)%nat ->
  (forall x, In x (xs ++ ys) -> exists P, hash_internal C X sqrt_p None fuel 0 x = Ok P /\ P <> pinf C) ->
  (forall x y, In x (xs ++ ys) -> In y (xs ++ ys) -> hash_internal C X sqrt_p None fuel 0 x = hash_internal C X sqrt_p None fuel 0 y -> x = y) ->
  rows_read C ks (client_reply C X sqrt_p fuel isp flag srt xs vs p q k vd (first_reply C X sqrt_p fuel flag srt ys ks)) = common_rows xs ys.
Proof.
  intros C X sq fuel isp flag srt xs vs ys p q sk k ks vd L S Hp Hq Esk Nx Ny El Hv Hk Hks Ld Hh Hi. pose proof (order_gt1 C L) as O1.
  set (h := fun x => match hash_internal C X sq None fuel 0 x with Ok P => P | _ => pinf C end).
  assert (Eh : forall x, In x (xs ++ ys) -> hash_internal C X sq None fuel 0 x = Ok (h x) /\ h x <> pinf C). { intros x Hx. unfold h. destruct (Hh x Hx) as (P & E & NP). rewrite E. auto. }
  assert (In_rest : forall y, In y (only_server xs ys) -> In y ys) by (intros y Hy; apply filter_In in Hy; apply Hy).
  rewrite (client_reply_is C X sq fuel isp flag srt xs vs ys p q sk h k ks vd); try assumption.
  2:{ apply Forall_forall. intros x Hx. apply Eh. apply in_app_or in Hx. apply in_or_app. destruct Hx as [Hx|Hx]; auto. }
  destruct (cipher_new_key C L ks 0 Hks eq_refl) as (c & Ec & Ek & _ & G). unfold rows_read, message_from. rewrite Ec.
  assert (Lm : length (common_rows xs ys) = length (map (fun x => pmul C (k + 1) (h x)) xs)) by (unfold common_rows; rewrite !map_length; reflexivity).
  rewrite (map_app (fun x => pmul C (k + 1) (h x))), Lm, firstn_exact, skipn_exact, chosen_common, <- map_app, !map_map.
  set (f := fun x => {| el := ec_enc C (pmul C (ks + 1) (pmul C (k + 1) (h x))); ad := [] |}).
  set (again := srt (map f (filter (fun x => existsb (bytes_eqb x) ys) xs ++ only_server xs ys))).
  assert (Ia : forall r, In r again <-> exists y, In y ys /\ r = f y).
  { intros r. destruct (S (map f (filter (fun x => existsb (bytes_eqb x) ys) xs ++ only_server xs ys))) as [Pm _]. fold again in Pm. pose proof (server_split xs ys Nx Ny) as Ps. split.
    - intros Hr. apply (Permutation_in _ (Permutation_sym Pm)) in Hr. apply in_map_iff in Hr. destruct Hr as (y & <- & Hy). exists y. split; [apply (Permutation_in _ (Permutation_sym Ps)), Hy|reflexivity].
    - intros (y & Hy & ->). apply (Permutation_in _ Pm). apply in_map. apply (Permutation_in _ Ps), Hy. }
  assert (Lc : length (row_ciphertexts flag sk (map Some vs) vd) = length xs).
  { rewrite <- El. rewrite <- El in Ld. clear -Ld. revert vd Ld. induction vs as [|v vs IH]; intros vd Ld; [reflexivity|]. destruct vd as [|a [|b [|d vd]]]; [cbn in Ld; lia..|]. cbn [map row_ciphertexts length]. f_equal. apply IH. cbn in Ld. lia. }
  assert (Main : forall x, In x xs -> match cipher_reencrypt C c (ec_enc C (pmul C (k + 1) (h x))) with Ok b => existsb (fun r => bytes_eqb b (el r)) again | _ => false end = existsb (bytes_eqb x) ys).
  { intros x Hx. assert (Ix : In x (xs ++ ys)) by (apply in_or_app; auto). destruct (Eh x Ix) as [Ex NPx].
    assert (U1 : (k + 1) mod ec_order C <> 0) by (rewrite Z.mod_small by lia; lia). assert (U2 : (ks + 1) mod ec_order C <> 0) by (rewrite Z.mod_small by lia; lia).
    change (cipher_reencrypt C c) with (apply_layer C (Add c)). rewrite (layer_ok C L (Add c) _ _ G (point_of_bytes_enc C L _ (pmul_not_inf C L _ (h x) NPx U1))). cbn [factor]. rewrite Ek.
    apply eq_true_iff_eq. rewrite existsb_in, existsb_exists. split.
    - intros (r & Hr & E). apply Ia in Hr. destruct Hr as (y & Hy & ->). apply bytes_eqb_eq in E. unfold f in E. cbn [el] in E. assert (Iy : In y (xs ++ ys)) by (apply in_or_app; auto). destruct (Eh y Iy) as [Ey NPy].
      apply (enc_inj C L) in E; [|apply (pmul_not_inf C L); [apply (pmul_not_inf C L)|]; assumption..]. apply (pmul_pt_inj C L _ _ _ U2) in E. apply (pmul_pt_inj C L _ _ _ U1) in E.
      rewrite (Hi x y Ix Iy) by congruence. exact Hy.
    - intros Hy. exists (f x). split; [apply Ia; eauto|apply bytes_eqb_refl]. }
  clearbody again. clear - Main Lc. unfold common_rows. revert Lc. generalize (row_ciphertexts flag sk (map Some vs) vd) as cts. induction xs as [|x xs IH]; intros [|ct cts] Lc; try discriminate; [reflexivity|].
  cbn [map combine el fst]. f_equal; [apply Main; left; reflexivity|]. apply IH; [intros y Hy; apply Main; right; exact Hy|]. cbn in Lc. lia.
Qed.
Print Assumptions C81_rows_known.

(** A client with the rows 65 and 66, a server with 66 and 67, on the concrete curve: for every draw there is a hash function as in the theorem, and the other hypotheses hold. *)
Example C81_not_vacuous : exists sk, private_create ex_safe false 23 47 2 = Ok sk /\ safe_prime 23 /\ safe_prime 47 /\ only_server [[x41]; [x42]] [[x42]; [x43]] = [[x43]] /\
  common_rows [[x41]; [x42]] [[x42]; [x43]] = [false; true] /\ Forall (fun v => 0 <= v < (23 * 47) ^ 2) [1000; 77] /\
  forall ds, Forall2 (fun b d => 0 <= d < b) (draws toy 7) ds -> exists X, hashes_to toy X toy_sqrt 20 ([[x41]; [x42]; [x43]] ++ []) (hash_table toy 3 0 (tl ds)).
Proof.
  destruct ex_sk as [sk|c| | |] eqn:E; try (vm_compute in E; discriminate). exists sk. split; [exact E|]. split; [exact safe_23|]. split; [exact safe_47|]. split; [reflexivity|]. split; [reflexivity|].
  split; [repeat constructor; lia|]. intros ds Hd.
  destruct (C80_tables_exist toy toy_sqrt 19 [[x41]; [x42]; [x43]] [] ds toy_laws toy_sqrt_ok toy_mirrors) as (X & _ & H); [vm_compute; discriminate| |exact Hd|exists X; exact H].
  repeat constructor; cbn; intuition discriminate.
Qed.
(** The same two parties with a concrete hash function: the server finds the common row in second place. *)
Example C81_rows_ex : rows_read toy 29 (client_reply toy spread_ext toy_sqrt 20 ex_safe false isort [[x41]; [x42]] [1000; 77] 23 47 11 [3; 5; 0; 4; 7; 0] (first_reply toy spread_ext toy_sqrt 20 false isort [[x42]; [x43]] 29)) = [false; true].
Proof. vm_compute. reflexivity. Qed.
