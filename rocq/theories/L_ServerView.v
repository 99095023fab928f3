(** The server's last message, as a function of the ciphertexts of the common rows (for C82). *)
From Coq Require Import Permutation.
From Verif Require Import Base M_BigNum L_BigNum M_Num M_EC L_EC M_Group M_Cipher S_Cipher L_Cipher M_Paillier S_Paillier L_Paillier L_PaillierKey M_Protocol S_Protocol L_Protocol L_HideKey S_HideSum L_HideReply L_HideLeak
  S_Ddh L_Ddh P_Ddh S_Dcr L_DcrUnits S_ClientView L_ClientView S_ServerView.

Lemma repeated_nodup l : repeated l = false -> NoDup l.
Proof.
  induction l as [|x r IH]; intros H; [constructor|]. cbn [repeated] in H. apply Bool.orb_false_elim in H. destruct H as [H1 H2]. constructor; [|apply IH, H2]. intros I. apply existsb_in in I. congruence.
Qed.
Lemma nodup_map_inj {A B} (f : A -> B) l : NoDup (map f l) -> forall a b, In a l -> In b l -> f a = f b -> a = b.
Proof.
  induction l as [|x l IH]; intros ND a b Ha Hb E; [destruct Ha|]. cbn [map] in ND. inversion ND as [|? ? N1 N2]; subst. destruct Ha as [<-|Ha], Hb as [<-|Hb]; [reflexivity| | |apply IH; assumption].
  - exfalso. apply N1. rewrite E. apply in_map, Hb.
  - exfalso. apply N1. rewrite <- E. apply in_map, Ha.
Qed.
Lemma product_perm a b : Permutation a b -> fold_right Z.mul 1 a = fold_right Z.mul 1 b.
Proof. induction 1; cbn [fold_right]; [reflexivity|congruence|ring|congruence]. Qed.

Section View.
Variable C : ec.
Hypothesis L : ec_laws C.
Variable X : externals.
Variable sqrt_p : Z -> Z.
Variable fuel : nat.
Variable isp : Z -> bool.
Variable flag : bool.
Variable srt : list elem -> list elem.
Hypothesis Hsrt : sorts srt.
Variables p q : Z.
Variable sk : private_paillier.
Hypothesis Hp : safe_prime p.
Hypothesis Hq : safe_prime q.
Hypothesis Esk : private_create isp flag p q 2 = Ok sk.
Notation n := (p * q).
Variable h : bytes -> pt C.
Notation hashed := (hashed C X sqrt_p fuel h).

Lemma server_rows c kc (xs : list bytes) cts : good C c -> kc mod ec_order C <> 0 -> Forall (fun x => h x <> pinf C) xs ->
  mapM (fun e => let* x := cipher_reencrypt C c (el e) in Ok {| el := x; ad := ad e |}) (map (fun Pc => {| el := ec_enc C (fst Pc); ad := wire (snd Pc) |}) (combine (map (fun x => pmul C kc (h x)) xs) cts)) =
  Ok (map (fun xc => {| el := ec_enc C (pmul C (ci_key c * kc) (h (fst xc))); ad := wire (snd xc) |}) (combine xs cts)).
Proof.
  intros G Hk H. revert cts. induction H as [|x xs Nx _ IH]; intros [|ct cts]; try reflexivity. cbn [map combine mapM el ad fst snd]. change (cipher_reencrypt C c) with (apply_layer C (Add c)) at 1.
  rewrite (layer_ok C L (Add c) _ _ G (point_of_bytes_enc C L _ (pmul_not_inf C L _ (h x) Nx Hk))). cbn [bind factor]. rewrite IH. cbn [bind]. rewrite <- (pmul_mul C L). reflexivity.
Qed.

Lemma second_reply_is xs vs ys pk gen k ks vd d key2 : NoDup xs -> length vs = length xs -> Forall (fun v => 0 <= v < n ^ 2) vs -> 0 <= k < ec_order C - 1 -> 0 <= ks < ec_order C - 1 -> (3 * length xs <= length vd)%nat ->
  hashed (xs ++ ys) -> (forall a b, In a (xs ++ ys) -> In b (xs ++ ys) -> h a = h b -> a = b) -> public_create flag n 2 gen = Ok pk -> 0 <= d < n ->
  second_reply C X sqrt_p fuel isp flag srt xs vs p q k (fun i => nth (3 * i) vd 0) (fun i => nth (3 * i + 1) vd 0) ys {| sr_key := ks; sr_gen := []; sr_zero := 0 |} {| sr_key := key2; sr_gen := gen; sr_zero := d |} =
  Ok (reply_from n (pub_base pk) d (map snd (common (combine xs (row_ciphertexts flag sk (map Some vs) vd)) ys))).
Proof.
  intros Nx El Hv Hk Hks Ld Hh Inj Epk Hd. pose proof (order_gt1 C L) as O1.
  pose proof (proj1 (proj1 (Forall_app _ _ _) Hh)) as Hx. pose proof (proj2 (proj1 (Forall_app _ _ _) Hh)) as Hy.
  pose proof (first_reply_is C X sqrt_p fuel flag srt ys ks (map h ys) L Hks) as FR.
  destruct (cipher_new_key C L k 0 Hk eq_refl) as (c & Ec & Ek & Eh & G). destruct (cipher_new_key C L ks 0 Hks eq_refl) as (cs & Ecs & Eks & Ehs & Gs).
  assert (U1 : (k + 1) mod ec_order C <> 0) by (rewrite Z.mod_small by lia; lia). assert (U2 : (ks + 1) mod ec_order C <> 0) by (rewrite Z.mod_small by lia; lia).
  unfold second_reply, client_create. rewrite Ec. cbn [value_or_crash bind]. unfold server_handle at 1, start_protocol, encrypt_set, server_init. cbn [sv_finished sv_cipher sv_inputs sr_key]. rewrite Ecs.
  assert (Es : mapM (fun x => let* e := enc C X sqrt_p fuel cs x in Ok {| el := e; ad := [] |}) ys = Ok (map (fun P => {| el := ec_enc C P; ad := [] |}) (map (pmul C (ks + 1)) (map h ys)))).
  { clear - L Hy Gs Ehs Eks. induction Hy as [|x xs [Ex Nx] _ IH]; [reflexivity|]. cbn [mapM map]. rewrite (enc_ok C L X sqrt_p fuel cs x (h x) Gs Ehs Ex Nx). cbn [bind]. rewrite IH. cbn [bind]. rewrite Eks. reflexivity. }
  rewrite Es. cbn beta iota.
  unfold client_handle, reencrypt_set. cbn [cl_p cl_q cl_cipher cl_elements cl_values cl_finished cl_size cl_sum]. rewrite Esk.
  pose proof (safe_prime_facts p Hp) as (_ & Hp5 & Op). pose proof (safe_prime_facts q Hq) as (_ & Hq5 & Oq). assert (Hn : 1 < p * q) by nia. assert (On : Z.odd (p * q) = true) by (rewrite Z.odd_mul, Op, Oq; reflexivity).
  rewrite (wire_ok (p * q) ltac:(lia)). cbn [bind].
  rewrite (client_rows_are C L X sqrt_p fuel isp flag p q sk Hp Hq Esk h c G Eh xs vs vd _ _ 0%nat Hx El Hv Ld) by reflexivity. cbn [bind].
  rewrite (client_second C L h c (ks + 1) ys G U2) by (revert Hy; apply Forall_impl; tauto). cbn [bind].
  unfold server_handle, compute_intersection. cbn [sv_finished sv_cipher sr_gen sr_zero].
  assert (Vn : of_bytes (wire (p * q)) = p * q) by (unfold wire; destruct (to_bytes_of (p * q) ltac:(lia)) as (b & -> & V); exact V). rewrite Vn, Epk. cbn [bind].
  rewrite Ek, (server_rows cs (k + 1) xs _ Gs U1) by (revert Hx; apply Forall_impl; tauto). cbn [bind]. rewrite Eks.
  set (cts := row_ciphertexts flag sk (map Some vs) vd).
  assert (Lc : length cts = length xs).
  { rewrite <- El. rewrite <- El in Ld. unfold cts. clear -Ld. revert vd Ld. induction vs as [|v vs IH]; intros vd Ld; [reflexivity|]. destruct vd as [|a [|b [|e vd]]]; [cbn in Ld; lia..|]. cbn [map row_ciphertexts length]. f_equal. apply IH. cbn in Ld. lia. }
  assert (Pc : Forall (fun z => 0 <= z) cts).
  { assert (Pn : 0 < n ^ 3) by (apply Z.pow_pos_nonneg; lia). rewrite <- El in Ld. unfold cts. clear - Ld Hv Pn Hp Hq Esk. revert vd Ld. induction Hv as [|v vs Bv _ IH]; intros vd Ld; [constructor|].
    destruct vd as [|a [|b [|e vd]]]; [cbn in Ld; lia..|]. cbn [map row_ciphertexts plain]. constructor; [|apply IH; cbn in Ld; lia].
    rewrite (priv_encrypt_sealed isp flag p q 2 sk Hp Hq ltac:(lia) Esk v a b) by (change (Z.of_nat 2) with 2; exact Bv). unfold sealed. apply Z.mod_pos_bound. exact Pn. }
  set (crows := map _ (combine xs cts)). set (re := map _ (map (fun y => pmul C (k + 1) (h y)) ys)).
  assert (EF : map fst (combine xs cts) = xs) by (clear - Lc; clearbody cts; revert cts Lc; induction xs as [|x xs IH]; intros [|y cts] E; try discriminate; [reflexivity|]; cbn [combine map fst]; f_equal; apply IH; cbn in E; lia).
  assert (Kp : ((ks + 1) * (k + 1)) mod ec_order C <> 0) by (rewrite <- Ek, <- Eks; apply (key_product C L); assumption).
  destruct (intersection_labels C L X sqrt_p fuel srt Hsrt (fun ct e => ad e = wire ct) ((ks + 1) * (k + 1)) xs cts ys crows re Kp EF) as (chosen & MI & Fch).
  { intros a b Ha Hb E. unfold hashes in E. unfold L_ClientView.hashed in Hh. rewrite Forall_forall in Hh. pose proof (Hh a Ha) as [Ea _]. pose proof (Hh b Hb) as [Eb _]. apply Inj; [assumption..|]. congruence. }
  { unfold crows. assert (Q : Forall (fun xc => hashes C X sqrt_p fuel (fst xc) = Ok (h (fst xc)) /\ h (fst xc) <> pinf C) (combine xs cts)).
    { apply Forall_forall. intros [x ct] Hi. apply in_combine_l in Hi. unfold L_ClientView.hashed in Hx. rewrite Forall_forall in Hx. apply (Hx x Hi). }
    clear - Q. induction Q as [|[x ct] l [E N] _ IH]; constructor; [|exact IH]. cbn [fst snd el ad] in *. split; [exists (h x); auto|reflexivity]. }
  { unfold re. clear - L Hy. induction Hy as [|y ys [E N] _ IH]; constructor; [|exact IH]. cbn [el]. exists (h y). split; [exact E|]. split; [exact N|]. rewrite <- (pmul_mul C L). reflexivity. }
  pose proof (multi_intersection_nodup _ _ _ ltac:(rewrite EF; exact Nx) MI) as PC. fold (inter_of srt crows re).
  pose proof (public_inv flag (p * q) 2 _ pk Hn On Epk) as U. pose proof (pub_M_pos _ _ _ U) as MP. change (Z.of_nat 2 + 1) with 3 in MP.
  rewrite (pub_encrypt_zero flag (p * q) 2 pk d U Hd ltac:(lia)). cbn [bind]. rewrite (add_all_value (p * q) 2 pk U); [|apply Z.mod_pos_bound; change (Z.of_nat 2 + 1) with 3; lia]. cbn [bind].
  change (Z.of_nat 2 + 1) with 3. rewrite Z.mul_mod_idemp_l by lia. rewrite wire_ok by (apply Z.mod_pos_bound; lia). cbn [bind].
  assert (Incl : Forall (fun xc => 0 <= snd xc) chosen).
  { apply Forall_forall. intros xc Hxc. apply (Permutation_in _ PC) in Hxc. apply filter_In in Hxc. destruct Hxc as [Hxc _]. destruct xc as [x ct]. apply in_combine_r in Hxc. rewrite Forall_forall in Pc. exact (Pc ct Hxc). }
  assert (Epr : product (inter_of srt crows re) = fold_right Z.mul 1 (map snd chosen)).
  { clear - Fch Incl. induction Fch as [|xc e l l' E _ IH]; [reflexivity|]. inversion Incl; subst. cbn [product fold_right map]. unfold product in IH. rewrite IH by assumption. f_equal. rewrite E. unfold wire. destruct (to_bytes_of (snd xc)) as (b & -> & V); assumption. }
  unfold reply_from. rewrite Epr, (product_perm _ _ (Permutation_map snd PC)), map_length, <- (Permutation_length PC), (Forall2_len _ _ _ Fch). reflexivity.
Qed.
End View.
