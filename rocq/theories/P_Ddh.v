(** What the server's first message shows the client (C80). *)
From Coq Require Import String List.
From Verif Require Import Base M_BigNum M_Num M_EC L_EC L_Toy M_Group M_Cipher L_Cipher M_Paillier M_Protocol S_Protocol L_Protocol S_Hide L_Hide L_HideKey L_HideMix S_Ddh L_Ddh S_Group L_Group P_Group L_Programmed.

(** The message that consists of given points. *)
Definition round_one_of (C : ec) (points : list (pt C)) : server_message := Some (SRoundOne (map (fun P => {| el := ec_enc C P; ad := [] |}) points)).
(** The server's answer to the client's start. *)
Definition first_reply (C : ec) X sqrt_p fuel flag srt (inputs : list bytes) (key_raw : Z) : option server_message :=
  snd (fst (server_handle C X sqrt_p fuel flag srt {| sr_key := key_raw; sr_gen := []; sr_zero := 0 |} (fun _ => Ok tt) (server_init inputs) start_protocol)).
(** A hash function drawn at random: the points of the identifiers are the ones in the table. *)
Definition hashes_to (C : ec) X sqrt_p fuel (ids : list bytes) (table : list (pt C)) : Prop := Forall2 (fun x P => hash_internal C X sqrt_p None fuel 0 x = Ok P) ids table.

Lemma drawn_point_not_inf C d : ec_laws C -> 0 <= d < ec_order C - 1 -> drawn_point C d <> pinf C.
Proof. intros L Hd. apply (pmul_not_inf C L); [apply (gen_not_inf C L)|rewrite Z.mod_small; lia]. Qed.
Lemma even_one_not_inf C P : ec_laws C -> P <> pinf C -> even_one C P <> pinf C.
Proof.
  intros L NP. unfold even_one. destruct (sign_values C P) as [->| ->]; [rewrite pmul_1; exact NP|]. change (-1) with (- (1)). rewrite (pmul_neg C L), pmul_1. intros E. apply NP.
  rewrite <- (neg_neg C L P), E. apply (neg_inf C L).
Qed.
Lemma hash_point_not_inf C d : ec_laws C -> 0 <= d < ec_order C - 1 -> hash_point C d <> pinf C.
Proof. intros L Hd. apply even_one_not_inf, drawn_point_not_inf; assumption. Qed.
Lemma first_reply_is C X sqrt_p fuel flag srt inputs k table : ec_laws C -> 0 <= k < ec_order C - 1 -> hashes_to C X sqrt_p fuel inputs table -> Forall (fun P => P <> pinf C) table ->
  first_reply C X sqrt_p fuel flag srt inputs k = Some (round_one_of C (map (pmul C (k + 1)) table)).
Proof.
  intros L Hk H NI. unfold first_reply, server_handle, start_protocol, encrypt_set, server_init. cbn [sv_finished sv_cipher sv_inputs sr_key].
  destruct (cipher_new_key C L k 0 Hk eq_refl) as (c & Ec & Ek & Eh & G). rewrite Ec.
  assert (E : mapM (fun x => let* e := enc C X sqrt_p fuel c x in Ok {| el := e; ad := [] |}) inputs = Ok (map (fun P => {| el := ec_enc C P; ad := [] |}) (map (pmul C (k + 1)) table))).
  { induction H as [|x P xs ps Hx H IH]; [reflexivity|]. inversion NI as [|? ? NP NI']; subst. cbn [mapM map]. rewrite (enc_ok C L X sqrt_p fuel c x P G Eh Hx NP). cbn [bind]. rewrite (IH NI'). cbn [bind]. rewrite Ek. reflexivity. }
  rewrite E. reflexivity.
Qed.

Lemma table_valid C n m ds : ec_laws C -> Forall (fun d => 0 <= d < ec_order C - 1) (firstn (2 * n + m) ds) -> (2 * n <= length ds)%nat -> Forall (fun P => P <> pinf C) (hash_table C n m ds).
Proof.
  intros L H Le. unfold hash_table. apply Forall_app. split; apply Forall_map, Forall_forall; intros x Hx.
  - apply hash_point_not_inf; [exact L|]. assert (Hp : In x (pairs n (firstn (2 * n) ds))).
    { rewrite <- (firstn_skipn (2 * n) ds), (pairs_app n n) in Hx by (rewrite ?firstn_length; lia). rewrite Nat.sub_diag in Hx. cbn [pairs] in Hx. rewrite app_nil_r in Hx. exact Hx. }
    apply pairs_in in Hp. destruct Hp as [Hp _]. rewrite Forall_forall in H. apply H. rewrite <- (firstn_skipn (2 * n) ds), firstn_app, firstn_firstn, Nat.min_r by lia. apply in_or_app. left. exact Hp.
  - apply hash_point_not_inf; [exact L|]. rewrite Forall_forall in H. apply H.
    rewrite <- (firstn_skipn (2 * n) ds). rewrite firstn_app, firstn_length, Nat.min_l by lia. apply in_or_app. right. replace (2 * n + m - 2 * n)%nat with m by lia. exact Hx.
Qed.
Lemma drawn_forall o k ds : Forall2 (fun b d => 0 <= d < b) (repeat o k) ds -> Forall (fun d => 0 <= d < o) ds.
Proof. revert ds. induction k as [|k IH]; intros ds H; inversion H; subst; constructor; [assumption|apply IH; assumption]. Qed.
Lemma hashes_app C X sqrt_p fuel a b ta tb : length ta = length a -> hashes_to C X sqrt_p fuel (a ++ b) (ta ++ tb) -> hashes_to C X sqrt_p fuel a ta /\ hashes_to C X sqrt_p fuel b tb.
Proof.
  intros E H. apply Forall2_app_inv_l in H. destruct H as (l1 & l2 & H1 & H2 & E'). assert (length l1 = length ta) by (rewrite E; symmetry; apply (Forall2_len _ _ _ H1)).
  assert (ta = l1 /\ tb = l2) as [-> ->] by (clear -E' H; revert l1 H E'; induction ta as [|x ta IH]; intros [|y l1] E E'; cbn in *; try lia; [auto|injection E' as -> E'; destruct (IH l1 ltac:(lia) E') as [-> ->]; auto]). auto.
Qed.

(** ** A random table of hashes is no fiction: whatever even points are wanted for distinct identifiers, some hash function with outputs of 32 bytes gives them. *)
Lemma hash_point_xy C d : ec_laws C -> mirrors C -> 0 <= d < ec_order C - 1 -> exists x y, ec_xy C (hash_point C d) = Some (x, y) /\ Z.even y = true /\ 0 < y < ec_p C /\ 0 <= x < ec_p C.
Proof.
  intros L M Hd. pose proof (drawn_point_not_inf C d L Hd) as N. unfold hash_point, even_one, sign. destruct (ec_xy C (drawn_point C d)) as [[x y]|] eqn:E.
  2:{ exfalso. apply N, (xy_inf C L), E. }
  destruct (xy_curve C L _ _ _ E) as (Bx & By & _). destruct (M _ _ _ E) as [Py En]. exists x. destruct (Z.even y) eqn:Ey.
  - exists y. rewrite pmul_1. split; [exact E|]. split; [exact Ey|]. lia.
  - exists (ec_p C - y). change (-1) with (- (1)). rewrite (pmul_neg C L), pmul_1. split; [exact En|]. split; [|lia]. rewrite Z.even_sub, Ey, (p_even C L). reflexivity.
Qed.
Fixpoint look (ids : list bytes) (xs : list Z) (m : bytes) : Z :=
  match ids, xs with i :: ids', x :: xs' => if bytes_eqb i m then x else look ids' xs' m | _, _ => 0 end.
Lemma look_range p ids xs m : 0 < p -> Forall (fun x => 0 <= x < p) xs -> 0 <= look ids xs m < p.
Proof. intros Hp. revert xs. induction ids as [|i ids IH]; intros xs H; [cbn; lia|]. destruct H as [|x xs Hx H]; cbn [look]; [lia|]. destruct (bytes_eqb i m); [exact Hx|apply IH, H]. Qed.
Definition table_hash (C : ec) (ids : list bytes) (ds : list Z) : externals :=
  let h := pg_hash 32 (ec_p C) (look ids (map (fun d => match ec_xy C (hash_point C d) with Some (x, _) => x | None => 0 end) ds)) in
  {| sha256 := h; sha384 := h; sha512 := h; hmac512 := fun _ => h |}.
Theorem C80_every_table : forall C sqrt_p fuel ids draws_of_ids, ec_laws C -> sqrt_ok (ec_p C) sqrt_p -> mirrors C -> bit_length (ec_p C) <= 65024 -> NoDup ids ->
  length draws_of_ids = length ids -> Forall (fun d => 0 <= d < ec_order C - 1) draws_of_ids ->
  (forall y, length (sha256 (table_hash C ids draws_of_ids) y) = 32%nat) /\ hashes_to C (table_hash C ids draws_of_ids) sqrt_p (S fuel) ids (map (hash_point C) draws_of_ids).
Proof.
  intros C sq fuel ids ds L Hs M Hb ND El Hd. pose proof (p_gt C L) as Gp.
  set (xs := map (fun d => match ec_xy C (hash_point C d) with Some (x, _) => x | None => 0 end) ds).
  assert (Hx : Forall2 (fun d x => exists y, ec_xy C (hash_point C d) = Some (x, y) /\ Z.even y = true /\ 0 < y < ec_p C /\ 0 <= x < ec_p C) ds xs).
  { unfold xs. clear El xs. induction Hd as [|d ds Hd _ IH]; [constructor|]. destruct (hash_point_xy C d L M Hd) as (x & y & H). cbn [map]. constructor; [exists y; destruct H as [-> H]; split; [reflexivity|exact H]|exact IH]. }
  assert (Rx : Forall (fun x => 0 <= x < ec_p C) xs) by (clear -Hx; induction Hx as [|d x ds xs (y & _ & _ & _ & H) _ IH]; constructor; assumption).
  set (f := look ids xs). set (h := pg_hash 32 (ec_p C) f).
  unfold table_hash. fold xs. fold f. fold h. cbn [sha256]. clearbody xs. split; [intros y; apply pg_length; lia|].
  assert (A : forall m, random_oracle 256 h m (ec_p C) = Ok (f m)).
  { intros m. assert (Hi : pg_blocks 32 (ec_p C) <= 255).
    { unfold pg_blocks, ro_iterations. change (8 * Z.of_nat 32) with 256. assert ((bit_length (ec_p C) + 256 + 256 - 1) / 256 < 256) by (apply Z.div_lt_upper_bound; lia). lia. }
    apply (pg_answers 32 (ec_p C) f); [lia|lia|intros z; apply look_range; [lia|exact Rx]|exact Hi|]. change (8 * Z.of_nat 32) with 256. lia. }
  assert (F : forall m d x, f m = x -> (exists y, ec_xy C (hash_point C d) = Some (x, y) /\ Z.even y = true /\ 0 < y < ec_p C /\ 0 <= x < ec_p C) ->
    hash_internal C {| sha256 := h; sha384 := h; sha512 := h; hmac512 := fun _ => h |} sq None (S fuel) 0 m = Ok (hash_point C d)).
  { intros m d x Em (y & E & Ey & By & Bx). unfold hash_internal. cbn [Z.eqb sha256]. unfold hash_to_curve. rewrite A, Em. cbn [bind hash_loop].
    assert (LL : even_lift C x (hash_point C d)) by (exists y; rewrite Z.mod_small by lia; auto).
    destruct (map_x_total C L sq Hs x) as [(_ & P & EP & LP)|[N _]].
    - rewrite EP. f_equal. exact (even_lift_unique C L x P _ LP LL).
    - exfalso. apply N. exists y. split; [exact By|]. destruct (xy_curve C L _ _ _ E) as (_ & _ & D). apply Z.mod_divide; [lia|]. rewrite Zminus_mod, D, Z.sub_diag. apply Z.mod_0_l. lia. }
  unfold hashes_to. assert (G : forall m x, In (m, x) (combine ids xs) -> f m = x).
  { unfold f. assert (Ex : length xs = length ids) by (rewrite <- El; symmetry; apply (Forall2_len _ _ _ Hx)). clear -ND Ex. intros m. revert xs Ex ND. induction ids as [|i ids IH]; intros [|x0 xs] Ex ND x Hin; cbn [combine] in Hin; try (now destruct Hin); try (cbn in Ex; lia).
    inversion ND as [|? ? Ni ND']; subst. cbn [look]. destruct Hin as [Hin|Hin]; [injection Hin as <- <-; rewrite bytes_eqb_refl; reflexivity|].
    destruct (bytes_eqb i m) eqn:Ei; [apply bytes_eqb_eq in Ei; subst; exfalso; apply Ni, (in_combine_l _ _ _ _ Hin)|]. apply IH; [cbn in Ex; lia|exact ND'|exact Hin]. }
  clearbody f. clear -Hx El F G. revert ids El G. induction Hx as [|d x ds xs Hdx _ IH]; intros [|i ids] El G; cbn in El; try lia; [constructor|]. cbn [map]. constructor.
  - apply (F i d x); [apply (G i x); left; reflexivity|exact Hdx].
  - apply IH; [lia|]. intros m x' Hin. apply (G m x'). right. exact Hin.
Qed.
Print Assumptions C80_every_table.
Lemma toy_mirrors : mirrors toy.
Proof.
  assert (A : forallb (fun k => match entry k with Some (x, y) => (0 <? y) && raw_eqb (entry (- k)) (Some (x, 67 - y)) | None => true end) (range 79) = true) by (vm_compute; reflexivity).
  rewrite forallb_forall in A. intros P x y E. destruct (te_all P) as (k & Hk & ->). rewrite te_neg. cbn [ec_xy toy] in *. rewrite te_val in *.
  specialize (A _ (tn_range k)). rewrite entry_mod, E, andb_true_iff, Z.ltb_lt, raw_eqb_eq in A. destruct A as [A B]. split; [exact A|].
  change (ec_p toy) with 67. rewrite <- B. rewrite <- (entry_mod (- k)), <- (entry_mod (- (k mod tn))). f_equal. rewrite <- (Z.sub_0_l (k mod tn)), <- (Z.sub_0_l k), Zminus_mod_idemp_r. reflexivity.
Qed.

(** ** C80. The client cannot tell the server's first message from a list of random points, as long as nobody can tell Diffie-Hellman points from random points.
    Draws: the server's key, a hash function (for every identifier one even point), random points.  The observer sees the points of all identifiers the server has and of any
    others, and the message.  The difference between the numbers of draws for which it says yes for the real message and for a message of random points is at most the sum of
    the gaps of the players [ddh_player], one for each of the server's identifiers, in the decisional Diffie-Hellman game; each of them runs the observer once. *)
Theorem C80_first_message : forall C sqrt_p fuel flag srt (hash : list Z -> externals) (inputs others : list bytes), ec_laws C ->
  let n := length inputs in let m := length others in let bounds := draws C (1 + 2 * n + m) in
  (forall ds, Forall2 (fun b d => 0 <= d < b) bounds ds -> hashes_to C (hash ds) sqrt_p fuel (inputs ++ others) (hash_table C n m (tl ds))) ->
  forall observer : list (pt C) -> option server_message -> bool,
  Z.abs (S_Hide.count bounds (fun ds => observer (hash_table C n m (tl ds)) (first_reply C (hash ds) sqrt_p fuel flag srt inputs (hd 0 ds))) -
         S_Hide.count bounds (fun ds => observer (hash_table C n m (tl ds)) (Some (round_one_of C (random_points C n (tl ds)))))) <=
  ddh_total C n m [] (fun _ table points => observer table (Some (round_one_of C points))).
Proof.
  intros C sq fuel flag srt hash inputs others L n m bounds H observer.
  pose proof (ddh_hybrid C L n m [] (fun _ table points => observer table (Some (round_one_of C points)))) as D. cbv beta in D. rewrite !app_nil_r in D.
  eapply Z.le_trans; [|exact D]. apply Z.eq_le_incl. match goal with |- Z.abs (?a - ?b) = Z.abs (?c - ?d) => cut (a = c /\ b = d); [intros [-> ->]; reflexivity|split] end.
  - apply count_ext. intros ds El Hd. specialize (H ds Hd). unfold bounds, draws in El, Hd. rewrite repeat_length in El. apply drawn_forall in Hd. destruct ds as [|k r]; [cbn in El; lia|]. cbn [tl hd length] in *. inversion Hd as [|? ? Hk Hr]; subst.
    assert (V : Forall (fun P => P <> pinf C) (hash_table C n m r)) by (apply table_valid; [exact L|rewrite firstn_all2 by lia; exact Hr|lia]).
    unfold hash_table in V, H. apply Forall_app in V. destruct V as [V _]. apply hashes_app in H; [|rewrite map_length, pairs_len by lia; reflexivity]. destruct H as [H _].
    rewrite (first_reply_is C (hash (k :: r)) sq fuel flag srt inputs k _ L Hk H V). rewrite map_map. reflexivity.
  - apply count_ext. intros ds El Hd. unfold bounds, draws in El. rewrite repeat_length in El. destruct ds as [|k r]; [cbn in El; lia|]. reflexivity.
Qed.
Print Assumptions C80_first_message.

(** Hash functions as the theorem asks for exist for any distinct identifiers. *)
Theorem C80_tables_exist : forall C sqrt_p fuel inputs others ds, ec_laws C -> sqrt_ok (ec_p C) sqrt_p -> mirrors C -> bit_length (ec_p C) <= 65024 -> NoDup (inputs ++ others) ->
  let n := length inputs in let m := length others in Forall2 (fun b d => 0 <= d < b) (draws C (1 + 2 * n + m)) ds ->
  exists X, (forall y, length (sha256 X y) = 32%nat) /\ hashes_to C X sqrt_p (S fuel) (inputs ++ others) (hash_table C n m (tl ds)).
Proof.
  intros C sq fuel inputs others ds L Hs M Hb ND n m Hd. pose proof (Forall2_len _ _ _ Hd) as El. unfold draws in El. rewrite repeat_length in El. apply drawn_forall in Hd. destruct ds as [|k r]; [cbn in El; lia|]. cbn [tl length] in *.
  inversion Hd as [|? ? _ Hr]; subst. exists (table_hash C (inputs ++ others) (map fst (pairs n r) ++ firstn m (skipn (2 * n) r))).
  replace (hash_table C n m r) with (map (hash_point C) (map fst (pairs n r) ++ firstn m (skipn (2 * n) r))) by (rewrite map_app, map_map; reflexivity).
  apply (C80_every_table C sq fuel); try assumption.
  - rewrite !app_length, map_length, pairs_len, firstn_length, skipn_length by lia. unfold n, m in *. lia.
  - rewrite Forall_forall in Hr |- *. intros d Hin. apply Hr. apply in_app_or in Hin. destruct Hin as [Hin|Hin].
    + apply in_map_iff in Hin. destruct Hin as (x & <- & Hx). apply (pairs_in _ _ _ Hx).
    + rewrite <- (firstn_skipn (2 * n) r). apply in_or_app. right. rewrite <- (firstn_skipn m (skipn (2 * n) r)). apply in_or_app. left. exact Hin.
Qed.
Print Assumptions C80_tables_exist.
(** A server with the identifiers 65 and 66 on the concrete curve, a client with 67: for every draw there is a hash function as in the theorem. *)
Example C80_not_vacuous ds : Forall2 (fun b d => 0 <= d < b) (draws toy 6) ds -> exists X, hashes_to toy X toy_sqrt 20 ([[x41]; [x42]] ++ [[x43]]) (hash_table toy 2 1 (tl ds)).
Proof.
  intros Hd. destruct (C80_tables_exist toy toy_sqrt 19 [[x41]; [x42]] [[x43]] ds toy_laws toy_sqrt_ok toy_mirrors) as (X & _ & H); [vm_compute; discriminate| |exact Hd|exists X; exact H].
  repeat constructor; cbn; intuition discriminate.
Qed.
