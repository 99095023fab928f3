(** Key generation, and the link from an honest request to the response computed from it. *)
From Coq Require Import Znumtheory.
From Verif Require Import Base M_BigNum M_Num M_EC M_Proto M_CS M_Pedersen M_BB S_CS S_BB L_BigNum L_Num L_Mod L_DJ L_CS L_EC L_Cipher L_Protocol
  L_Pedersen L_VRF L_BBct L_BBhom L_BBped L_BBreq L_BBrsp P_Pedersen.

(** The public part of a private Camenisch-Shoup object is the object created from the public key. *)
Lemma cs_pub_eq flag n s g ys xs pk sk : cs_public_create flag n s g ys = Ok pk -> cs_private_create flag n s g ys xs = Ok sk -> cs_pub sk = pk.
Proof.
  unfold cs_public_create, cs_private_create. intros E1 E2.
  apply bind_ok in E1. destruct E1 as (md & Em & E1). rewrite Em in E2. cbn [bind] in E2.
  apply bind_ok in E1. destruct E1 as (pc & Ep & E1). rewrite Ep in E2. cbn [bind] in E2.
  apply bind_ok in E1. destruct E1 as (ns & En & E1). apply bind_ok in E2. destruct E2 as (t & _ & E2). rewrite En in E2. cbn [bind] in E2.
  apply bind_ok in E1. destruct E1 as (? & _ & E1). apply bind_ok in E1. destruct E1 as (? & _ & E1).
  apply bind_ok in E2. destruct E2 as (? & _ & E2). destruct (negb _); [discriminate|]. apply bind_ok in E2. destruct E2 as (? & _ & E2).
  assert (Ep1 : pk = cs_pub sk) by (injection E1 as <-; injection E2 as <-; reflexivity). symmetry. exact Ep1.
Qed.

Lemma forall2_nth {A B} (P : A -> B -> Prop) l l' i x y : Forall2 P l l' -> nth_error l i = Some x -> nth_error l' i = Some y -> P x y.
Proof.
  intros F. revert i. induction F as [|u v l l' Huv F IH]; intros [|i] H1 H2; cbn [nth_error] in *; try discriminate; [|exact (IH i H1 H2)].
  assert (x = u) by congruence. assert (y = v) by congruence. subst. exact Huv.
Qed.

Section Keys.
Variable flag : bool.
Variable C : ec.
Variable b : bb C.
Variable n : Z.
Variable s : nat.
Variable xs : list Z.
Notation cs := (bb_cs C b).
Notation len := (cs_len cs).
Hypothesis W : cs_valid n s cs.
Hypothesis Hg : Z.gcd (cs_g cs) n = 1.
Hypothesis Hk : key_match n s (cs_g cs) xs (cs_ys cs).
Hypothesis L : ec_laws C.

Lemma slot_nonneg m i v : 0 <= v -> Forall (fun x => 0 <= x) (slot m i v).
Proof. intros Hv. unfold slot. apply Forall_map, Forall_forall. intros j _. destruct (j =? i)%nat; lia. Qed.
Lemma slot_length m i v : length (slot m i v) = m.
Proof. unfold slot. rewrite map_length, seq_length. reflexivity. Qed.
Lemma slot_at m i v l : (l < m)%nat -> nth l (slot m i v) 0 = if (l =? i)%nat then v else 0.
Proof. intros Hl. unfold slot. pose proof (tab_nth m (fun j => if (j =? i)%nat then v else 0) l) as E. destruct (Nat.ltb_spec l m); [exact E|lia]. Qed.

(** An encryption into slot i, if it succeeds, is the canonical ciphertext for some randomness. *)
Lemma encrypt_slot i v raws c : 0 <= v -> cs_encrypt flag cs (slot len i v) raws = Ok c ->
  exists r, 0 <= r /\ c = enc n s cs xs r (fun l => if (l =? i)%nat then v else 0).
Proof.
  intros Hv E. unfold cs_encrypt in E. apply bind_ok in E. destruct E as ((c' & r) & E & Ec). cbn [fst snd] in Ec. assert (c' = c) by congruence. subst c'.
  destruct (cs_encrypt_get_inv flag n s cs W xs _ _ _ _ Hk E) as (Br & Gr & Hl & Hn & E'). exists r. split; [lia|].
  rewrite (enc_with_rand flag n s cs xs W Hg Hk) in E' by (first [assumption|lia|right; assumption]). assert (E2 : c = enc n s cs xs r (fun l => nth l (slot len i v) 0)) by congruence.
  rewrite E2. apply enc_ext; [reflexivity|]. intros l Hll. apply slot_at. exact Hll.
Qed.

Lemma choose_list {A} (P : nat -> A -> Prop) (d : A) m : (forall i, (i < m)%nat -> exists x, P i x) -> exists f, forall i, (i < m)%nat -> P i (f i).
Proof.
  induction m as [|m IH]; intros H; [exists (fun _ => d); lia|]. destruct IH as (f & Hf); [intros i Hi; apply H; lia|]. destruct (H m ltac:(lia)) as (x & Hx).
  exists (fun i => if (i =? m)%nat then x else f i). intros i Hi. destruct (Nat.eqb_spec i m) as [->|]; [exact Hx|apply Hf; lia].
Qed.

(** Keys that were generated parse back to canonical encryptions of k and y in each slot. *)
Lemma keys_inv rk ry ek ey pk sk : bb_generate_keys flag C b rk ry ek ey = Ok (pk, sk) ->
  let k := of_bytes (bsk_k sk) in let y := of_bytes (bsk_y sk) in
  0 < k < ec_order C /\ 0 < y < ec_order C /\
  exists keys ok oy, parse_public C b pk = Ok keys /\ (forall j : nat, 0 <= ok j) /\ (forall j : nat, 0 <= oy j) /\
    map fst keys = key_cts C b n s xs ok k /\ map snd keys = key_cts C b n s xs oy y.
Proof.
  intros E k y. unfold bb_generate_keys in E.
  pose proof (private_key_range C L rk) as Rk. pose proof (private_key_range C L ry) as Ry.
  set (k0 := generate_private_key C rk) in *. set (y0 := generate_private_key C ry) in *.
  destruct (to_bytes_of k0 ltac:(lia)) as (kb & Ek & Pk). destruct (to_bytes_of y0 ltac:(lia)) as (yb & Ey & Py).
  rewrite Ek, Ey in E. cbn [bind] in E. apply bind_ok in E. destruct E as (ps & Ep & E).
  assert (E1 : pk = {| bpk_k := map fst ps; bpk_y := map snd ps |}) by congruence. assert (E2 : sk = {| bsk_k := kb; bsk_y := yb |}) by congruence.
  assert (K : k = k0) by (unfold k; rewrite E2; exact Pk). assert (Y : y = y0) by (unfold y; rewrite E2; exact Py). rewrite K, Y.
  split; [exact Rk|]. split; [exact Ry|]. clear E E2.
  pose proof (mapM_Forall2 _ _ _ Ep) as F.
  assert (Lp : length ps = len) by (rewrite <- (Forall2_len _ _ _ F), seq_length; reflexivity).
  assert (At : forall i, (i < len)%nat -> exists ro : Z * Z, (0 <= fst ro /\ 0 <= snd ro) /\ exists a c, nth_error ps i = Some (a, c) /\
    cs_parse_ct cs a = Ok (enc n s cs xs (fst ro) (fun l => if (l =? i)%nat then k0 else 0)) /\
    cs_parse_ct cs c = Ok (enc n s cs xs (snd ro) (fun l => if (l =? i)%nat then y0 else 0))).
  { intros i Hi. destruct (nth_error ps i) as [(a, c)|] eqn:Ei; [|apply nth_error_None in Ei; lia].
    assert (Hs : nth_error (seq 0 len) i = Some i) by (rewrite (nth_error_nth' _ 0%nat) by (rewrite seq_length; exact Hi); rewrite seq_nth by exact Hi; reflexivity).
    assert (X : (let* ck := cs_encrypt flag cs (slot len i k0) (ek i) in let* pk0 := cs_ct_to_proto ck in
                 let* cy := cs_encrypt flag cs (slot len i y0) (ey i) in let* py := cs_ct_to_proto cy in Ok (pk0, py)) = Ok (a, c)).
    { exact (forall2_nth _ _ _ i i (a, c) F Hs Ei). }
    apply bind_ok in X. destruct X as (ck & Eck & X). apply bind_ok in X. destruct X as (pk0 & Epk & X).
    apply bind_ok in X. destruct X as (cy & Ecy & X). apply bind_ok in X. destruct X as (py & Epy & X).
    assert (pk0 = a) by congruence. assert (py = c) by congruence. subst pk0 py.
    destruct (encrypt_slot i k0 (ek i) ck ltac:(lia) Eck) as (r1 & R1 & ->). destruct (encrypt_slot i y0 (ey i) cy ltac:(lia) Ecy) as (r2 & R2 & ->).
    exists (r1, r2). cbn [fst snd]. split; [lia|]. exists a, c. split; [reflexivity|].
    destruct (enc_proto n s cs xs W r1 (fun l => if (l =? i)%nat then k0 else 0)) as (p1 & P1 & Q1).
    destruct (enc_proto n s cs xs W r2 (fun l => if (l =? i)%nat then y0 else 0)) as (p2 & P2 & Q2).
    rewrite P1 in Epk. rewrite P2 in Epy. assert (p1 = a) by congruence. assert (p2 = c) by congruence. subst p1 p2. split; assumption. }
  destruct (choose_list _ (0, 0) len At) as (ro & Hro).
  set (ok := fun j => if (j <? len)%nat then fst (ro j) else 0). set (oy := fun j => if (j <? len)%nat then snd (ro j) else 0).
  exists (tab len (fun i => (enc n s cs xs (fst (ro i)) (fun l => if (l =? i)%nat then k0 else 0), enc n s cs xs (snd (ro i)) (fun l => if (l =? i)%nat then y0 else 0)))), ok, oy.
  split.
  { unfold parse_public. apply mapM_seq. intros i Hi. destruct (Hro i Hi) as (_ & a & c & Ei & A1 & A2). rewrite E1. cbn [bpk_k bpk_y].
    rewrite (at_index_some _ _ a) by (rewrite nth_error_map, Ei; reflexivity). cbn [bind]. rewrite A1. cbn [bind].
    rewrite (at_index_some _ _ c) by (rewrite nth_error_map, Ei; reflexivity). cbn [bind]. rewrite A2. reflexivity. }
  split. { intros j. unfold ok. destruct (Nat.ltb_spec j len); [apply (Hro j); assumption|lia]. }
  split. { intros j. unfold oy. destruct (Nat.ltb_spec j len); [apply (Hro j); assumption|lia]. }
  rewrite !map_tab. unfold key_cts. split; apply tab_ext; intros i Hi; cbn [fst snd]; unfold ok, oy; destruct (Nat.ltb_spec i len); try lia; reflexivity.
Qed.

(** With a usable draw for every encryption, key generation succeeds. *)
Lemma keys_total rk ry ek ey : (forall i, (i < len)%nat -> (exists r, In r (ek i) /\ Z.gcd (r mod n) n = 1) /\ (exists r, In r (ey i) /\ Z.gcd (r mod n) n = 1)) ->
  exists pk sk, bb_generate_keys flag C b rk ry ek ey = Ok (pk, sk).
Proof.
  intros He. unfold bb_generate_keys.
  pose proof (private_key_range C L rk) as Rk. pose proof (private_key_range C L ry) as Ry.
  set (k0 := generate_private_key C rk) in *. set (y0 := generate_private_key C ry) in *.
  destruct (to_bytes_of k0 ltac:(lia)) as (kb & Ek & Pk). destruct (to_bytes_of y0 ltac:(lia)) as (yb & Ey & Py).
  rewrite Ek, Ey. cbn [bind].
  match goal with |- context [mapM ?f (seq 0 len)] => assert (G : exists l, mapM f (seq 0 len) = Ok l) end.
  { apply mapM_total, Forall_forall. intros i Hi. apply in_seq in Hi. destruct (He i ltac:(lia)) as [H1 H2].
    assert (T : forall v raws, 0 <= v -> (exists r, In r raws /\ Z.gcd (r mod n) n = 1) -> exists c, cs_encrypt flag cs (slot len i v) raws = Ok c).
    { intros v raws Hv Hr. destruct (cs_encrypt_get_ok flag n s cs W Hg xs (slot len i v) raws Hk) as (c & r & E); [rewrite slot_length; lia|apply slot_nonneg; exact Hv|exact Hr|].
      exists c. unfold cs_encrypt. rewrite E. reflexivity. }
    destruct (T k0 (ek i) ltac:(lia) H1) as (c1 & E1). destruct (T y0 (ey i) ltac:(lia) H2) as (c2 & E2).
    destruct (encrypt_slot i k0 (ek i) c1 ltac:(lia) E1) as (r1 & _ & Q1). destruct (encrypt_slot i y0 (ey i) c2 ltac:(lia) E2) as (r2 & _ & Q2).
    destruct (enc_proto n s cs xs W r1 (fun l => if (l =? i)%nat then k0 else 0)) as (p1 & P1 & _). destruct (enc_proto n s cs xs W r2 (fun l => if (l =? i)%nat then y0 else 0)) as (p2 & P2 & _).
    rewrite E1. cbn [bind]. rewrite Q1, P1. cbn [bind]. rewrite E2. cbn [bind]. rewrite Q2, P2. cbn [bind]. eexists. reflexivity. }
  destruct G as (l & ->). cbn [bind]. eexists. eexists. reflexivity.
Qed.
End Keys.

(** ** From an honest request to the result *)
Lemma beta_bound q t c m r a k y bb_ : 1 < q -> 0 < c < t -> 0 <= m < q -> 0 <= r < q -> 0 <= a < q -> 0 <= k < q -> 0 <= y < q -> 0 <= bb_ < q * q * 2 ^ t ->
  let beta := m * a + bb_ * q + a * k + r * a * y in
  0 <= beta /\ beta < 2 ^ (2 * t + 1) * q * q * q /\ 2 ^ c * beta <= 2 ^ (2 * t) * q * q * q.
Proof.
  intros Hq Hc Hm Hr Ha Hk Hy Hb beta.
  assert (T : 0 < 2 ^ t) by (apply Z.pow_pos_nonneg; lia). assert (T0 : 0 < 2 ^ c) by (apply Z.pow_pos_nonneg; lia).
  assert (M1 : 0 <= m * a <= (q - 1) * (q - 1)) by (split; [apply Z.mul_nonneg_nonneg; lia|apply Z.mul_le_mono_nonneg; lia]).
  assert (M2 : 0 <= a * k <= (q - 1) * (q - 1)) by (split; [apply Z.mul_nonneg_nonneg; lia|apply Z.mul_le_mono_nonneg; lia]).
  assert (M3 : 0 <= r * a <= (q - 1) * (q - 1)) by (split; [apply Z.mul_nonneg_nonneg; lia|apply Z.mul_le_mono_nonneg; lia]).
  assert (M4 : 0 <= r * a * y <= (q - 1) * (q - 1) * (q - 1)) by (split; [apply Z.mul_nonneg_nonneg; lia|apply Z.mul_le_mono_nonneg; lia]).
  assert (M5 : 0 <= bb_ * q <= (q * q * 2 ^ t - 1) * q) by (split; [apply Z.mul_nonneg_nonneg; lia|apply Z.mul_le_mono_nonneg; lia]).
  set (Q := q * q * q). assert (HQ : 0 < Q) by (unfold Q; clear - Hq; repeat (apply Z.mul_pos_pos; [|lia]); lia).
  assert (B0 : 0 <= beta) by (unfold beta; lia).
  assert (B1 : beta <= Q * (2 ^ t + 1)).
  { assert (S1 : (q - 1) * (q - 1) + (q - 1) * (q - 1) + (q - 1) * (q - 1) * (q - 1) <= Q). { unfold Q. clear - Hq. replace (q * q * q) with ((q - 1) * (q - 1) + (q - 1) * (q - 1) + (q - 1) * (q - 1) * (q - 1) + (q * q - 1 + q)) by ring. pose proof (Z.mul_nonneg_nonneg q q ltac:(lia) ltac:(lia)). lia. }
    assert (S2 : (q * q * 2 ^ t - 1) * q = Q * 2 ^ t - q) by (unfold Q; ring). unfold beta. clear - S1 S2 M1 M2 M4 M5 Hq. lia. }
  assert (P1 : 2 ^ (t + 1) = 2 * 2 ^ t) by (rewrite (Z.pow_add_r 2 t 1) by lia; ring).
  assert (B2 : beta <= Q * 2 ^ (t + 1)) by (rewrite P1; transitivity (Q * (2 ^ t + 1)); [exact B1|apply Z.mul_le_mono_nonneg_l; lia]).
  split; [exact B0|]. split.
  - assert (P2 : 2 ^ (2 * t + 1) = 2 ^ (t + 1) * 2 ^ t) by (rewrite <- (Z.pow_add_r 2) by lia; f_equal; lia).
    replace (2 ^ (2 * t + 1) * q * q * q) with (Q * 2 ^ (t + 1) * 2 ^ t) by (rewrite P2; unfold Q; ring).
    assert (P3 : 2 <= 2 ^ t) by (change 2 with (2 ^ 1) at 1; apply Z.pow_le_mono_r; lia). assert (P4 : 0 < Q * 2 ^ (t + 1)) by (apply Z.mul_pos_pos; [exact HQ|apply Z.pow_pos_nonneg; lia]). clear - P3 P4 B2. set (V := 2 ^ t) in *. clearbody V. set (U := Q * 2 ^ (t + 1)) in *. clearbody U. nia.
  - transitivity (2 ^ c * (Q * 2 ^ (t + 1))); [apply Z.mul_le_mono_nonneg_l; lia|].
    replace (2 ^ c * (Q * 2 ^ (t + 1))) with (Q * 2 ^ (c + (t + 1))) by (rewrite (Z.pow_add_r 2 c) by lia; ring).
    replace (2 ^ (2 * t) * q * q * q) with (Q * 2 ^ (2 * t)) by (unfold Q; ring). apply Z.mul_le_mono_nonneg_l; [lia|]. apply Z.pow_le_mono_r; lia.
Qed.

Lemma forall2_tab {A B} (P : A -> B -> Prop) (d : A) m f : forall l, length l = m -> (forall j, (j < m)%nat -> P (nth j l d) (f j)) -> Forall2 P l (tab m f).
Proof.
  unfold tab. intros l Hl H. assert (Gn : forall l a, (forall j, (j < length l)%nat -> P (nth j l d) (f (a + j)%nat)) -> Forall2 P l (map f (seq a (length l)))).
  { induction l0 as [|x l0 IH]; intros a Ha; cbn [length seq map]; constructor.
    - specialize (Ha 0%nat ltac:(cbn; lia)). rewrite Nat.add_0_r in Ha. exact Ha.
    - apply IH. intros j Hj. specialize (Ha (S j) ltac:(cbn; lia)). rewrite Nat.add_succ_r in Ha. exact Ha. }
  rewrite <- Hl. apply Gn. intros j Hj. apply H. lia.
Qed.

Section Link.
Variable flag : bool.
Variable C : ec.
Variable sha : bytes -> bytes.
Variable b : bb C.
Variable n : Z.
Variable s : nat.
Variable xs : list Z.
Notation cs := (bb_cs C b).
Notation len := (cs_len cs).
Notation q := (ec_order C).
Notation par := (bb_par C b).
Notation G := (length (pp_gs (pd_par (bb_ped C b)))).
Notation t := (bp_chal par + bp_sec par).
Hypothesis W : cs_valid n s cs.
Hypothesis Hg : Z.gcd (cs_g cs) n = 1.
Hypothesis Hk : key_match n s (cs_g cs) xs (cs_ys cs).
Hypothesis Hlen : (0 < len)%nat.
Hypothesis PO : ped_ok (bb_ped C b).
Hypothesis UN : units (pd_par (bb_ped C b)).
Hypothesis L : ec_laws C.
Hypothesis Hsec : 0 < bp_sec par.
Hypothesis Hchal : 0 < bp_chal par <= 120000.
Hypothesis Hbase : bb_base C b <> pinf C.
Hypothesis Hbound : 2 ^ (2 * bp_chal par + 2 * bp_sec par + 1) * q * q * q <= n ^ Z.of_nat s.
Variable sk : cs_private.
Hypothesis SV : cs_priv_valid n s sk.
Hypothesis SP : cs_pub sk = cs.
Hypothesis SX : cs_xs sk = xs.
Variable ok oy : nat -> Z.
Variable k y : Z.
Hypothesis Hok : forall j, 0 <= ok j.
Hypothesis Hoy : forall j, 0 <= oy j.
Hypothesis Rk : 0 < k < q.
Hypothesis Ry : 0 < y < q.
Variable ms rs : list Z.
Hypothesis Lr : length rs = length ms.
Hypothesis HmG : (length ms <= G)%nat.
Hypothesis Rms : Forall (fun x => 0 <= x < q) ms.
Hypothesis Rrs : Forall (fun x => 0 <= x < q) rs.
Variable e : req_entropy.
Notation m := (length ms).
Variable rq : bb_request.
Variable st : list bytes.
Hypothesis Qn : rq_num rq = m.
Hypothesis Qc : mapM (cs_parse_ct cs) (rq_cts rq) = Ok (request_cts C b n s xs ok oy k y ms rs e).
Hypothesis Qs : parse_bignum_vector st = mask_as C e m.

Definition av (j : nat) : Z := generate_private_key C (e_a e j).
Definition bv (j : nat) : Z := e_b e j mod (q * q * 2 ^ t).
Definition mv (j : nat) : Z := nth j ms 0.
Definition rv (j : nat) : Z := nth j rs 0.
Definition betav (j : nat) : Z := mv j * av j + bv j * q + av j * k + rv j * av j * y.

Lemma q_gt1 : 1 < q. Proof. apply (order_gt1 C L). Qed.
Lemma mv_range j : 0 <= mv j < q.
Proof. pose proof q_gt1. unfold mv. destruct (nth_in_or_default j ms 0) as [H1| ->]; [|lia]. rewrite Forall_forall in Rms. exact (Rms _ H1). Qed.
Lemma rv_range j : 0 <= rv j < q.
Proof. pose proof q_gt1. unfold rv. destruct (nth_in_or_default j rs 0) as [H1| ->]; [|lia]. rewrite Forall_forall in Rrs. exact (Rrs _ H1). Qed.
Lemma av_range j : 0 < av j < q. Proof. apply private_key_range; exact L. Qed.
Lemma bv_range j : 0 <= bv j < q * q * 2 ^ t.
Proof. pose proof q_gt1. apply Z.mod_pos_bound. assert (0 < 2 ^ t) by (apply Z.pow_pos_nonneg; lia). repeat (apply Z.mul_pos_pos; [|assumption || lia]). lia. Qed.
Lemma betav_range j : 0 <= betav j /\ betav j < n ^ Z.of_nat s /\ 2 ^ bp_chal par * betav j <= cube C b.
Proof.
  pose proof (mv_range j) as A1. pose proof (rv_range j) as A2. pose proof (av_range j) as A3. pose proof (bv_range j) as A4. pose proof q_gt1 as Hq.
  destruct (beta_bound q t (bp_chal par) (mv j) (rv j) (av j) k y (bv j) Hq ltac:(lia) A1 A2 ltac:(lia) ltac:(lia) ltac:(lia) A4) as (B1 & B2 & B3). fold (betav j) in B1, B2, B3.
  replace (2 * t + 1) with (2 * bp_chal par + 2 * bp_sec par + 1) in B2 by lia. replace (2 * t) with (2 * bp_chal par + 2 * bp_sec par) in B3 by lia.
  split; [exact B1|]. split; [lia|exact B3].
Qed.
Lemma betav_eqmod j : eqmod q (betav j) (av j * (mv j + k + y * rv j)).
Proof. exists (bv j). unfold betav. ring. Qed.
Lemma betav_zero j : betav j mod q = 0 <-> (mv j + k + y * rv j) mod q = 0.
Proof.
  pose proof q_gt1 as Hq. pose proof (av_range j) as Ra. set (x := mv j + k + y * rv j).
  assert (E : betav j mod q = (av j * x) mod q) by (apply mod_eqmod_iff; [lia|apply betav_eqmod]). rewrite E. split.
  - intros E0. apply Z.mod_divide in E0; [|lia]. apply prime_mult in E0; [|apply (order_prime C L)]. destruct E0 as [E0|E0]; [|apply Z.mod_divide; [lia|exact E0]].
    apply Z.divide_pos_le in E0; lia.
  - intros E0. rewrite Z.mul_mod, E0, Z.mul_0_r by lia. apply Z.mod_0_l. lia.
Qed.

Lemma hf_beta i l : (i * len + l < m)%nat ->
  hf C b k y (hidden_msgs C ms (mask_as C e m) (mask_bs C b e m)) (mask_as C e m) (map2 Z.mul rs (mask_as C e m)) i l = betav (i * len + l).
Proof.
  intros Hj. set (j := (i * len + l)%nat) in *. unfold hf. fold j. unfold hidden_msgs.
  assert (La : length (mask_as C e m) = m) by apply tab_len. assert (Lb : length (mask_bs C b e m) = m) by apply tab_len.
  rewrite !map2_nth by (rewrite ?map2_len; lia). assert (Ea : nth j (mask_as C e m) 0 = av j).
  { unfold mask_as. rewrite tab_nth. destruct (Nat.ltb_spec j m); [reflexivity|lia]. }
  assert (Eb : nth j (mask_bs C b e m) 0 = bv j). { unfold mask_bs. rewrite tab_nth. destruct (Nat.ltb_spec j m); [reflexivity|lia]. }
  rewrite Ea, Eb. reflexivity.
Qed.

Notation R := (hr C b ok oy (mask_as C e m) (map2 Z.mul rs (mask_as C e m)) (enc_rand C b n e m)).
Notation F := (hf C b k y (hidden_msgs C ms (mask_as C e m) (mask_bs C b e m)) (mask_as C e m) (map2 Z.mul rs (mask_as C e m))).
Lemma nn l : Forall (fun x => 0 <= x < q) l -> nonneg l.
Proof. intros H. eapply Forall_impl; [|exact H]. cbn beta. lia. Qed.
Lemma R_nonneg i : 0 <= R i.
Proof.
  pose proof (n1 n s cs W) as Hn. assert (nonneg (mask_as C e m)) by (apply tab_Forall; intros j _; pose proof (av_range j); unfold av in *; lia).
  apply hr_nonneg; [exact Hlen|exact Hok|exact Hoy|assumption| |apply tab_Forall; intros j _; apply Z.mod_pos_bound; lia].
  apply nonneg_map2; [intros; apply Z.mul_nonneg_nonneg; assumption|apply nn; exact Rrs|assumption].
Qed.
Lemma F_nonneg i l : 0 <= F i l.
Proof.
  pose proof q_gt1 as Hq. assert (nonneg (mask_as C e m)) by (apply tab_Forall; intros j _; pose proof (av_range j); unfold av in *; lia).
  assert (nonneg (mask_bs C b e m)) by (apply tab_Forall; intros j _; pose proof (bv_range j); unfold bv in *; lia).
  apply hf_nonneg; [exact Hlen|lia|lia| |assumption|].
  - apply nonneg_map2; [|apply nonneg_map2; [intros; apply Z.mul_nonneg_nonneg; assumption|apply nn; exact Rms|assumption]|assumption].
    intros a c Ha Hc. pose proof (Z.mul_nonneg_nonneg c q). lia.
  - apply nonneg_map2; [intros; apply Z.mul_nonneg_nonneg; assumption|apply nn; exact Rrs|assumption].
Qed.

(** The response to an honest request: refused when some denominator vanishes. *)
Lemma response_zero pk cm cr e2 : (exists j, (j < m)%nat /\ (mv j + k + y * rv j) mod q = 0) -> bb_respond flag C sha b rq pk cm cr sk e2 = Err InvalidArgument.
Proof.
  intros (j & Hj & E0). apply betav_zero in E0.
  refine (respond_inverse_fails flag C sha b n s xs W Hg Hk Hlen L sk SV SP SX m R F betav R_nonneg F_nonneg _ _ rq Qn Qc pk cm cr e2 j HmG Hj E0).
  - intros i l _ H. apply hf_beta, H.
  - intros i _. destruct (betav_range i) as (A & B & _). split; assumption.
Qed.

Lemma dbeta_mod e2 j : dbeta C b e2 j mod q = s_betas e2 j mod q.
Proof.
  pose proof q_gt1 as Hq. unfold dbeta. apply mod_eqmod_iff; [lia|]. assert (D : (q | cube C b)) by (exists (2 ^ (2 * bp_chal par + 2 * bp_sec par) * q * q); unfold cube; ring).
  assert (Hc : 0 < cube C b). { unfold cube. assert (0 < 2 ^ (2 * bp_chal par + 2 * bp_sec par)) by (apply Z.pow_pos_nonneg; lia). repeat (apply Z.mul_pos_pos; [|lia]). lia. }
  apply (eqmod_divide q (cube C b)); [exact D|]. apply eqmod_mod.
Qed.

Lemma response_cases pk cm cr e2 : (forall j, (j < m)%nat -> (mv j + k + y * rv j) mod q <> 0) -> 0 <= cm -> 0 <= cr ->
  ((exists j, (j < m)%nat /\ s_betas e2 j mod q = 0) -> bb_respond flag C sha b rq pk cm cr sk e2 = Err Internal) /\
  ((forall j, (j < m)%nat -> s_betas e2 j mod q <> 0) -> exists rsp pf, bb_respond flag C sha b rq pk cm cr sk e2 = Ok (rsp, pf) /\
     bb_verify_response flag C sha b pk rsp pf rq cm cr = Ok tt /\
     exists Ps, bb_extract C rsp st = Ok Ps /\ Forall2 (fun mr P => bb_value C (bb_base C b) k y (fst mr) (snd mr) P) (combine ms rs) Ps).
Proof.
  intros Hnz Hcm Hcr.
  assert (Hnz' : forall j, (j < m)%nat -> betav j mod q <> 0) by (intros j Hj E0; apply betav_zero in E0; exact (Hnz j Hj E0)).
  destruct (honest_response flag C sha b n s xs W Hg Hk Hlen PO UN L Hsec Hchal Hbase sk SV SP SX m R F betav R_nonneg F_nonneg
    (fun i l _ H => hf_beta i l H) (fun i _ => conj (proj1 (betav_range i)) (proj1 (proj2 (betav_range i)))) rq Qn Qc Hnz' pk cm cr e2 (fun j _ => proj2 (proj2 (betav_range j))) HmG Hcm Hcr) as [H1 H2].
  split.
  - intros (j & Hj & E0). apply H1. exists j. rewrite dbeta_mod. split; assumption.
  - intros Hd. destruct H2 as (rsp & pf & E1 & E2 & E3); [intros j Hj; rewrite dbeta_mod; apply Hd, Hj|]. exists rsp, pf. split; [exact E1|]. split; [exact E3|].
    exists (tab m (fun j => point_mul C (sig C b betav j) (av j))). split.
    + unfold bb_extract. rewrite E2. cbn [bind]. rewrite Qs, tab_len. apply mapM_seq. intros j Hj.
      rewrite (at_index_some _ _ (sig C b betav j)) by (rewrite tab_at by exact Hj; reflexivity). cbn [bind].
      rewrite (at_index_some _ _ (av j)) by (unfold mask_as; rewrite tab_at by exact Hj; reflexivity). reflexivity.
    + apply (forall2_tab _ (0, 0)); [rewrite combine_length; lia|]. intros j Hj. rewrite combine_nth by (symmetry; exact Lr). cbn [fst snd]. fold (mv j) (rv j).
      split; [apply Hnz, Hj|]. destruct (sig_base C b Hlen L Hbase m betav rq Qn j (Hnz' j Hj)) as [Sb _].
      rewrite (point_mul_eq C L), <- (pmul_mul C L). transitivity (pmul C (betav j) (sig C b betav j)); [|exact Sb]. apply (pmul_eqmod C L). rewrite (betav_eqmod j), (Z.mul_comm (av j)). reflexivity.
Qed.
End Link.
