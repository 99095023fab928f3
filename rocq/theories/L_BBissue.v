(** Lemmas about what the issuer decrypts and answers, whatever the request. *)
From Coq Require Import Znumtheory.
From Verif Require Import Base M_BigNum L_BigNum M_Num L_Mod L_Num L_NT M_DJ L_DJ M_EC L_EC L_Cipher M_Proto M_CS S_CS L_CS
  M_Pedersen M_VRF M_BB L_BBct L_BBhom L_BBped L_BBreq L_BBrsp S_BB S_BBrequest L_Protocol L_Pedersen L_VRF L_BB L_BBsound L_Cheat L_BBrequest L_BBopen.

Lemma opens_all_len n s u xs es ms : cs_opens_all n s u xs es ms -> length ms = length xs.
Proof. intros H. induction H as [|x xs e es m ms _ _ IH]; [reflexivity|]. cbn [length]. rewrite IH. reflexivity. Qed.
Lemma concat_at {A} (d : A) len : forall ls i l, Forall (fun x => length x = len) ls -> (l < len)%nat -> (i < length ls)%nat -> nth (i * len + l) (concat ls) d = nth l (nth i ls []) d.
Proof.
  induction ls as [|x ls IH]; intros i l H Hl Hi; cbn [length] in Hi; [lia|]. pose proof (Forall_inv H) as Hx. cbn beta in Hx. apply Forall_inv_tail in H. cbn [concat]. destruct i as [|i]; cbn [nth].
  - change (0 * len + l)%nat with l. rewrite app_nth1 by lia. reflexivity.
  - rewrite app_nth2 by (rewrite Hx; cbn [Nat.mul]; lia). rewrite Hx. replace (S i * len + l - len)%nat with (i * len + l)%nat by (cbn [Nat.mul]; lia). apply IH; [exact H|exact Hl|lia].
Qed.
Lemma firstn_at {A} (d : A) : forall m l j, (j < m)%nat -> nth j (firstn m l) d = nth j l d.
Proof. induction m as [|m IH]; intros [|x l] j Hj; try lia; [destruct j; reflexivity|]. cbn [firstn]. destruct j as [|j]; [reflexivity|]. cbn [nth]. apply IH. lia. Qed.

Section Issue.
Variable C : ec.
Variable b : bb C.
Variables (n : Z) (s : nat) (xs : list Z).
Notation cs := (bb_cs C b).
Hypothesis W : cs_valid n s cs.
Hypothesis Hk : key_match n s (cs_g cs) xs (cs_ys cs).
Notation len := (cs_len cs).
Notation P := (n ^ Z.of_nat s).
Notation q := (ec_order C).
Hypothesis Hlen : (0 < len)%nat.
Hypothesis Hs : (1 <= s)%nat.
Hypothesis L : ec_laws C.
Variable sk : cs_private.
Hypothesis SV : cs_priv_valid n s sk.
Hypothesis SP : cs_pub sk = cs.
Hypothesis SX : cs_xs sk = xs.

Lemma decrypt_inv rq cts0 betas : decrypt_request C b sk rq = Ok (cts0, betas) ->
  mapM (cs_parse_ct cs) (rq_cts rq) = Ok cts0 /\ length betas = rq_num rq /\ Forall (fun z => 0 <= z < P) betas /\
  forall i l, (l < len)%nat -> (i < length cts0)%nat -> (i * len + l < rq_num rq)%nat -> exists ct, nth_error cts0 i = Some ct /\
    cs_opens n s (nth l xs 0) (ct_u ct) (nth l (ct_es ct) 0) (nth (i * len + l) betas 0).
Proof.
  intros E. unfold decrypt_request in E. apply bind_ok in E. destruct E as (dec & Ed & E). destruct (Nat.ltb_spec (length (concat (map snd dec))) (rq_num rq)) as [|Hle]; [discriminate|]. apply ok_inj in E. injection E as <- <-.
  assert (Lx : length xs = len) by (apply (xs_len n s cs xs W Hk)).
  assert (A : mapM (cs_parse_ct cs) (rq_cts rq) = Ok (map fst dec) /\ Forall (fun d => length (snd d) = len /\ Forall (fun z => 0 <= z < P) (snd d) /\ cs_opens_all n s (ct_u (fst d)) xs (ct_es (fst d)) (snd d)) dec).
  { revert dec Ed Hle. generalize (rq_cts rq) as l. intros l dec Ed _. revert dec Ed. induction l as [|c l IH]; intros dec Ed; cbn [mapM] in *.
    - apply ok_inj in Ed. subst dec. split; [reflexivity|constructor].
    - apply bind_ok in Ed. destruct Ed as (d & Ex & Ed). apply bind_ok in Ed. destruct Ed as (ds & Eds & Ed). apply ok_inj in Ed. subst dec. apply bind_ok in Ex. destruct Ex as (ct & Ec & Ex). apply bind_ok in Ex. destruct Ex as (bt & Eb & Ex). apply ok_inj in Ex. subst d.
      destruct (IH ds Eds) as [I1 I2]. rewrite Ec. cbn [bind]. rewrite I1. cbn [bind map fst]. split; [reflexivity|]. constructor; [|exact I2]. cbn [fst snd].
      assert (Nx : Forall (fun x => 0 <= x) (cs_xs sk)).
      { rewrite SX. apply Forall_forall. intros x Hx. destruct (In_nth _ _ 0 Hx) as (i & _ & <-). apply (x_nonneg n s cs xs W Hk). }
      destruct (cs_decrypt_total n s sk SV ct Hs Nx) as [(msg & Em & Rm & Om)|[Em _]]; [|congruence]. assert (msg = bt) by congruence. subst msg. rewrite SX in Om.
      split; [rewrite (opens_all_len _ _ _ _ _ _ Om); exact Lx|]. split; [exact Rm|exact Om]. }
  destruct A as [A1 A2]. split; [exact A1|]. split; [rewrite firstn_length; lia|]. split.
  { apply Forall_forall. intros z Hz. assert (Hz' : In z (concat (map snd dec))) by (rewrite <- (firstn_skipn (rq_num rq)); apply in_or_app; left; exact Hz).
    apply in_concat in Hz'. destruct Hz' as (l & Hl & Hz'). apply in_map_iff in Hl. destruct Hl as (d & <- & Hd). rewrite Forall_forall in A2. destruct (A2 d Hd) as (_ & R & _). rewrite Forall_forall in R. apply R. exact Hz'. }
  intros i l Hl Hi Hj. rewrite map_length in Hi. destruct (nth_error dec i) as [d|] eqn:En; [|apply nth_error_None in En; lia]. exists (fst d).
  split; [apply map_nth_error; exact En|]. rewrite firstn_at by exact Hj.
  rewrite (concat_at 0 len); [|apply Forall_forall; intros x Hx; apply in_map_iff in Hx; destruct Hx as (d' & <- & Hd'); rewrite Forall_forall in A2; apply A2, Hd'|exact Hl|rewrite map_length; exact Hi].
  assert (Hs2 : nth i (map snd dec) [] = snd d) by (apply nth_error_nth; apply map_nth_error; exact En). rewrite Hs2.
  rewrite Forall_forall in A2. destruct (A2 d (nth_error_In _ _ En)) as (_ & _ & Om). apply (opens_all_at n s _ _ _ _ Om). lia.
Qed.

(** The points of the response. *)
Lemma values_inv betas vals : signature_values C b betas = Ok vals -> length vals = length betas /\
  forall j, (j < length betas)%nat -> Z.gcd (nth j betas 0) q = 1 /\ exists V, nth_error vals j = Some V /\ pmul C (nth j betas 0) V = bb_base C b.
Proof.
  unfold signature_values. revert vals. induction betas as [|x betas IH]; intros vals E; cbn [mapM] in E.
  - apply ok_inj in E. subst vals. split; [reflexivity|]. intros j Hj. cbn in Hj. lia.
  - apply bind_ok in E. destruct E as (v & Ev & E). apply bind_ok in E. destruct E as (vs & Evs & E). apply ok_inj in E. subst vals. destruct (IH vs Evs) as [I1 I2]. cbn [length]. split; [rewrite I1; reflexivity|].
    intros [|j] Hj; cbn [nth nth_error]; [|apply I2; lia]. apply bind_ok in Ev. destruct Ev as (inv & Ei & Ev). apply ok_inj in Ev. subst v. apply bn_mod_inverse_inv in Ei. destruct Ei as (Hq & Gx & _ & Pi).
    split; [exact Gx|]. exists (point_mul C (bb_base C b) inv). split; [reflexivity|]. rewrite (point_mul_eq C L), <- (pmul_mul C L). transitivity (pmul C 1 (bb_base C b)); [|apply (pmul_1 C)]. apply (pmul_eqmod C L). apply mod_eqmod_iff; [exact Hq|exact Pi].
Qed.
Lemma proto_points ps bs : point_vector_to_proto C ps = Ok bs -> parse_point_vector C bs = Ok ps.
Proof.
  intros E. assert (F : Forall (fun P => P <> pinf C) ps).
  { revert bs E. unfold point_vector_to_proto. induction ps as [|p ps IH]; intros bs E; [constructor|]. cbn [mapM] in E. apply bind_ok in E. destruct E as (u & Eu & E). apply bind_ok in E. destruct E as (us & Eus & E). constructor; [|exact (IH us Eus)].
    intros ->. unfold point_to_bytes in Eu. rewrite (proj2 (is_inf_true C L _) eq_refl) in Eu. discriminate. }
  rewrite (points_to_proto C L ps F) in E. apply ok_inj in E. subst bs. apply (parse_points C L). exact F.
Qed.
Lemma respond_inv flag sha rq pk cm cr e rsp pf : bb_respond flag C sha b rq pk cm cr sk e = Ok (rsp, pf) ->
  exists cts0 betas vals, decrypt_request C b sk rq = Ok (cts0, betas) /\ signature_values C b betas = Ok vals /\ parse_point_vector C rsp = Ok vals.
Proof.
  intros E. unfold bb_respond in E. destruct (_ <? _)%nat; [discriminate|]. apply bind_ok in E. destruct E as ([cts0 betas] & Ed & E). apply bind_ok in E. destruct E as (vals & Ev & E). apply bind_ok in E. destruct E as (rsp' & Er & E).
  exists cts0, betas, vals. split; [exact Ed|]. split; [exact Ev|]. apply proto_points in Er. rewrite <- Er. f_equal.
  repeat match type of E with bind _ _ = _ => let x := fresh "x" in apply bind_ok in E; destruct E as (x & _ & E) | (let (_, _) := ?z in _) = _ => destruct z end.
  apply ok_inj in E. injection E as <- _. reflexivity.
Qed.

(** ** The messages behind the response *)
Variables (k y : Z) (ms rs : list Z) (D : Z) (da : list Z) (betas : list Z) (vals : list (pt C)) (m : nat).
Hypothesis Lm : length ms = m.
Hypothesis Lr : length rs = m.
Hypothesis Lb : length betas = m.
Hypothesis Hv : signature_values C b betas = Ok vals.
Hypothesis HD : D mod q <> 0.
Hypothesis Eb : forall j, (j < m)%nat -> eqmod q (D * nth j betas 0) (nth j da 0 * (nth j ms 0 + k + y * nth j rs 0)).

Lemma divisors_exist : exists state, length state = m /\ forall j, (j < m)%nat -> eqmod q (of_bytes (@nth bytes j state []) * D) (nth j da 0).
Proof.
  pose proof (order_gt1 C L) as Hq. apply (unit_iff C L) in HD. destruct (bn_mod_inverse_ok D q ltac:(lia) HD) as (i & _ & Bi & Pi).
  destruct (mapM_to_bytes (tab m (fun j => (nth j da 0 * i) mod q))) as (bs & _ & Eo). { apply tab_Forall. intros j _. apply Z.mod_pos_bound. lia. }
  exists bs. assert (Ls : length bs = m) by (rewrite <- (map_length of_bytes), Eo; apply tab_len). split; [exact Ls|]. intros j Hj.
  assert (X : of_bytes (@nth bytes j bs []) = (nth j da 0 * i) mod q).
  { rewrite <- (map_nth of_bytes). rewrite Eo. rewrite (nth_indep _ _ 0) by (rewrite tab_len; exact Hj). rewrite tab_nth. destruct (Nat.ltb_spec j m); [reflexivity|lia]. }
  rewrite X, (eqmod_mod q). transitivity (nth j da 0 * (D * i)); [exists 0; ring|]. apply mod_eqmod_iff in Pi; [|lia]. rewrite Pi. exists 0. ring.
Qed.
Lemma response_signs rsp state : parse_point_vector C rsp = Ok vals -> length state = m -> (forall j, (j < m)%nat -> eqmod q (of_bytes (@nth bytes j state []) * D) (nth j da 0)) ->
  exists Ps, bb_extract C rsp state = Ok Ps /\ Forall2 (fun mr P => bb_value C (bb_base C b) k y (fst mr) (snd mr) P) (combine ms rs) Ps.
Proof.
  intros Ep Ls Ea. pose proof (order_gt1 C L) as Hq. destruct (values_inv _ _ Hv) as [Lv Hvs]. set (V := fun j => nth j vals (pinf C)). set (a := fun j => of_bytes (@nth bytes j state [])).
  exists (tab m (fun j => point_mul C (V j) (a j))). split.
  - unfold bb_extract. rewrite Ep. cbn [bind]. rewrite Lv, Lb. apply mapM_seq. intros j Hj. rewrite (at_index_some _ _ (V j)) by (apply nth_error_nth'; lia). cbn [bind].
    rewrite (at_index_some _ _ (a j)); [reflexivity|]. unfold parse_bignum_vector, a. apply map_nth_error. apply nth_error_nth'. lia.
  - apply (forall2_tab _ (0, 0)); [rewrite combine_length; lia|]. intros j Hj. rewrite combine_nth by lia. cbn [fst snd]. destruct (Hvs j ltac:(lia)) as (Gb & V' & En & Pb).
    assert (V' = V j) by (symmetry; unfold V; apply nth_error_nth; exact En). subst V'.
    assert (Z1 : eqmod q (nth j betas 0) (a j * (nth j ms 0 + k + y * nth j rs 0))).
    { apply (eqmod_cancel q D); [apply (unit_iff C L); exact HD|]. rewrite (Eb j Hj), <- (Ea j Hj). fold (a j). exists 0. ring. }
    split.
    + intros E0. apply Z.mod_divide in E0; [|lia]. apply (proj2 (eqmod_0 _ _)) in E0. rewrite E0, Z.mul_0_r in Z1. apply (proj1 (eqmod_0 _ _)) in Z1.
      assert (X : (q | 1)) by (rewrite <- Gb; apply Z.gcd_greatest; [exact Z1|apply Z.divide_refl]). apply Z.divide_1_r_nonneg in X; lia.
    + rewrite (point_mul_eq C L), <- (pmul_mul C L). rewrite <- Pb. apply (pmul_eqmod C L). rewrite Z1. exists 0. ring.
Qed.
End Issue.
