(** Lemmas about requests that verify, whoever made them. *)
From Coq Require Import Znumtheory.
From Verif Require Import Base M_BigNum L_BigNum M_Num L_Mod L_Num L_NT M_DJ L_DJ M_Paillier L_Paillier L_PaillierKey M_EC L_EC L_Cipher M_Proto M_CS S_CS L_CS
  M_Simul M_Pedersen M_Wire M_VRF M_BB L_BBct L_BBhom L_BBped L_BBreq L_BBrsp S_Exp S_Pedersen S_BB S_BBquery S_BBrequest L_Exp L_Protocol L_Pedersen L_VRF L_BB L_Wire P_VRF P_BBhash
  L_BBsound L_Cheat L_ZPow.

Lemma verify_request_query flag C sha b pk rq pf cm cr : 0 <= bp_chal (bb_par C b) ->
  bb_verify_request flag C sha b pk rq pf cm cr =
  let* x := request_query flag C b pk rq pf cm cr in
  let* c := random_oracle 512 sha x (2 ^ bp_chal (bb_par C b)) in
  if negb (c =? of_bytes (rp_challenge pf)) then Err InvalidArgument else Ok tt.
Proof.
  intros Hc. unfold bb_verify_request, request_query, req_challenge. rewrite lshift_ok by exact Hc. rewrite Z.mul_1_l.
  repeat match goal with
    | |- (if ?c then _ else _) = _ => destruct c; [reflexivity|]
    | |- bind (Ok _) _ = _ => cbn [bind]
    | |- bind (bind ?o _) _ = _ => destruct o; cbn [bind]; try reflexivity
    | |- bind ?o _ = _ => destruct o; cbn [bind]; try reflexivity
    end.
Qed.

(** The hashed string determines the first message and the commitments in the proof. *)
Lemma req_hash_parts s1 m1 s2 m2 : req_hash_input s1 m1 = req_hash_input s2 m2 ->
  m1 = m2 /\ st_as s1 = st_as s2 /\ st_bs s1 = st_bs s2 /\ st_alphas s1 = st_alphas s2 /\ st_gammas s1 = st_gammas s2.
Proof.
  intros E. unfold req_hash_input in E. apply framed_inj in E; [|apply wf_req_statement|apply wf_req_statement|apply wf_req_message1|apply wf_req_message1].
  destruct E as [E Em]. split.
  - destruct m1 as [a1 b1 c1 d1 e1 f1 g1 h1 i1], m2 as [a2 b2 c2 d2 e2 f2 g2 h2 i2]. unfold wire_req_message1 in Em.
    cbn [m1_messages m1_rs m1_as m1_bs m1_alphas_1 m1_alphas_2 m1_gammas_1 m1_gammas_2 m1_cts] in *.
    peel 1 Em A1. peel 2 Em A2. peel 3 Em A3. peel 4 Em A4. peel 5 Em A5. peel 6 Em A6. peel 7 Em A7. peel 8 Em A8.
    apply f_bytes_inj in A1. apply f_bytes_inj in A2. vec_inj A3. apply f_bytes_inj in A4. apply f_bytes_inj in A5. apply f_bytes_inj in A6. apply f_bytes_inj in A7. apply f_bytes_inj in A8.
    cts_inj Em. congruence.
  - destruct s1 as [p1 k1 a1 b1 c1 d1 e1 f1 r1], s2 as [p2 k2 a2 b2 c2 d2 e2 f2 r2]. unfold wire_req_statement in E. cbn [st_par st_pk st_messages st_rs st_as st_bs st_alphas st_gammas st_request] in *.
    peel 1 E A1. peel 2 E A2. peel 3 E A3. peel 4 E A4. peel 5 E A5. peel 6 E A6. peel 7 E A7. peel 8 E A8. vec_inj A5. apply f_bytes_inj in A6. apply f_bytes_inj in A7. apply f_bytes_inj in A8.
    repeat split; congruence.
Qed.
Lemma ct_to_proto_inj c1 c2 p : cs_ct_to_proto c1 = Ok p -> cs_ct_to_proto c2 = Ok p -> c1 = c2.
Proof.
  unfold cs_ct_to_proto. intros E1 E2. apply bind_ok in E1. destruct E1 as (u1 & U1 & E1). apply bind_ok in E1. destruct E1 as (e1 & V1 & E1). apply bind_ok in E2. destruct E2 as (u2 & U2 & E2). apply bind_ok in E2. destruct E2 as (e2 & V2 & E2).
  assert (u1 = u2) by congruence. assert (e1 = e2) by congruence. subst u2 e2. destruct c1 as [a1 b1], c2 as [a2 b2]. cbn [ct_u ct_es] in *. f_equal; [exact (to_bytes_inj _ _ _ U1 U2)|exact (bignum_vector_inj _ _ _ V1 V2)].
Qed.
Lemma mapM_inj {A B} (f : A -> outcome B) : (forall a a' x, f a = Ok x -> f a' = Ok x -> a = a') -> forall l l' xs, mapM f l = Ok xs -> mapM f l' = Ok xs -> l = l'.
Proof.
  intros H. induction l as [|a l IH]; intros [|a' l'] xs E1 E2; cbn [mapM] in *; try reflexivity.
  - apply bind_ok in E2. destruct E2 as (? & _ & E2). apply bind_ok in E2. destruct E2 as (? & _ & E2). congruence.
  - apply bind_ok in E1. destruct E1 as (? & _ & E1). apply bind_ok in E1. destruct E1 as (? & _ & E1). congruence.
  - apply bind_ok in E1. destruct E1 as (p & P1 & E1). apply bind_ok in E1. destruct E1 as (r & R1 & E1). apply bind_ok in E2. destruct E2 as (p' & P2 & E2). apply bind_ok in E2. destruct E2 as (r' & R2 & E2).
    assert (p = p') by congruence. assert (r = r') by congruence. subst p' r'. f_equal; [exact (H _ _ _ P1 P2)|exact (IH _ _ R1 R2)].
Qed.
Lemma first_to_proto_inj f1 f2 m : first_to_proto f1 = Ok m -> first_to_proto f2 = Ok m -> f1 = f2.
Proof.
  unfold first_to_proto. intros E1 E2. destruct f1 as [a1 b1 c1 d1 e1 f1 g1 h1 i1], f2 as [a2 b2 c2 d2 e2 f2 g2 h2 i2]. cbn [f_messages f_rs f_as f_bs f_alphas_1 f_alphas_2 f_gammas_1 f_gammas_2 f_cts] in *.
  repeat (let x := fresh "x" in let H := fresh "X" in apply bind_ok in E1; destruct E1 as (x & H & E1)).
  repeat (let x := fresh "y" in let H := fresh "Y" in apply bind_ok in E2; destruct E2 as (x & H & E2)). rewrite <- E2 in E1. injection E1 as <- <- <- <- <- <- <- <- <-.
  f_equal; first [eapply to_bytes_inj; eassumption|eapply bignum_vector_inj; eassumption|eapply (mapM_inj cs_ct_to_proto ct_to_proto_inj); eassumption].
Qed.

(** ** Inversion of the verification *)
Definition over (N d Y c X : Z) : Prop := eqmod N (d * Y ^ c) X /\ Z.gcd (Y ^ c) N = 1.
Lemma over_inverse N Y c i X d : 1 < N -> bn_mod_inverse (Y ^ c mod N) N = Ok i -> eqmod N d (X * i) -> over N d Y c X.
Proof.
  intros HN Ei Ed. destruct (bn_mod_inverse_inv _ _ _ Ei) as (_ & G & _ & Pi).
  assert (P1 : eqmod N (Y ^ c * i) 1). { apply mod_eqmod_iff; [lia|]. rewrite <- Pi. apply mod_eqmod_iff; [lia|]. rewrite (eqmod_mod N (Y ^ c)). reflexivity. }
  split.
  - rewrite Ed. transitivity (X * (Y ^ c * i)); [exists 0; ring|]. rewrite P1, Z.mul_1_r. reflexivity.
  - apply (gcd_eqmod _ (Y ^ c mod N)); [symmetry; apply eqmod_mod|exact G].
Qed.
Lemma gcd_pow_inv Y c N : 0 < c -> Z.gcd (Y ^ c) N = 1 -> Z.gcd Y N = 1.
Proof.
  intros Hc G. rewrite Z.gcd_comm in *. assert (D : (Y | Y ^ c)). { exists (Y ^ (c - 1)). rewrite Z.mul_comm, <- Z.pow_succ_r by lia. f_equal. lia. }
  exact (gcd_divide_r _ _ _ D G).
Qed.
Lemma over_two N d Y c1 c2 X1 X2 : 0 <= c1 -> 0 <= c2 -> c1 <> c2 -> over N d Y c1 X1 -> over N d Y c2 X2 -> Z.gcd Y N = 1.
Proof.
  intros H1 H2 Hd [_ G1] [_ G2]. destruct (Z.eq_dec c1 0) as [E|E]; [apply (gcd_pow_inv Y c2); [lia|exact G2]|apply (gcd_pow_inv Y c1); [lia|exact G1]].
Qed.
Lemma at_index_firstn {A} (l : list A) m i : (i < m)%nat -> at_index (firstn m l) i = at_index l i.
Proof.
  intros H. unfold at_index. assert (E : nth_error (firstn m l) i = nth_error l i); [|rewrite E; reflexivity].
  revert m i H. induction l as [|x l IH]; intros [|m] [|i] H; cbn; try reflexivity; try lia. apply IH. lia.
Qed.
Lemma mapM_ext_in {A B} (f g : A -> outcome B) l : (forall a, In a l -> f a = g a) -> mapM f l = mapM g l.
Proof. induction l as [|a l IH]; intros H; [reflexivity|]. cbn [mapM]. rewrite (H a (or_introl eq_refl)), IH; [reflexivity|]. intros x Hx. apply H. right. exact Hx. Qed.

Section Inversion.
Variable flag : bool.
Variable C : ec.
Variable b : bb C.
Variables (n : Z) (s : nat) (xs : list Z).
Notation cs := (bb_cs C b).
Hypothesis W : cs_valid n s cs.
Hypothesis Hg : Z.gcd (cs_g cs) n = 1.
Hypothesis Hk : key_match n s (cs_g cs) xs (cs_ys cs).
Notation len := (cs_len cs).
Notation E := (enc n s cs xs).
Notation M := (n ^ (Z.of_nat s + 1)).
Hypothesis Hlen : (0 < len)%nat.
Variables (rk ry : nat -> Z) (k y : Z).
Hypothesis Hrk : forall j, 0 <= rk j.
Hypothesis Hry : forall j, 0 <= ry j.
Hypothesis Hk0 : 0 <= k.
Hypothesis Hy0 : 0 <= y.
Notation ped := (bb_ped C b).
Notation pp := (pd_par ped).
Notation N := (pp_n pp).
Notation G := (length (pp_gs pp)).
Notation q := (ec_order C).
Hypothesis PO : ped_ok ped.
Hypothesis UN : units pp.
Hypothesis Hq : 0 < q.
Variable pk : bb_public.
Variable keys : list (cs_ciphertext * cs_ciphertext).
Hypothesis EP : parse_public C b pk = Ok keys.
Hypothesis K1 : map fst keys = key_cts C b n s xs rk k.
Hypothesis K2 : map snd keys = key_cts C b n s xs ry y.
Notation first := (first_of C b n s xs rk ry k y).

Definition cut (m : nat) (v : req_values) : req_values :=
  {| v_messages := v_messages v; v_messages_open := v_messages_open v; v_rs := v_rs v; v_rs_open := v_rs_open v; v_as := v_as v; v_as_open := firstn m (v_as_open v);
     v_bs := v_bs v; v_bs_open := v_bs_open v; v_alphas := v_alphas v; v_alphas_1 := v_alphas_1 v; v_alphas_2 := v_alphas_2 v; v_gammas := v_gammas v;
     v_gammas_1 := v_gammas_1 v; v_gammas_2 := v_gammas_2 v; v_enc := v_enc v |}.

Lemma commit_each_cut as_ os m : commit_each C b as_ (firstn m os) m = commit_each C b as_ os m.
Proof. apply mapM_ext_in. intros i Hi. apply in_seq in Hi. rewrite at_index_firstn by lia. reflexivity. Qed.
Lemma masked_composites_cut cas v : masked_composites flag C b cas pk (cut (length cas) v) = masked_composites flag C b cas pk v.
Proof. unfold masked_composites. cbn [cut v_messages v_messages_open v_rs v_rs_open v_as v_as_open v_bs v_bs_open v_alphas v_alphas_1 v_alphas_2 v_gammas v_gammas_1 v_gammas_2 v_enc]. rewrite commit_each_cut. reflexivity. Qed.
Lemma commit_each_len as_ os m l : commit_each C b as_ os m = Ok l -> (m <= length os)%nat.
Proof.
  intros Ec. destruct (le_dec m (length os)) as [H|H]; [exact H|]. exfalso. destruct (mapM_seq_inv _ _ _ Ec) as [_ Hi]. destruct (Hi (length os) ltac:(lia)) as (z & _ & Ez).
  apply bind_ok in Ez. destruct Ez as (a & _ & Ez). apply bind_ok in Ez. destruct Ez as (o & Eo & _). apply at_index_inv in Eo. assert (length os < length os)%nat by (apply nth_error_Some; congruence). lia.
Qed.
Lemma masked_composites_len cas v X : masked_composites flag C b cas pk v = Ok X -> (length cas <= length (v_as_open v))%nat.
Proof.
  intros Ex. unfold masked_composites in Ex. apply bind_ok in Ex. destruct Ex as (z1 & _ & Ex). apply bind_ok in Ex. destruct Ex as (z2 & _ & Ex). apply bind_ok in Ex. destruct Ex as (z3 & E3 & _).
  exact (commit_each_len _ _ _ _ E3).
Qed.

Lemma power_inverse_inv Y c i : 0 <= c -> power_inverse C b Y c = Ok i -> bn_mod_inverse (Y ^ c mod N) N = Ok i.
Proof. intros Hc Ei. pose proof (N1 C b PO) as HN. unfold power_inverse, ped_multiply in Ei. rewrite bn_mod_exp_ok in Ei by lia. exact Ei. Qed.
Lemma ped_add_inv X i d : ped_add ped X i = Ok d -> eqmod N d (X * i).
Proof. intros Ed. pose proof (N1 C b PO) as HN. unfold ped_add in Ed. rewrite bn_mod_mul_ok in Ed by lia. apply ok_inj in Ed. rewrite <- Ed. apply eqmod_mod. Qed.
Lemma unmask_inv X Y c d : 0 <= c -> unmask C b X Y c = Ok d -> over N d Y c X.
Proof.
  intros Hc Eu. pose proof (N1 C b PO) as HN. unfold unmask in Eu. apply bind_ok in Eu. destruct Eu as (i & Ei & Eu). apply (over_inverse N Y c i); [exact HN|exact (power_inverse_inv _ _ _ Hc Ei)|exact (ped_add_inv _ _ _ Eu)].
Qed.
Lemma multiply_loop_inv m es c : forall cnt i l, 0 < m -> 0 <= c -> cs_multiply_loop cnt i m es c = Ok l -> length l = cnt /\ forall j, (j < cnt)%nat -> nth j l 0 = nth (i + j) es 0 ^ c mod m.
Proof.
  induction cnt as [|cnt IH]; intros i l Hm Hc El; cbn [cs_multiply_loop] in El; [apply ok_inj in El; subst l; split; [reflexivity|intros; lia]|].
  apply bind_ok in El. destruct El as (e & Ee & El). rewrite bn_mod_exp_ok in El by lia. cbn [bind] in El. apply bind_ok in El. destruct El as (r & Er & El). apply ok_inj in El. subst l.
  destruct (IH _ _ Hm Hc Er) as [Lr Hr]. split; [cbn [length]; rewrite Lr; reflexivity|]. intros [|j] Hj.
  - cbn [nth]. rewrite Nat.add_0_r. unfold vec_at in Ee. destruct (nth_error es i) eqn:X; [|discriminate]. apply ok_inj in Ee. subst. rewrite (nth_error_nth _ _ _ X). reflexivity.
  - cbn [nth]. rewrite Hr by lia. do 2 f_equal. replace (i + 1 + j)%nat with (i + S j)%nat by lia. reflexivity.
Qed.
Lemma add_loop_inv m : forall a c l, 0 < m -> length a = length c -> cs_add_loop m a c = Ok l -> length l = length a /\ forall j, eqmod m (nth j l 0) (nth j a 0 * nth j c 0).
Proof.
  induction a as [|x a IH]; intros [|z c] l Hm Hl El; cbn [length cs_add_loop] in *; try lia.
  - apply ok_inj in El. subst l. split; [reflexivity|]. intros [|j]; reflexivity.
  - rewrite bn_mod_mul_ok in El by lia. cbn [bind] in El. apply bind_ok in El. destruct El as (r & Er & El). apply ok_inj in El. subst l. destruct (IH c r Hm ltac:(lia) Er) as [Lr Hr].
    split; [cbn [length]; rewrite Lr; reflexivity|]. intros [|j]; cbn [nth]; [apply eqmod_mod|apply Hr].
Qed.
Lemma unmask_ct_inv X ct c d : 0 <= c -> unmask_ct C b X ct c = Ok d ->
  over M (ct_u d) (ct_u ct) c (ct_u X) /\ forall l, (l < len)%nat -> over M (nth l (ct_es d) 0) (nth l (ct_es ct) 0) c (nth l (ct_es X) 0).
Proof.
  intros Hc Eu. pose proof (M1 n s cs W) as HM. unfold unmask_ct in Eu. rewrite (w_mod _ _ _ W) in Eu. apply bind_ok in Eu. destruct Eu as (p & Ep & Eu). apply bind_ok in Eu. destruct Eu as (u & Eiu & Eu). apply bind_ok in Eu. destruct Eu as (es & Ees & Eu).
  unfold cs_multiply in Ep. rewrite (w_mod _ _ _ W), bn_mod_exp_ok in Ep by lia. cbn [bind] in Ep. apply bind_ok in Ep. destruct Ep as (pe & Epe & Ep). apply ok_inj in Ep. subst p. cbn [ct_u ct_es] in *.
  assert (HM0 : 0 < M) by lia. destruct (multiply_loop_inv _ _ _ _ _ _ HM0 Hc Epe) as [Lpe Hpe].
  unfold cs_add in Eu. cbn [ct_es ct_u] in Eu. destruct (Nat.eqb_spec (length (ct_es X)) (length es)) as [L1|]; cbn [negb] in Eu; [|discriminate]. destruct (Nat.eqb_spec (length (ct_es X)) len) as [L2|]; cbn [negb] in Eu; [|discriminate].
  rewrite (w_mod _ _ _ W), bn_mod_mul_ok in Eu by lia. cbn [bind] in Eu. apply bind_ok in Eu. destruct Eu as (de & Ede & Eu). apply ok_inj in Eu. subst d. cbn [ct_u ct_es].
  destruct (add_loop_inv _ _ _ _ HM0 L1 Ede) as [Lde Hde]. split.
  - apply (over_inverse M _ c u); [exact HM|exact Eiu|apply eqmod_mod].
  - intros l Hl. assert (Ei : bn_mod_inverse (nth l (ct_es ct) 0 ^ c mod M) M = Ok (nth l es 0)).
    { rewrite <- (Hpe l Hl : nth l pe 0 = nth l (ct_es ct) 0 ^ c mod M). apply mapM_Forall2 in Ees. assert (Hl' : (l < length pe)%nat) by lia. clear - Ees Hl'. revert l Hl'. induction Ees as [|a r pe es H _ IH]; intros l Hl'; cbn [length] in Hl'; [lia|]. destruct l as [|l]; [exact H|]. cbn [nth]. apply IH. lia. }
    apply (over_inverse M _ c (nth l es 0)); [exact HM|exact Ei|apply Hde].
Qed.

Record quotient (cm cr : Z) (cas : list Z) (cb cal cga : Z) (cts : list cs_ciphertext) (c : Z) (X f : req_first) : Prop := {
  u_m : over N (f_messages f) cm c (f_messages X); u_r : over N (f_rs f) cr c (f_rs X);
  u_a : forall i, (i < length cas)%nat -> over N (nth i (f_as f) 0) (nth i cas 0) c (nth i (f_as X) 0);
  u_b : over N (f_bs f) cb c (f_bs X);
  u_al1 : over N (f_alphas_1 f) cal c (f_alphas_1 X); u_al2 : over N (f_alphas_2 f) cal c (f_alphas_2 X);
  u_ga1 : over N (f_gammas_1 f) cga c (f_gammas_1 X); u_ga2 : over N (f_gammas_2 f) cga c (f_gammas_2 X);
  u_ct : forall i, (i < length cts)%nat -> exists d x ct, nth_error (f_cts f) i = Some d /\ nth_error (f_cts X) i = Some x /\ nth_error cts i = Some ct /\
    over M (ct_u d) (ct_u ct) c (ct_u x) /\ forall l, (l < len)%nat -> over M (nth l (ct_es d) 0) (nth l (ct_es ct) 0) c (nth l (ct_es x) 0) }.
Lemma unmask_all_inv cm cr cas cb cal cga cts c X f : 0 <= c -> unmask_all C b X cm cr cas cb cal cga cts c = Ok f -> quotient cm cr cas cb cal cga cts c X f.
Proof.
  intros Hc Eu. pose proof (N1 C b PO) as HN. unfold unmask_all in Eu.
  apply bind_ok in Eu. destruct Eu as (dm & E1 & Eu). apply bind_ok in Eu. destruct Eu as (dr & E2 & Eu). apply bind_ok in Eu. destruct Eu as (da & E3 & Eu). apply bind_ok in Eu. destruct Eu as (db & E4 & Eu).
  apply bind_ok in Eu. destruct Eu as (ial & E5 & Eu). apply bind_ok in Eu. destruct Eu as (al1 & E6 & Eu). apply bind_ok in Eu. destruct Eu as (al2 & E7 & Eu). apply bind_ok in Eu. destruct Eu as (iga & E8 & Eu).
  apply bind_ok in Eu. destruct Eu as (ga1 & E9 & Eu). apply bind_ok in Eu. destruct Eu as (ga2 & E10 & Eu). apply bind_ok in Eu. destruct Eu as (dc & E11 & Eu). apply ok_inj in Eu. subst f.
  pose proof (power_inverse_inv _ _ _ Hc E5) as I5. pose proof (power_inverse_inv _ _ _ Hc E8) as I8.
  constructor; cbn [f_messages f_rs f_as f_bs f_alphas_1 f_alphas_2 f_gammas_1 f_gammas_2 f_cts];
    try (apply unmask_inv; assumption); try (eapply over_inverse; [exact HN|eassumption|apply ped_add_inv; assumption]).
  - intros i Hi. destruct (mapM_seq_inv _ _ _ E3) as [_ H3]. destruct (H3 i Hi) as (d & Nd & Ed). apply bind_ok in Ed. destruct Ed as (com & Ec & Ed). apply bind_ok in Ed. destruct Ed as (x & Ex & Ed).
    apply at_index_inv in Ec, Ex. rewrite (nth_error_nth _ _ _ Nd), (nth_error_nth _ _ _ Ec), (nth_error_nth _ _ _ Ex). apply unmask_inv; assumption.
  - intros i Hi. destruct (mapM_seq_inv _ _ _ E11) as [_ H3]. destruct (H3 i Hi) as (d & Nd & Ed). apply bind_ok in Ed. destruct Ed as (x & Ex & Ed). apply bind_ok in Ed. destruct Ed as (ct & Ec & Ed).
    apply at_index_inv in Ec, Ex. exists d, x, ct. split; [exact Nd|]. split; [exact Ex|]. split; [exact Ec|]. apply unmask_ct_inv; assumption.
Qed.

(** Everything an accepted proof says. *)
Lemma request_inv rq pf cm cr x : request_query flag C b pk rq pf cm cr = Ok x ->
  let m := rq_num rq in let v0 := values_of_proto (rp_m2 pf) in let v := cut m v0 in let cas := parse_bignum_vector (rp_as pf) in
  (m <= G)%nat /\ length cas = m /\ shaped C b m v /\ (m <= length (v_as_open v0))%nat /\ values_in_bounds C b v0 = Ok true /\ Forall (rnd_ok n) (v_enc v) /\
  exists cts f m1 st, mapM (cs_parse_ct cs) (rq_cts rq) = Ok cts /\ length cts = num_cts len m /\
    quotient cm cr cas (of_bytes (rp_bs pf)) (of_bytes (rp_alphas pf)) (of_bytes (rp_gammas pf)) cts (of_bytes (rp_challenge pf)) (first cas v) f /\
    first_to_proto f = Ok m1 /\ x = req_hash_input st m1 /\ st_as st = rp_as pf /\ st_bs st = rp_bs pf /\ st_alphas st = rp_alphas pf /\ st_gammas st = rp_gammas pf.
Proof.
  intros Ex m v0 v cas. unfold request_query in Ex. fold m v0 cas in Ex.
  destruct (Nat.ltb_spec G m) as [|HmG]; [discriminate|].
  destruct (Nat.eqb_spec (length (rp_as pf)) m) as [L1|]; cbn [negb] in Ex; [|discriminate]. destruct (Nat.eqb_spec (length (m2_messages (rp_m2 pf))) m) as [L2|]; cbn [negb] in Ex; [|discriminate].
  destruct (Nat.eqb_spec (length (m2_rs (rp_m2 pf))) m) as [L3|]; cbn [negb] in Ex; [|discriminate]. destruct (Nat.eqb_spec (length (m2_as (rp_m2 pf))) m) as [L4|]; cbn [negb] in Ex; [|discriminate].
  destruct (Nat.eqb_spec (length (m2_bs (rp_m2 pf))) m) as [L5|]; cbn [negb] in Ex; [|discriminate]. destruct (Nat.eqb_spec (length (m2_alphas (rp_m2 pf))) m) as [L6|]; cbn [negb] in Ex; [|discriminate].
  destruct (Nat.eqb_spec (length (m2_gammas (rp_m2 pf))) m) as [L7|]; cbn [negb] in Ex; [|discriminate]. destruct (Nat.eqb_spec len 0) as [L8|_]; [discriminate|].
  destruct (Nat.eqb_spec (length (rq_cts rq)) (num_cts len m)) as [L9|]; cbn [negb] in Ex; [|discriminate]. destruct (Nat.eqb_spec (length (m2_enc (rp_m2 pf))) (num_cts len m)) as [L10|]; cbn [negb] in Ex; [|discriminate].
  apply bind_ok in Ex. destruct Ex as (cmb & _ & Ex). apply bind_ok in Ex. destruct Ex as (crb & _ & Ex). apply bind_ok in Ex. destruct Ex as (cts & Ects & Ex). apply bind_ok in Ex. destruct Ex as (inb & Einb & Ex).
  destruct inb; cbn [negb] in Ex; [|discriminate]. apply bind_ok in Ex. destruct Ex as (X & EX & Ex). apply bind_ok in Ex. destruct Ex as (f & Ef & Ex). apply bind_ok in Ex. destruct Ex as (m1 & Em & Ex). apply ok_inj in Ex.
  assert (Lc : length cas = m) by (unfold cas, parse_bignum_vector; rewrite map_length; exact L1).
  pose proof (masked_composites_len _ _ _ EX) as Lo. rewrite Lc in Lo.
  assert (Sh : shaped C b m v).
  { assert (pl : forall l, length (parse_bignum_vector l) = length l) by (intros; apply map_length).
    constructor; cbn [v cut v0 values_of_proto v_messages v_messages_open v_rs v_rs_open v_as v_as_open v_bs v_bs_open v_alphas v_alphas_1 v_alphas_2 v_gammas v_gammas_1 v_gammas_2 v_enc]; rewrite ?pl; try assumption; try apply parse_nonneg; try apply of_bytes_nonneg.
    - rewrite firstn_length. apply Nat.min_l. exact Lo.
    - apply Forall_forall. intros z Hz. assert (In z (parse_bignum_vector (m2_as_open (rp_m2 pf)))) by (rewrite <- (firstn_skipn m); apply in_or_app; left; exact Hz). exact (proj1 (Forall_forall _ _) (parse_nonneg _) z H). }
  rewrite <- masked_composites_cut, Lc in EX. fold v in EX.
  assert (Dec : Forall (rnd_ok n) (v_enc v) \/ ~ Forall (rnd_ok n) (v_enc v)).
  { assert (D1 : forall z, {rnd_ok n z} + {~ rnd_ok n z}).
    { intros z. unfold rnd_ok. destruct (Z_le_dec 0 z); [|right; tauto]. destruct (Z.eq_dec z 0); [left; tauto|]. destruct (Z.eq_dec (Z.gcd z n) 1); [left; tauto|right; tauto]. }
    destruct (Forall_dec _ D1 (v_enc v)); [left|right]; assumption. }
  destruct Dec as [Hr|Hr]; [|rewrite (masked_composites_rejects flag C b n s xs W Hg Hk Hlen rk ry k y Hrk Hry Hk0 Hy0 PO Hq keys K1 K2 pk m cas v EP Sh Lc HmG Hr) in EX; discriminate].
  rewrite (masked_composites_ok flag C b n s xs W Hg Hk Hlen rk ry k y Hrk Hry Hk0 Hy0 PO Hq keys K1 K2 pk m cas v EP Sh Lc HmG Hr) in EX. apply ok_inj in EX. subst X.
  split; [exact HmG|]. split; [exact Lc|]. split; [exact Sh|]. split; [exact Lo|]. split; [exact Einb|]. split; [exact Hr|].
  exists cts, f, m1. eexists. split; [exact Ects|]. split; [rewrite <- L9; symmetry; exact (Forall2_len _ _ _ (mapM_Forall2 _ _ _ Ects))|].
  split; [apply unmask_all_inv; [apply of_bytes_nonneg|exact Ef]|]. split; [exact Em|]. split; [symmetry; exact Ex|]. cbn [st_as st_bs st_alphas st_gammas]. repeat split.
Qed.
End Inversion.
