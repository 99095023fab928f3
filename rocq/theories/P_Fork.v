(** C77: provers who succeed more often than by luck can be run twice to answer two challenges. *)
From Coq Require Import Znumtheory.
From Verif Require Import Base M_BigNum M_Num M_EC M_Proto M_CS M_Pedersen M_VRF M_BB S_CS S_Pedersen S_VRF S_BB S_BBrequest L_BigNum L_Num L_Mod L_DJ L_CS L_EC L_Cipher L_Protocol
  L_Toy L_Pedersen L_VRF L_BBct L_BBhom L_BBped L_BBreq L_BBrsp L_BB L_BBsound L_BBrequest L_ZPow L_BBopen L_BBissue P_CS P_Pedersen P_VRF P_VRFbind P_BB P_BBhash P_BBrequest S_Hide L_Hide S_Oracle L_Oracle S_Fork L_Fork.

(** Any verifier that asks the hash function one question and decides on the message and the answer: a prover with q questions who is accepted for more than the fraction
    (q + 1) / 2^k of all answers has two runs that agree up to one question, get different answers to it, and end with two accepted messages for which the verifier asks that question. *)
Theorem C77_rewinding : forall A k (query : A -> outcome bytes) (accepts : (bytes -> bytes) -> A -> Prop) (verdict : A -> Z -> bool) (p : prover A) q, 0 <= k <= 129023 ->
  (forall sha512 a, accepts sha512 a <-> exists x c, query a = Ok x /\ random_oracle 512 sha512 x (2 ^ k) = Ok c /\ verdict a c = true) ->
  asks p q -> succeeds_often k query accepts p q -> forks k query accepts p.
Proof. intros A k query accepts verdict p q. apply often_forks. Qed.
Print Assumptions C77_rewinding.

(** ** Requests for oblivious signatures *)

Lemma request_query_request flag C b pk rq pf cm cr x : request_query flag C b pk rq pf cm cr = Ok x ->
  exists s m, x = req_hash_input s m /\ st_par s = bb_par C b /\ st_request s = rq.
Proof.
  intros E. unfold request_query in E. cbv zeta in E. repeat (match type of E with (if ?b then _ else _) = _ => destruct b; [discriminate|] end).
  apply bind_ok in E. destruct E as (cmb & _ & E). apply bind_ok in E. destruct E as (crb & _ & E). apply bind_ok in E. destruct E as (cts & _ & E). apply bind_ok in E. destruct E as (inb & _ & E).
  destruct (negb inb); [discriminate|]. do 3 (apply bind_ok in E; destruct E as (? & _ & E)). apply ok_inj in E. subst x. do 2 eexists. split; [reflexivity|]. split; reflexivity.
Qed.

(** The check the issuer does not make: all decrypted values are below the largest honest one. *)
Definition extra_check (C : ec) (b : bb C) (p : bb_params) (csk : cs_private) (rq : bb_request) : bool :=
  match decrypt_request C b csk rq with Ok (_, betas) => forallb (fun z => z <? honest_bound C p) betas | _ => false end.

Lemma breaks_dec gs h n wo : {breaks_binding gs h n wo} + {~ breaks_binding gs h n wo}.
Proof.
  unfold breaks_binding, opens_twice. destruct (Z.eq_dec (commitment gs h n (map (Z.max 0) (fst wo)) (Z.max 0 (snd wo))) (commitment gs h n (map (fun x => Z.max 0 (- x)) (fst wo)) (Z.max 0 (- snd wo)))) as [E|E]; [|right; tauto].
  destruct (Exists_dec (fun x => x <> 0) (fst wo)) as [X|X]; [intros x; destruct (Z.eq_dec x 0); [right; lia|left; assumption]| |].
  - left. split; [exact E|]. apply Exists_exists in X. exact X.
  - right. intros [_ H]. apply X, Exists_exists. exact H.
Qed.

(** An issuer that makes the extra check, with a modulus one bit longer than Create demands, and a requester bound to committed messages and nonces: if the requester has requests accepted for
    more than the fraction (q + 1) / 2^challenge of all answers to its q questions, two of its runs end with the same request and two accepted proofs, from which
    either two different openings of a commitment are computed, or masks that turn the issuer's response to this request into the signatures on the committed messages. *)
Theorem C77_request_means_committed_messages : forall flag C p b n s g xs ys csk pp num rk ry ek ey pk sk ms rs om or_ (requester : prover (bb_request * req_proof)) q,
  ec_laws C -> bb_system flag C p b n s g xs ys csk pp num -> bb_generate_keys flag C b rk ry ek ey = Ok (pk, sk) -> bb_int64 p -> Z.of_nat (length ms) < 2 ^ 63 -> 2 ^ bp_chal p <= ec_order C ->
  2 ^ (2 * (bp_chal p + bp_sec p) + 2) * ec_order C ^ 3 <= n ^ Z.of_nat s ->
  let k := of_bytes (bsk_k sk) in let y := of_bytes (bsk_y sk) in
  let cm := commitment (pp_gs pp) (pp_h pp) (pp_n pp) ms om in let cr := commitment (pp_gs pp) (pp_h pp) (pp_n pp) rs or_ in
  let in_range := Forall (fun z => 0 <= z < ec_order C) in in_range ms -> in_range rs -> 0 <= om -> 0 <= or_ -> length rs = length ms ->
  let query a := request_query flag C b pk (fst a) (snd a) cm cr in
  let accepts sha512 a := bb_verify_request flag C sha512 b pk (fst a) (snd a) cm cr = Ok tt /\ rq_num (fst a) = length ms /\ extra_check C b p csk (fst a) = true in
  asks requester q -> succeeds_often (bp_chal p) query accepts requester q ->
  forks (bp_chal p) query accepts requester /\
  exists rq pf1 pf2 sha1 sha2, bb_verify_request flag C sha1 b pk rq pf1 cm cr = Ok tt /\ bb_verify_request flag C sha2 b pk rq pf2 cm cr = Ok tt /\ gap pf1 pf2 <> 0 /\
    (Exists (breaks_binding (pp_gs pp) (pp_h pp) (pp_n pp)) (opening_pairs ms om rs or_ pf1 pf2) \/
     exists state, forall sha3 e rsp pf3, bb_respond flag C sha3 b rq pk cm cr csk e = Ok (rsp, pf3) ->
       exists Ps, bb_extract C rsp state = Ok Ps /\ Forall2 (fun mr P => bb_value C (bb_base C b) k y (fst mr) (snd mr) P) (combine ms rs) Ps).
Proof.
  intros flag C p b n s g xs ys csk pp num rk ry ek ey pk sk ms rs om or_ requester q L Sy E Ip Ilen Hq HP k y cm cr ir Rm Rr Hom Hor Lr query accepts Ha Ho.
  destruct (system_facts _ _ _ _ _ _ _ _ _ _ _ _ L Sy) as [Epar _ _ _ _ _ _ _ _ _ _ _ _ Hch _ _]. assert (Hc : 0 <= bp_chal (bb_par C b)) by lia.
  assert (F : forks (bp_chal p) query accepts requester).
  { apply (C77_rewinding _ (bp_chal p) query accepts (fun a c => (c =? of_bytes (rp_challenge (snd a))) && (rq_num (fst a) =? length ms)%nat && extra_check C b p csk (fst a)) requester q); [rewrite <- Epar; lia| |exact Ha|exact Ho].
    intros sha [rq pf]. unfold accepts, query. cbn [fst snd]. rewrite verify_request_query by exact Hc. rewrite Epar. split.
    - intros (V & Hn & Hx). apply bind_ok in V. destruct V as (x & Ex & V). apply bind_ok in V. destruct V as (c & Ec & V). destruct (Z.eqb_spec c (of_bytes (rp_challenge pf))) as [Hcc|]; [|discriminate].
      exists x, c. split; [exact Ex|]. split; [exact Ec|]. rewrite Hcc, Z.eqb_refl, Hn, Nat.eqb_refl, Hx. reflexivity.
    - intros (x & c & Ex & Ec & V). rewrite !andb_true_iff in V. destruct V as [[V1 V2] V3]. apply Nat.eqb_eq in V2. rewrite Ex. cbn [bind]. rewrite Ec. cbn [bind]. rewrite V1. cbn [negb]. tauto. }
  split; [exact F|]. destruct F as (before & c1 & r1 & c2 & r2 & [rq1 pf1] & t1 & sha1 & [rq2 pf2] & t2 & sha2 & x & Hne & B1 & B2 & _ & _ & Q1 & Q2 & G1 & G2 & I1 & I2 & (V1 & N1 & X1) & (V2 & N2 & X2)).
  unfold query in Q1, Q2. cbn [fst snd] in *.
  destruct (request_query_request _ _ _ _ _ _ _ _ _ Q1) as (s1 & m1 & E1 & P1 & R1). destruct (request_query_request _ _ _ _ _ _ _ _ _ Q2) as (s2 & m2 & E2 & P2 & R2).
  assert (Es : s1 = s2 /\ m1 = m2) by (apply C51_request_challenge_binding; [rewrite P1, Epar; exact Ip|rewrite P2, Epar; exact Ip|unfold rq_int64; rewrite R1, N1; exact Ilen|unfold rq_int64; rewrite R2, N2; exact Ilen|congruence]).
  destruct Es as [Es _]. assert (rq2 = rq1) by congruence. clear R1 R2. subst rq2.
  assert (Ch : forall sha pf c t, request_query flag C b pk rq1 pf cm cr = Ok x -> bb_verify_request flag C sha b pk rq1 pf cm cr = Ok tt -> agrees sha (bp_chal p) t -> In (x, c) t -> of_bytes (rp_challenge pf) = c).
  { intros sha pf c t Ex V G I. specialize (G x c I). rewrite verify_request_query, Ex, Epar in V by exact Hc. cbn [bind] in V. rewrite G in V. cbn [bind] in V. destruct (Z.eqb_spec c (of_bytes (rp_challenge pf))); [congruence|discriminate]. }
  pose proof (Ch _ _ _ _ Q1 V1 G1 I1) as C1. pose proof (Ch _ _ _ _ Q2 V2 G2 I2) as C2.
  exists rq1, pf1, pf2, sha1, sha2. split; [exact V1|]. split; [exact V2|]. assert (Hg : gap pf1 pf2 <> 0) by (unfold gap; lia). split; [exact Hg|].
  destruct (Exists_dec _ (opening_pairs ms om rs or_ pf1 pf2) (breaks_dec (pp_gs pp) (pp_h pp) (pp_n pp))) as [YB|NB]; [left; exact YB|right; apply Forall_Exists_neg in NB].
  unfold extra_check in X1. destruct (decrypt_request C b csk rq1) as [[cts betas]|?| | |] eqn:Ed; try discriminate.
  destruct (C72_signs_committed_bounded_partial flag C p b n s g xs ys csk pp num rk ry ek ey pk sk ms rs om or_ rq1 pf1 pf2 x sha1 sha2 cts betas L Sy E Rm Rr Hom Hor) as [(state & Hst) K]; try assumption; try congruence.
  - unfold gap. rewrite C1, C2. intros H0. apply Z.mod_divide in H0; [|pose proof (order_gt1 C L); lia]. destruct H0 as [j Hj]. set (o := ec_order C) in *. set (M := 2 ^ bp_chal p) in *. clearbody o M. clear - Hj Hne B1 B2 Hq. assert (j <> 0) by lia. nia.
  - apply Forall_forall. intros z Hz. rewrite forallb_forall in X1. specialize (X1 z Hz). lia.
  - exists state. intros sha3 e rsp pf3 Er. exact (K sha3 e rsp pf3 state Er Hst).
Qed.
Print Assumptions C77_request_means_committed_messages.

(** ** Evaluations of the verifiable random function *)

(** The verifier's decision as a function of the answer to its question. *)
Lemma verify_apply_verdict C p pp num v evals pk com cb pf sha : ec_laws C -> vrf_created C p pp num v -> 0 <= com -> to_bytes com = Ok cb ->
  let x := apply_hash_input p pk cb (map (ec_enc C) evals) (ap_commit pf) (ap_points pf) in
  dy_verify_apply C sha v evals pk com pf = Ok tt <->
  exists c, random_oracle 512 sha x (2 ^ dp_chal p) = Ok c /\ is_ok (dy_verify_apply C (programmed (dp_chal p) (fun _ => c)) v evals pk com pf) = true.
Proof.
  intros L Hv Hcom Ecb x. destruct (vrf_created_ok C p pp num v L Hv) as (_ & _ & _ & _ & Hch & _).
  assert (Move : forall H1 H2 c, random_oracle 512 H1 x (2 ^ dp_chal p) = Ok c -> random_oracle 512 H2 x (2 ^ dp_chal p) = Ok c -> dy_verify_apply C H1 v evals pk com pf = Ok tt -> dy_verify_apply C H2 v evals pk com pf = Ok tt).
  { intros H1 H2 c R1 R2 V. destruct (C49_verify_apply C H1 p pp num v evals pk com pf L Hv Hcom) as [[A1 _]|[_ [B|[_ B]]]]; [|congruence|congruence].
    destruct (C49_verify_apply C H2 p pp num v evals pk com pf L Hv Hcom) as [[_ V2]|[NA _]]; [exact V2|exfalso; apply NA].
    destruct A1 as (c' & dpts & cb' & L1 & M1 & D1 & I1 & P1 & Cb1 & O1 & B1 & F1 & W1). assert (cb' = cb) by congruence. subst cb'. fold x in O1. assert (c' = c) by congruence. subst c'.
    exists c, dpts, cb. repeat (split; [assumption|]). assumption. }
  assert (Pr : forall c, 0 <= c < 2 ^ dp_chal p -> random_oracle 512 (programmed (dp_chal p) (fun _ => c)) x (2 ^ dp_chal p) = Ok c).
  { intros c Hc. apply programmed_answers; [lia|intros; exact Hc|]. unfold blocks, ro_iterations. rewrite bit_length_2k by lia. assert ((dp_chal p + 1 + 512 + 512 - 1) / 512 < 254) by (apply Z.div_lt_upper_bound; lia). lia. }
  split.
  - intros V. assert (exists c, random_oracle 512 sha x (2 ^ dp_chal p) = Ok c) as (c & Rc).
    { destruct (C49_verify_apply C sha p pp num v evals pk com pf L Hv Hcom) as [[A1 _]|[_ [B|[_ B]]]]; [|congruence|congruence].
      destruct A1 as (c & dpts & cb' & _ & _ & _ & _ & _ & Cb1 & O1 & _). assert (cb' = cb) by congruence. subst cb'. exists c. exact O1. }
    exists c. split; [exact Rc|]. rewrite (Move sha _ c Rc (Pr c (ro_pow2_range _ _ _ _ (proj1 Hch) Rc)) V). reflexivity.
  - intros (c & Rc & V). assert (Bc := ro_pow2_range _ _ _ _ (proj1 Hch) Rc). destruct (dy_verify_apply C (programmed (dp_chal p) (fun _ => c)) v evals pk com pf) as [[]|?| | |] eqn:E; try discriminate.
    exact (Move _ sha c (Pr c Bc) Rc E).
Qed.

(** A prover bound to a key and to committed messages, and any (decidable) set of lists of points that are not all the right evaluations: if the prover has members of this set accepted for more
    than the fraction (q + 1) / 2^challenge of all answers to its q questions, two of its runs open one commitment with two different vectors. *)
Theorem C77_wrong_evaluation_opens_twice : forall C p pp num v ms key ok om pk com cb (bad : list (pt C) -> bool) (p_ : prover (list (pt C) * apply_proof)) q, ec_laws C -> vrf_created C p pp num v -> int64_params p ->
  let commit := commitment (pp_gs pp) (pp_h pp) (pp_n pp) in let all x := repeat x (length (pp_gs pp)) in
  0 <= key -> Forall (fun m => 0 <= m) ms -> (length ms <= length (pp_gs pp))%nat -> 0 <= ok -> 0 <= om -> of_bytes pk = commit (all key) ok -> com = commit ms om -> to_bytes com = Ok cb ->
  2 ^ dp_chal p <= ec_order C -> (forall evals, bad evals = true -> exists i e, nth_error evals i = Some e /\ ~ vrf_value C (dv_base C v) key (nth i ms 0) e) ->
  let query a := Ok (apply_hash_input p pk cb (map (ec_enc C) (fst a)) (ap_commit (snd a)) (ap_points (snd a))) in
  let accepts sha512 a := dy_verify_apply C sha512 v (fst a) pk com (snd a) = Ok tt /\ bad (fst a) = true in
  asks p_ q -> succeeds_often (dp_chal p) query accepts p_ q ->
  forks (dp_chal p) query accepts p_ /\
  exists evals pf1 pf2 c1 c2 sha1 sha2, dy_verify_apply C sha1 v evals pk com pf1 = Ok tt /\ dy_verify_apply C sha2 v evals pk com pf2 = Ok tt /\ c2 < c1 /\
    let a1 := map of_bytes (ap_masked pf1) in let second := vadd (vscale (c1 - c2) (vadd ms (all key))) (map of_bytes (ap_masked pf2)) in
    second <> a1 /\ commit second ((c1 - c2) * (om + ok) + of_bytes (ap_masked_open pf2)) = commit a1 (of_bytes (ap_masked_open pf1)).
Proof.
  intros C p pp num v ms key ok om pk com cb bad p_ q L Hv Ip commit all Hkey Nm Lm Hok Hom Epk Ecom Ecb Hq Hbad query accepts Ha Ho.
  pose proof Hv as (_ & (HN & _) & _). assert (Hcom : 0 <= com) by (rewrite Ecom; apply Z.mod_pos_bound; lia). destruct (vrf_created_ok C p pp num v L Hv) as (_ & _ & _ & _ & Hch & _).
  assert (F : forks (dp_chal p) query accepts p_).
  { apply (C77_rewinding _ (dp_chal p) query accepts (fun a c => is_ok (dy_verify_apply C (programmed (dp_chal p) (fun _ => c)) v (fst a) pk com (snd a)) && bad (fst a)) p_ q); [lia| |exact Ha|exact Ho].
    intros sha [evals pf]. unfold accepts, query. cbn [fst snd]. rewrite (verify_apply_verdict C p pp num v evals pk com cb pf sha L Hv Hcom Ecb). split.
    - intros [(c & Rc & V) Hb]. exists (apply_hash_input p pk cb (map (ec_enc C) evals) (ap_commit pf) (ap_points pf)), c. split; [reflexivity|]. split; [exact Rc|]. rewrite V, Hb. reflexivity.
    - intros (x & c & Ex & Rc & V). apply ok_inj in Ex. subst x. apply andb_prop in V. destruct V as [V Hb]. split; [exists c; split; assumption|exact Hb]. }
  split; [exact F|]. destruct F as (before & c1 & r1 & c2 & r2 & [ev1 pf1] & t1 & sha1 & [ev2 pf2] & t2 & sha2 & x & Hne & B1 & B2 & _ & _ & Q1 & Q2 & G1 & G2 & I1 & I2 & (V1 & X1) & (V2 & X2)).
  unfold query in Q1, Q2. cbn [fst snd] in *. apply ok_inj in Q1, Q2. rewrite <- Q2 in Q1.
  assert (Fin : forall sha ev pf, dy_verify_apply C sha v ev pk com pf = Ok tt -> Forall (fun P => P <> pinf C) ev).
  { intros sha ev pf V. destruct (C49_verify_apply C sha p pp num v ev pk com pf L Hv Hcom) as [[(c & dpts & cb' & _ & _ & _ & I & _) _]|[_ [B|[_ B]]]]; [exact I|congruence|congruence]. }
  destruct (C51_apply_challenge_values C p pk com ev1 _ _ p pk com ev2 _ _ cb cb L Ip Ip (Fin _ _ _ V1) (Fin _ _ _ V2) Ecb Ecb Q1) as [_ <-].
  apply C51_apply_challenge_binding in Q1; [|exact Ip|exact Ip]. destruct Q1 as (_ & _ & _ & _ & Eac & Eap).
  specialize (G1 x c1 I1). specialize (G2 x c2 I2). rewrite <- Q2 in G1, G2. destruct (Hbad _ X1) as (i & e & Ee & Hw).
  destruct (Z_lt_le_dec c2 c1) as [Hlt|Hle].
  - exists ev1, pf1, pf2, c1, c2, sha1, sha2. split; [exact V1|]. split; [exact V2|]. split; [exact Hlt|]. rewrite <- Eac, <- Eap in G1, G2.
    destruct (C76_wrong_evaluation_opens_twice C sha1 sha2 p pp num v ev1 ms key ok om pk com cb pf1 pf2 c1 c2 L Hv Hkey Nm Lm Hok Hom Epk Ecom V1 V2 Eac Eap Ecb G1 G2 Hlt Hq) as [R|R]; [exfalso; exact (Hw (R i e Ee))|exact R].
  - exists ev1, pf2, pf1, c2, c1, sha2, sha1. split; [exact V2|]. split; [exact V1|]. split; [lia|].
    destruct (C76_wrong_evaluation_opens_twice C sha2 sha1 p pp num v ev1 ms key ok om pk com cb pf2 pf1 c2 c1 L Hv Hkey Nm Lm Hok Hom Epk Ecom V2 V1 (eq_sym Eac) (eq_sym Eap) Ecb G2 G1 ltac:(lia) Hq) as [R|R]; [exfalso; exact (Hw (R i e Ee))|exact R].
Qed.
Print Assumptions C77_wrong_evaluation_opens_twice.

(** A prover who succeeds often: the honest prover of the Pedersen parameter proof for g = 4^5 modulo 23 * 47, who asks one question and answers every challenge. It succeeds on all tapes
    (of two values below 8: its own question, and the verifier's, which is the same), so two of its runs fork. *)
Definition ex_prover : prover trusted_proof := Ask [x04; x00; x04; x04; x39; x40] (fun c => Give {| tp_dummy_g := 64; tp_response := 3 + 5 * c; tp_len := 3 |}).
Example C77_ex : let g := 1024 in let h := 4 in let n := 1081 in let query pf := gen_bytes g h n [tp_dummy_g pf] in
  let accepts sha512 pf := tp_len pf = 3 /\ verify_trusted sha512 g h n pf = Ok tt in
  query {| tp_dummy_g := 64; tp_response := 3; tp_len := 3 |} = Ok [x04; x00; x04; x04; x39; x40] /\ asks ex_prover 1 /\ succeeds_often 3 query accepts ex_prover 1.
Proof.
  cbv zeta. split; [vm_compute; reflexivity|]. split; [cbn; trivial|]. exists (fun _ => true). split; [|vm_compute; reflexivity].
  intros tape Lt Rt _. destruct tape as [|c [|d [|? ?]]]; try discriminate. inversion Rt as [|? ? Hc _]; subst. change (2 ^ 3) with 8 in Hc.
  exists {| tp_dummy_g := 64; tp_response := 3 + 5 * c; tp_len := 3 |}, [([x04; x00; x04; x04; x39; x40], c)], (programmed 3 (fun _ => c)).
  split; [reflexivity|]. split; [intros x c' [E|[]]; injection E as <- <-; apply programmed_answers; [lia|intros; exact Hc|vm_compute; reflexivity]|]. split; [reflexivity|].
  assert (Ec : c = 0 \/ c = 1 \/ c = 2 \/ c = 3 \/ c = 4 \/ c = 5 \/ c = 6 \/ c = 7) by lia. decompose [or] Ec; subst c; vm_compute; reflexivity.
Qed.
