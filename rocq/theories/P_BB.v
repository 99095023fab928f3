(** Theorems on the oblivious Boneh-Boyen signature (C50) and on what its proof challenges hash (C51). *)
From Coq Require Import Znumtheory.
From Verif Require Import Base M_BigNum M_Num M_EC M_Proto M_CS M_Pedersen M_VRF M_BB S_CS S_Pedersen S_BB L_BigNum L_Num L_Mod L_DJ L_CS L_EC L_Cipher L_Protocol
  L_Toy L_Pedersen L_VRF L_BBct L_BBhom L_BBped L_BBreq L_BBrsp L_BB P_CS P_Pedersen.

(** Entry condition: a Camenisch-Shoup key pair with both objects created from it, a created Pedersen object whose bases are units, and a
    successful Create on them; the challenge length stays within what the random oracle supports. *)
Record bb_system (flag : bool) (C : ec) (p : bb_params) (b : bb C) (n : Z) (s : nat) (g : Z) (xs ys : list Z) (csk : cs_private) (pp : ped_params) (num : nat) : Prop := {
  sy_key : cs_keypair n s g xs ys;
  sy_len : ys <> [];
  sy_pub : cs_public_create flag n s g ys = Ok (bb_cs C b);
  sy_priv : cs_private_create flag n s g ys xs = Ok csk;
  sy_ped : created pp num (bb_ped C b);
  sy_units : Forall (fun h => Z.gcd h (pp_n pp) = 1) (pp_gs pp) /\ Z.gcd (pp_h pp) (pp_n pp) = 1;
  sy_create : bb_create C p (bb_cs C b) (bb_ped C b) = Ok b;
  sy_chal : bp_chal p <= 120000 }.

(** ** Create *)

(** Create refuses non-positive lengths, moduli below 2^(2 challenge + 2 security + 1) q^3 and base points that do not decode, and nothing else. *)
Theorem C50_create : forall flag C p cs pd n s g ys, 1 < n -> Z.odd n = true -> 0 <= g < n ^ (Z.of_nat s + 1) -> Forall (fun y => 0 <= y < n ^ (Z.of_nat s + 1)) ys ->
  cs_public_create flag n s g ys = Ok cs ->
  let bound := 2 ^ (2 * bp_chal p + 2 * bp_sec p + 1) * ec_order C ^ 3 in
  let fits := 0 < bp_sec p /\ 0 < bp_chal p /\ bound <= n ^ Z.of_nat s /\ bound <= pp_n (pd_par pd) in
  (fits /\ exists base, point_of_bytes C (bp_base p) = Ok base /\ bb_create C p cs pd = Ok {| bb_par := p; bb_base := base; bb_cs := cs; bb_ped := pd |}) \/
  (~ (fits /\ exists base, point_of_bytes C (bp_base p) = Ok base) /\ bb_create C p cs pd = Err InvalidArgument).
Proof.
  intros flag C p cs pd n s g ys Hn Ho Bg By E bound fits. destruct (cs_public_inv flag n s Hn Ho g ys cs Bg By E) as (W & _ & _).
  unfold bb_create. destruct (Z.leb_spec (bp_sec p) 0); [right; split; [unfold fits; lia|reflexivity]|].
  destruct (Z.leb_spec (bp_chal p) 0); [right; split; [unfold fits; lia|reflexivity]|]. unfold cube_bound. rewrite lshift_ok by lia. cbn [bind]. rewrite (w_ns _ _ _ W).
  replace (1 * 2 ^ (2 * bp_chal p + 2 * bp_sec p + 1) * ec_order C * ec_order C * ec_order C) with bound by (unfold bound; ring).
  destruct (Z.ltb_spec (n ^ Z.of_nat s) bound); [right; split; [unfold fits; lia|reflexivity]|].
  destruct (Z.ltb_spec (pp_n (pd_par pd)) bound); [right; split; [unfold fits; lia|reflexivity]|].
  assert (F : fits) by (unfold fits; lia). unfold point_of_bytes.
  destruct (ec_dec C (bp_base p)) as [x|]; [|right; split; [intros (_ & x & X); discriminate|reflexivity]].
  destruct (is_inf C x); [right; split; [intros (_ & x' & X); discriminate|reflexivity]|]. left. split; [exact F|]. exists x. split; reflexivity.
Qed.
Print Assumptions C50_create.

(** What the entry condition gives. *)
Record sys_facts (C : ec) (p : bb_params) (b : bb C) (n : Z) (s : nat) (xs ys : list Z) (csk : cs_private) (pp : ped_params) : Prop := {
  sf_par : bb_par C b = p; sf_pp : pd_par (bb_ped C b) = pp;
  sf_W : cs_valid n s (bb_cs C b); sf_g : Z.gcd (cs_g (bb_cs C b)) n = 1; sf_k : key_match n s (cs_g (bb_cs C b)) xs (cs_ys (bb_cs C b));
  sf_ys : cs_ys (bb_cs C b) = ys; sf_len : (0 < cs_len (bb_cs C b))%nat;
  sf_sv : cs_priv_valid n s csk; sf_sp : cs_pub csk = bb_cs C b; sf_sx : cs_xs csk = xs;
  sf_po : ped_ok (bb_ped C b); sf_un : units (pd_par (bb_ped C b));
  sf_sec : 0 < bp_sec (bb_par C b); sf_chal : 0 < bp_chal (bb_par C b) <= 120000;
  sf_base : bb_base C b <> pinf C;
  sf_bound : 2 ^ (2 * bp_chal (bb_par C b) + 2 * bp_sec (bb_par C b) + 1) * ec_order C * ec_order C * ec_order C <= n ^ Z.of_nat s }.
Lemma system_facts flag C p b n s g xs ys csk pp num : ec_laws C -> bb_system flag C p b n s g xs ys csk pp num -> sys_facts C p b n s xs ys csk pp.
Proof.
  intros L [K Hl Ep Es Hp Hu Ec Hc]. destruct (keypair_ranges _ _ _ _ _ K) as (Rx & Ry & Ll). pose proof (ck_gt _ _ _ _ _ K) as Hn. pose proof (ck_odd _ _ _ _ _ K) as Ho.
  destruct (cs_public_inv flag n s Hn Ho g ys _ (ck_g _ _ _ _ _ K) Ry Ep) as (W & Eg & Ey).
  destruct (cs_private_inv flag n s Hn Ho g ys xs csk (ck_g _ _ _ _ _ K) Ry Es) as (SV & _ & _ & Ex). destruct (created_ok _ _ _ Hp) as [Epp PO].
  destruct (C50_create flag C p (bb_cs C b) (bb_ped C b) n s g ys Hn Ho (ck_g _ _ _ _ _ K) Ry Ep) as [((S1 & S2 & S3 & S4) & base & Eb & Ec')|[_ Ec']]; [|rewrite Ec in Ec'; discriminate].
  assert (Eb1 : bb_par C b = p) by (rewrite Ec in Ec'; injection Ec' as Q; rewrite Q; reflexivity).
  assert (Eb2 : bb_base C b = base) by (rewrite Ec in Ec'; injection Ec' as Q; rewrite Q; reflexivity).
  constructor; rewrite ?Eb1, ?Eb2, ?Epp; try assumption; try lia; try reflexivity.
  - rewrite Eg. apply (ck_unit _ _ _ _ _ K).
  - rewrite Eg, Ey. apply (ck_match _ _ _ _ _ K).
  - unfold cs_len. rewrite Ey. destruct ys; [contradiction|cbn; lia].
  - apply (cs_pub_eq flag n s g ys xs); assumption.
  - apply (point_of_bytes_not_inf C L _ _ Eb).
Qed.

(** Concrete system on the toy curve: n = 77, s = 4, two slots, three Pedersen bases. *)
Definition exb_g : Z := 1170555775.
Definition exb_xs : list Z := [3; 4].
Definition exb_ys : list Z := [2476292960; 1771607709].
Lemma exb_keypair : cs_keypair 77 4 exb_g exb_xs exb_ys.
Proof.
  constructor; [reflexivity|lia|unfold exb_g; cbn; lia|reflexivity| |].
  - repeat constructor; try lia; vm_compute; reflexivity.
  - intros i Hi. assert (i = 1 \/ i = 2 \/ i = 3 \/ i = 4) as [-> |[-> |[-> | ->]]] by lia; reflexivity.
Qed.
Definition exb_pp : ped_params := {| pp_gs := [9; 100; 25]; pp_h := 4; pp_n := 16744463 |}.
Definition exb_p : bb_params := {| bp_sec := 1; bp_chal := 1; bp_prefix := [x61]; bp_base := ec_enc toy (pgen toy);
  bp_cs := {| M_CS.pp_n := [x4d]; M_CS.pp_s := 4; M_CS.pp_g := [x02]; M_CS.pp_ys := [[x03]] |};
  bp_ped := {| ppr_n := [x04; x39]; ppr_gs := [[x09]; [x64]]; ppr_h := [x04] |} |}.
Definition exb_objects {A} (k : bb toy -> cs_private -> outcome A) : outcome A :=
  let* cs := cs_public_create false 77 4 exb_g exb_ys in
  let* csk := cs_private_create false 77 4 exb_g exb_ys exb_xs in
  let* pd := ped_create exb_pp 2 in
  let* b := bb_create toy exb_p cs pd in
  k b csk.
Definition is_ok {A} (o : outcome A) : bool := match o with Ok _ => true | _ => false end.
Lemma objects_ok flag C p n s g ys xs pp num :
  is_ok (let* cs := cs_public_create flag n s g ys in let* csk := cs_private_create flag n s g ys xs in let* pd := ped_create pp num in
         let* b := bb_create C p cs pd in Ok tt) = true ->
  exists b csk, cs_public_create flag n s g ys = Ok (bb_cs C b) /\ cs_private_create flag n s g ys xs = Ok csk /\ ped_create pp num = Ok (bb_ped C b) /\
    bb_create C p (bb_cs C b) (bb_ped C b) = Ok b.
Proof.
  intros E. destruct (cs_public_create flag n s g ys) as [cs|?| | |]; try discriminate. cbn [bind] in E.
  destruct (cs_private_create flag n s g ys xs) as [csk|?| | |]; try discriminate. cbn [bind] in E.
  destruct (ped_create pp num) as [pd|?| | |]; try discriminate. cbn [bind] in E.
  destruct (bb_create C p cs pd) as [b|?| | |] eqn:E4; try discriminate. clear E.
  assert (Q : bb_cs C b = cs /\ bb_ped C b = pd).
  { unfold bb_create in E4. destruct (bp_sec p <=? 0); [discriminate|]. destruct (bp_chal p <=? 0); [discriminate|]. apply bind_ok in E4. destruct E4 as (bd & _ & E4).
    destruct (cs_n_to_s cs <? bd); [discriminate|]. destruct (pp_n (pd_par pd) <? bd); [discriminate|]. apply bind_ok in E4. destruct E4 as (x & _ & E4).
    assert (Eb : b = {| bb_par := p; bb_base := x; bb_cs := cs; bb_ped := pd |}) by congruence. rewrite Eb. split; reflexivity. }
  destruct Q as [Q1 Q2]. exists b, csk. rewrite Q1, Q2. repeat (split; [reflexivity|]). exact E4.
Qed.
Lemma exb_system : exists b csk, bb_system false toy exb_p b 77 4 exb_g exb_xs exb_ys csk exb_pp 2.
Proof.
  destruct (objects_ok false toy exb_p 77 4 exb_g exb_ys exb_xs exb_pp 2) as (b & csk & E1 & E2 & E3 & E4); [vm_compute; reflexivity|].
  exists b, csk. constructor; [exact exb_keypair|discriminate|exact E1|exact E2| | |exact E4|cbn; lia].
  - split; [cbn; lia|]. split; [left; cbn; lia|exact E3].
  - split; [repeat constructor|reflexivity].
Qed.
Example C50_create_ex : exb_objects (fun b csk => let small := {| bp_sec := 1; bp_chal := 2; bp_prefix := []; bp_base := bp_base exb_p; bp_cs := bp_cs exb_p; bp_ped := bp_ped exb_p |} in
    Ok (peqb toy (bb_base toy b) (pgen toy), match bb_create toy small (bb_cs toy b) (bb_ped toy b) with Err InvalidArgument => true | _ => false end)) = Ok (true, true).
Proof. vm_compute. reflexivity. Qed.

(** ** The function *)

(** The value at (m, r) is unique, and for a base other than infinity equal values mean equal m + y r modulo the order. *)
Theorem C50_function : forall C base k y m1 r1 m2 r2 P1 P2, ec_laws C -> bb_value C base k y m1 r1 P1 -> bb_value C base k y m2 r2 P2 ->
  ((m1 + y * r1) mod ec_order C = (m2 + y * r2) mod ec_order C -> P1 = P2) /\
  (base <> pinf C -> P1 = P2 -> (m1 + y * r1) mod ec_order C = (m2 + y * r2) mod ec_order C).
Proof.
  intros C base k y m1 r1 m2 r2 P1 P2 L [N1 E1] [N2 E2]. pose proof (order_gt1 C L) as Hn. split.
  - intros Em. apply (pmul_pt_inj C L (m1 + k + y * r1)); [exact N1|]. rewrite E1, <- E2. apply (pmul_eqmod C L). apply mod_eqmod_iff in Em; [|lia].
    unfold eqmod in *. replace (m2 + k + y * r2 - (m1 + k + y * r1)) with (- (m1 + y * r1 - (m2 + y * r2))) by ring. apply Z.divide_opp_r. exact Em.
  - intros Hb ->. assert (P2 <> pinf C) by (intros ->; rewrite (pmul_inf C L) in E2; congruence).
    assert (K : eqmod (ec_order C) (m1 + k + y * r1) (m2 + k + y * r2)) by (apply (pmul_inj C L _ _ P2); [assumption|congruence]).
    apply mod_eqmod_iff; [lia|]. unfold eqmod in *. replace (m1 + y * r1 - (m2 + y * r2)) with (m1 + k + y * r1 - (m2 + k + y * r2)) by lia. exact K.
Qed.
Print Assumptions C50_function.

(** ** Keys *)

(** Key generation succeeds as soon as the random source offers a unit for every encryption; the secrets are in range, and the public key
    holds, for each slot i, ciphertexts that decrypt to k (respectively y) in slot i and 0 elsewhere. *)
Theorem C50_keys : forall flag C p b n s g xs ys csk pp num rk ry ek ey, ec_laws C -> bb_system flag C p b n s g xs ys csk pp num ->
  (forall i, (i < length ys)%nat -> (exists r, In r (ek i) /\ Z.gcd (r mod n) n = 1) /\ (exists r, In r (ey i) /\ Z.gcd (r mod n) n = 1)) ->
  exists pk sk, bb_generate_keys flag C b rk ry ek ey = Ok (pk, sk) /\
    let k := of_bytes (bsk_k sk) in let y := of_bytes (bsk_y sk) in
    0 < k < ec_order C /\ 0 < y < ec_order C /\ length (bpk_k pk) = length ys /\ length (bpk_y pk) = length ys /\
    forall i, (i < length ys)%nat -> exists a c ck cy,
      nth_error (bpk_k pk) i = Some a /\ nth_error (bpk_y pk) i = Some c /\ cs_parse_ct (bb_cs C b) a = Ok ck /\ cs_parse_ct (bb_cs C b) c = Ok cy /\
      cs_decrypt csk ck = Ok (map (fun l => if (l =? i)%nat then k else 0) (seq 0 (length ys))) /\
      cs_decrypt csk cy = Ok (map (fun l => if (l =? i)%nat then y else 0) (seq 0 (length ys))).
Proof.
  intros flag C p b n s g xs ys csk pp num rk ry ek ey L Sy He. destruct (system_facts _ _ _ _ _ _ _ _ _ _ _ _ L Sy).
  assert (El : cs_len (bb_cs C b) = length ys) by (unfold cs_len; rewrite sf_ys0; reflexivity). rewrite <- El in He.
  destruct (keys_total flag C b n s xs sf_W0 sf_g0 sf_k0 L rk ry ek ey He) as (pk & sk & E). exists pk, sk. split; [exact E|]. cbv zeta.
  destruct (keys_inv flag C b n s xs sf_W0 sf_g0 sf_k0 L rk ry ek ey pk sk E) as (Rk & Ry & keys & ok & oy & Ep & Hok & Hoy & K1 & K2).
  split; [exact Rk|]. split; [exact Ry|].
  assert (Lk : length (bpk_k pk) = length ys /\ length (bpk_y pk) = length ys).
  { unfold bb_generate_keys in E. apply bind_ok in E. destruct E as (? & _ & E). apply bind_ok in E. destruct E as (? & _ & E). apply bind_ok in E. destruct E as (ps & Eps & E).
    assert (Q : pk = {| bpk_k := map fst ps; bpk_y := map snd ps |}) by congruence. apply mapM_Forall2, Forall2_len in Eps. rewrite seq_length in Eps.
    rewrite Q. cbn [bpk_k bpk_y]. rewrite !map_length, <- Eps, El. split; reflexivity. }
  destruct Lk as [Lk Ly]. split; [exact Lk|]. split; [exact Ly|]. intros i Hi. rewrite <- El in Hi.
  assert (Lks : length keys = cs_len (bb_cs C b)) by (rewrite <- (map_length fst), K1; apply tab_len).
  destruct (nth_error keys i) as [(ck, cy)|] eqn:Ei; [|apply nth_error_None in Ei; lia].
  assert (Eck : ck = enc n s (bb_cs C b) xs (ok i) (fun l => if (l =? i)%nat then of_bytes (bsk_k sk) else 0)).
  { assert (X : nth_error (map fst keys) i = Some ck) by (rewrite nth_error_map, Ei; reflexivity). rewrite K1 in X. unfold key_cts in X. rewrite tab_at in X by exact Hi. congruence. }
  assert (Ecy : cy = enc n s (bb_cs C b) xs (oy i) (fun l => if (l =? i)%nat then of_bytes (bsk_y sk) else 0)).
  { assert (X : nth_error (map snd keys) i = Some cy) by (rewrite nth_error_map, Ei; reflexivity). rewrite K2 in X. unfold key_cts in X. rewrite tab_at in X by exact Hi. congruence. }
  unfold parse_public in Ep. pose proof (mapM_Forall2 _ _ _ Ep) as F.
  assert (Hs : nth_error (seq 0 (cs_len (bb_cs C b))) i = Some i) by (rewrite (nth_error_nth' _ 0%nat) by (rewrite seq_length; exact Hi); rewrite seq_nth by exact Hi; reflexivity).
  pose proof (forall2_nth _ _ _ i i (ck, cy) F Hs Ei) as X. cbv beta in X.
  apply bind_ok in X. destruct X as (a & Ea & X). apply bind_ok in X. destruct X as (ck' & Eck' & X). apply bind_ok in X. destruct X as (c & Ec & X). apply bind_ok in X. destruct X as (cy' & Ecy' & X).
  assert (ck' = ck) by congruence. assert (cy' = cy) by congruence. subst ck' cy'. exists a, c, ck, cy.
  assert (At : forall A (l : list A) j x, at_index l j = Ok x -> nth_error l j = Some x) by (intros A l j x; unfold at_index; destruct (nth_error l j); congruence).
  split; [apply At, Ea|]. split; [apply At, Ec|]. split; [exact Eck'|]. split; [exact Ecy'|].
  assert (Q1 : 1 < ec_order C) by (apply (order_gt1 C L)).
  assert (Small : ec_order C <= n ^ Z.of_nat s).
  { etransitivity; [|exact sf_bound0]. assert (P2 : 0 < 2 ^ (2 * bp_chal (bb_par C b) + 2 * bp_sec (bb_par C b) + 1)) by (apply Z.pow_pos_nonneg; lia).
    set (u := 2 ^ (2 * bp_chal (bb_par C b) + 2 * bp_sec (bb_par C b) + 1)) in *. clearbody u. clear - P2 Q1. set (qq := ec_order C) in *. clearbody qq.
    assert (1 <= u * qq * qq) by (assert (0 < u * qq) by (apply Z.mul_pos_pos; lia); assert (0 < u * qq * qq) by (apply Z.mul_pos_pos; lia); lia).
    rewrite <- (Z.mul_1_l qq) at 1. apply Z.mul_le_mono_nonneg_r; lia. }
  assert (D : forall r v, 0 <= r -> 0 < v < ec_order C -> cs_decrypt csk (enc n s (bb_cs C b) xs r (fun l => if (l =? i)%nat then v else 0)) =
              Ok (map (fun l => if (l =? i)%nat then v else 0) (seq 0 (length ys)))).
  { intros r v Hr Hv. rewrite (enc_decrypt n s (bb_cs C b) xs sf_W0 sf_g0 sf_k0 csk r _ sf_sv0 sf_sp0 sf_sx0 Hr) by (intros l; destruct (l =? i)%nat; lia). rewrite El. f_equal. apply tab_ext. intros l _.
    destruct (l =? i)%nat; [apply Z.mod_small; lia|apply Z.mod_0_l; lia]. }
  split; [rewrite Eck; apply D; [apply Hok|exact Rk]|rewrite Ecy; apply D; [apply Hoy|exact Ry]].
Qed.
Print Assumptions C50_keys.

(** ** Requests *)
Lemma tab_all {A} (P : A -> Prop) k f : Forall P (tab k f) <-> forall i, (i < k)%nat -> P (f i).
Proof.
  split; [|intros H; apply tab_Forall; exact H]. intros H i Hi. rewrite Forall_forall in H. apply H. unfold tab. apply in_map. apply in_seq. lia.
Qed.
Lemma num_cts_iff len total i : (0 < len)%nat -> (i < num_cts len total)%nat <-> (i * len < total)%nat.
Proof. intros Hl. split; [apply num_cts_lt; exact Hl|]. intros H. pose proof (num_cts_cover len total Hl) as Cv. nia. Qed.

(** A request for at most as many messages as there are Pedersen bases, with as many nonces: it is answered exactly when every encryption
    randomness (also the dummy one of the proof) is 0 or a unit modulo n, whatever else is drawn; one ciphertext carries [length ys] messages.
    For messages and nonces below the group order the proof then verifies, unless a masked randomness in it shares a factor with n. *)
Theorem C50_request : forall flag C sha512 p b n s g xs ys csk pp num rk ry ek ey pk sk ms rs om or_ e,
  ec_laws C -> bb_system flag C p b n s g xs ys csk pp num -> bb_generate_keys flag C b rk ry ek ey = Ok (pk, sk) ->
  (length ms <= length (pp_gs pp))%nat -> length rs = length ms -> Forall (fun x => 0 <= x) ms -> Forall (fun x => 0 <= x) rs -> 0 <= om -> 0 <= or_ ->
  let cm := commitment (pp_gs pp) (pp_h pp) (pp_n pp) ms om in let cr := commitment (pp_gs pp) (pp_h pp) (pp_n pp) rs or_ in
  let drawn_well := forall i, (i * length ys < length ms)%nat -> usable n (e_enc e i mod n) /\ usable n (d_enc e i mod (n * 2 ^ (bp_chal p + bp_sec p))) in
  (drawn_well -> exists rq pf st, bb_request_and_proof flag C sha512 b ms rs pk cm om cr or_ e = Ok (rq, pf, st) /\ rq_num rq = length ms /\
     (Forall (fun x => x < ec_order C) ms -> Forall (fun x => x < ec_order C) rs ->
        (Forall (usable n) (parse_bignum_vector (m2_enc (rp_m2 pf))) -> bb_verify_request flag C sha512 b pk rq pf cm cr = Ok tt) /\
        (~ Forall (usable n) (parse_bignum_vector (m2_enc (rp_m2 pf))) -> bb_verify_request flag C sha512 b pk rq pf cm cr = Err InvalidArgument))) /\
  (~ drawn_well -> bb_request_and_proof flag C sha512 b ms rs pk cm om cr or_ e = Err InvalidArgument).
Proof.
  intros flag C sha p b n s g xs ys csk pp num rk ry ek ey pk sk ms rs om or_ e L Sy E Hl Lr Hm Hr Hom Hor cm cr dw.
  destruct (system_facts _ _ _ _ _ _ _ _ _ _ _ _ L Sy). subst p pp.
  assert (El : cs_len (bb_cs C b) = length ys) by (unfold cs_len; rewrite sf_ys0; reflexivity).
  destruct (keys_inv flag C b n s xs sf_W0 sf_g0 sf_k0 L rk ry ek ey pk sk E) as (Rk & Ry & keys & ok & oy & Ep & Hok & Hoy & K1 & K2).
  assert (Hk0 : 0 <= of_bytes (bsk_k sk)) by lia. assert (Hy0 : 0 <= of_bytes (bsk_y sk)) by lia. pose proof (n1 n s _ sf_W0) as Hn.
  assert (P2 : 0 < 2 ^ (bp_chal (bb_par C b) + bp_sec (bb_par C b))) by (apply Z.pow_pos_nonneg; lia).
  assert (Dw : dw <-> Forall (rnd_ok n) (enc_rand C b n e (length ms)) /\ Forall (rnd_ok n) (dummy_enc C b n e (length ms))).
  { unfold enc_rand, dummy_enc. rewrite !tab_all. unfold dw. rewrite <- El. split.
    - intros H. split; intros i Hi; apply num_cts_iff in Hi; try exact sf_len0; (split; [apply Z.mod_pos_bound; lia|apply (H i Hi)]).
    - intros [H1 H2] i Hi. apply num_cts_iff in Hi; [|exact sf_len0]. split; [apply (H1 i Hi)|apply (H2 i Hi)]. }
  assert (Us : forall l, Forall (fun x => 0 <= x) l -> Forall (usable n) l <-> Forall (rnd_ok n) l).
  { intros l Hl0. split; intros H; rewrite Forall_forall in *; intros x Hx; [split; [apply Hl0, Hx|apply H, Hx]|apply (H x Hx)]. }
  split.
  - intros D. apply Dw in D. destruct D as [D1 D2].
    destruct (honest_request flag C sha b n s xs sf_W0 sf_g0 sf_k0 sf_len0 ok oy _ _ Hok Hoy Hk0 Hy0 sf_po0 sf_un0 L sf_sec0 sf_chal0 pk keys Ep K1 K2 ms rs om or_ e Hl Lr Hm Hr Hom Hor D1 D2)
      as (rq & pf & st & E1 & E2 & _ & _ & E3). exists rq, pf, st. split; [exact E1|]. split; [exact E2|]. intros B1 B2. destruct (E3 B1 B2) as [V1 V2].
    assert (Nn : Forall (fun x => 0 <= x) (parse_bignum_vector (m2_enc (rp_m2 pf)))).
    { unfold parse_bignum_vector. apply Forall_map, Forall_forall. intros x _. apply of_bytes_nonneg. }
    rewrite (Us _ Nn). split; assumption.
  - intros D. assert (D' : ~ (Forall (rnd_ok n) (enc_rand C b n e (length ms)) /\ Forall (rnd_ok n) (dummy_enc C b n e (length ms)))) by (intros X; apply D, Dw, X).
    exact (request_rejects flag C sha b n s xs sf_W0 sf_g0 sf_k0 sf_len0 ok oy _ _ Hok Hoy Hk0 Hy0 sf_po0 L sf_sec0 sf_chal0 pk keys Ep K1 K2 ms rs cm om cr or_ e Hl Lr Hm Hr Hom Hor D').
Qed.
Print Assumptions C50_request.

(** ** Evaluation *)

(** Whatever masks were drawn for the request and whatever hash function it was made with: the issuer's answer to it is InvalidArgument if some m_i + k + y r_i vanishes modulo the order,
    Internal if some dummy value of the response proof does, and otherwise the response proof verifies and the results extracted from the
    response are the values of the function at every (m_i, r_i), in order. *)
Theorem C50_evaluation : forall flag C sha0 sha512 p b n s g xs ys csk pp num rk ry ek ey pk sk ms rs om or_ e rq pf st e2,
  ec_laws C -> bb_system flag C p b n s g xs ys csk pp num -> bb_generate_keys flag C b rk ry ek ey = Ok (pk, sk) ->
  Forall (fun x => 0 <= x < ec_order C) ms -> Forall (fun x => 0 <= x < ec_order C) rs -> 0 <= om -> 0 <= or_ ->
  let k := of_bytes (bsk_k sk) in let y := of_bytes (bsk_y sk) in
  let cm := commitment (pp_gs pp) (pp_h pp) (pp_n pp) ms om in let cr := commitment (pp_gs pp) (pp_h pp) (pp_n pp) rs or_ in
  bb_request_and_proof flag C sha0 b ms rs pk cm om cr or_ e = Ok (rq, pf, st) ->
  let defined := forall m r, In (m, r) (combine ms rs) -> (m + k + y * r) mod ec_order C <> 0 in
  let dummies := forall j, (j < length ms)%nat -> s_betas e2 j mod ec_order C <> 0 in
  (~ defined -> bb_respond flag C sha512 b rq pk cm cr csk e2 = Err InvalidArgument) /\
  (defined -> ~ dummies -> bb_respond flag C sha512 b rq pk cm cr csk e2 = Err Internal) /\
  (defined -> dummies -> exists rsp pf2 Ps, bb_respond flag C sha512 b rq pk cm cr csk e2 = Ok (rsp, pf2) /\
     bb_verify_response flag C sha512 b pk rsp pf2 rq cm cr = Ok tt /\
     bb_extract C rsp st = Ok Ps /\ Forall2 (fun mr P => bb_value C (bb_base C b) k y (fst mr) (snd mr) P) (combine ms rs) Ps).
Proof.
  intros flag C sha0 sha p b n s g xs ys csk pp num rk ry ek ey pk sk ms rs om or_ e rq pf st e2 L Sy E Hm Hr Hom Hor k y cm cr Er df dm.
  destruct (system_facts _ _ _ _ _ _ _ _ _ _ _ _ L Sy). subst p pp. pose proof (n1 n s _ sf_W0) as Hn.
  destruct (keys_inv flag C b n s xs sf_W0 sf_g0 sf_k0 L rk ry ek ey pk sk E) as (Rk & Ry & keys & ok & oy & Ep & Hok & Hoy & K1 & K2). fold k in Rk, K1. fold y in Ry, K2.
  assert (Hk0 : 0 <= k) by lia. assert (Hy0 : 0 <= y) by lia. assert (Nm : nonneg ms) by (eapply Forall_impl; [|exact Hm]; cbn beta; lia). assert (Nr : nonneg rs) by (eapply Forall_impl; [|exact Hr]; cbn beta; lia).
  assert (Sz : (length ms <= length (pp_gs (pd_par (bb_ped C b))))%nat /\ length rs = length ms).
  { unfold bb_request_and_proof in Er. destruct (Nat.ltb_spec (length (pp_gs (pd_par (bb_ped C b)))) (length ms)) as [|H1]; [discriminate|]. split; [lia|].
    destruct (Nat.eqb_spec (length rs) (length ms)) as [H2|]; [exact H2|discriminate]. }
  destruct Sz as [Hl Lr].
  assert (D : Forall (rnd_ok n) (enc_rand C b n e (length ms)) /\ Forall (rnd_ok n) (dummy_enc C b n e (length ms))).
  { assert (Dec : forall l, Forall (fun x => 0 <= x) l -> {Forall (rnd_ok n) l} + {~ Forall (rnd_ok n) l}).
    { intros l Hl0. apply Forall_dec. intros x. unfold rnd_ok. destruct (Z_le_dec 0 x); [|right; lia]. destruct (Z.eq_dec x 0); [left; lia|].
      destruct (Z.eq_dec (Z.gcd x n) 1); [left; lia|right; lia]. }
    assert (P2 : 0 < n * 2 ^ (bp_chal (bb_par C b) + bp_sec (bb_par C b))) by (apply Z.mul_pos_pos; [lia|apply Z.pow_pos_nonneg; lia]).
    destruct (Dec (enc_rand C b n e (length ms))) as [D1|D1]; [apply tab_mod_nonneg; lia| |].
    - destruct (Dec (dummy_enc C b n e (length ms))) as [D2|D2]; [apply tab_mod_nonneg; lia|split; assumption|].
      rewrite (request_rejects flag C sha0 b n s xs sf_W0 sf_g0 sf_k0 sf_len0 ok oy _ _ Hok Hoy Hk0 Hy0 sf_po0 L sf_sec0 sf_chal0 pk keys Ep K1 K2 ms rs cm om cr or_ e Hl Lr Nm Nr Hom Hor) in Er by (intros [_ X]; contradiction). discriminate.
    - rewrite (request_rejects flag C sha0 b n s xs sf_W0 sf_g0 sf_k0 sf_len0 ok oy _ _ Hok Hoy Hk0 Hy0 sf_po0 L sf_sec0 sf_chal0 pk keys Ep K1 K2 ms rs cm om cr or_ e Hl Lr Nm Nr Hom Hor) in Er by (intros [X _]; contradiction). discriminate. }
  destruct D as [D1 D2].
  destruct (honest_request flag C sha0 b n s xs sf_W0 sf_g0 sf_k0 sf_len0 ok oy _ _ Hok Hoy Hk0 Hy0 sf_po0 sf_un0 L sf_sec0 sf_chal0 pk keys Ep K1 K2 ms rs om or_ e Hl Lr Nm Nr Hom Hor D1 D2)
      as (rq' & pf' & st' & E1 & E2 & E3 & E4 & _). fold k in E3. fold y in E3. change (com C b ms om) with cm in E1. change (com C b rs or_) with cr in E1.
  rewrite E1 in Er. assert (rq' = rq) by congruence. assert (st' = st) by congruence. subst rq' st'. clear Er E1.
  pose proof (order_gt1 C L) as Hq. destruct sf_po0 as [HN _].
  assert (Hcm : 0 <= cm) by (apply Z.mod_pos_bound; lia). assert (Hcr : 0 <= cr) by (apply Z.mod_pos_bound; lia).
  assert (Dj : df <-> forall j, (j < length ms)%nat -> (mv ms j + k + y * rv rs j) mod ec_order C <> 0).
  { unfold df, mv, rv. split.
    - intros H j Hj. apply H. rewrite <- combine_nth by (symmetry; exact Lr). apply nth_In. rewrite combine_length. lia.
    - intros H m r Hin. apply (In_nth _ _ (0, 0)) in Hin. destruct Hin as (j & Hj & Ej). rewrite combine_length in Hj. rewrite combine_nth in Ej by (symmetry; exact Lr).
      assert (nth j ms 0 = m) by congruence. assert (nth j rs 0 = r) by congruence. subst m r. apply H. lia. }
  assert (Fin : forall (P : nat -> Z) m0, ~ (forall j, (j < m0)%nat -> P j <> 0) -> exists j, (j < m0)%nat /\ P j = 0).
  { intros P m0. induction m0 as [|m0 IH]; intros H; [exfalso; apply H; lia|]. destruct (Z.eq_dec (P m0) 0) as [E0|E0]; [exists m0; split; [lia|exact E0]|].
    destruct IH as (j & Hj & Ej); [|exists j; split; [lia|exact Ej]]. intros X. apply H. intros j Hj. destruct (Nat.eq_dec j m0) as [->|]; [exact E0|apply X; lia]. }
  destruct (system_facts _ _ _ _ _ _ _ _ _ _ _ _ L Sy) as [_ _ _ _ _ _ _ _ _ _ PO' _ _ _ _ _].
  split; [|split].
  - intros ND. assert (X : exists j, (j < length ms)%nat /\ (mv ms j + k + y * rv rs j) mod ec_order C = 0) by (apply Fin; intros X; apply ND, Dj, X).
    exact (response_zero flag C sha b n s xs sf_W0 sf_g0 sf_k0 sf_len0 L sf_sec0 sf_chal0 sf_bound0 csk sf_sv0 sf_sp0 sf_sx0 ok oy k y Hok Hoy Rk Ry ms rs Lr Hl Hm Hr e rq E2 E3 pk cm cr e2 X).
  - intros Df0 NDm. pose proof (proj1 Dj Df0) as Df. destruct (response_cases flag C sha b n s xs sf_W0 sf_g0 sf_k0 sf_len0 PO' sf_un0 L sf_sec0 sf_chal0 sf_base0 sf_bound0 csk sf_sv0 sf_sp0 sf_sx0 ok oy k y Hok Hoy Rk Ry ms rs Lr Hl Hm Hr e rq st E2 E3 E4 pk cm cr e2 Df Hcm Hcr) as [R1 _].
    apply R1. apply (Fin (fun j => s_betas e2 j mod ec_order C)). exact NDm.
  - intros Df0 Dm. pose proof (proj1 Dj Df0) as Df. destruct (response_cases flag C sha b n s xs sf_W0 sf_g0 sf_k0 sf_len0 PO' sf_un0 L sf_sec0 sf_chal0 sf_base0 sf_bound0 csk sf_sv0 sf_sp0 sf_sx0 ok oy k y Hok Hoy Rk Ry ms rs Lr Hl Hm Hr e rq st E2 E3 E4 pk cm cr e2 Df Hcm Hcr) as [_ R2].
    destruct (R2 Dm) as (rsp & pf2 & X1 & X2 & Ps & X3 & X4). exists rsp, pf2, Ps. repeat (split; [assumption|]). assumption.
Qed.
Print Assumptions C50_evaluation.

(** A run with three messages in two ciphertexts: the proofs verify and the extracted points are the values of the function. *)
Definition exb_keys {A} (k : bb toy -> cs_private -> bb_public -> bb_private -> outcome A) : outcome A :=
  exb_objects (fun b csk => let* keys := bb_generate_keys false toy b 1000 2000 (fun i => [7; Z.of_nat i + 5]) (fun i => [Z.of_nat i + 2]) in k b csk (fst keys) (snd keys)).
Definition exb_e (r : Z) : req_entropy := let f k := fun i => 1000 * k + 17 * Z.of_nat i in
  {| e_a := f 1; e_b := f 2; e_enc := fun i => r + Z.of_nat i; e_ao := f 4; e_bo := 5000; e_zal := 6000; e_zga := 7000;
     d_m := f 8; d_r := f 9; d_a := f 10; d_ao := f 11; d_b := f 12; d_al := f 13; d_ga := f 14;
     d_mo := 15000; d_ro := 16000; d_bo := 17000; d_al1 := 18000; d_al2 := 19000; d_ga1 := 20000; d_ga2 := 21000; d_enc := fun i => 5 + 3 * Z.of_nat i |}.
Definition exb_com (ms : list Z) (r : Z) : Z := commitment (pp_gs exb_pp) (pp_h exb_pp) (pp_n exb_pp) ms r.
Definition exb_request (ms rs : list Z) (e : req_entropy) (b : bb toy) (pk : bb_public) : outcome (bb_request * req_proof * list bytes) :=
  bb_request_and_proof false toy (const_hash x35) b ms rs pk (exb_com ms 50) 50 (exb_com rs 60) 60 e.
Example C50_run_ex : exb_keys (fun b csk pk sk => let ms := [5; 20; 33] in let rs := [7; 0; 78] in let cm := exb_com ms 50 in let cr := exb_com rs 60 in
  let* x := exb_request ms rs (exb_e 3) b pk in let rq := fst (fst x) in let pf := snd (fst x) in
  let* _ := bb_verify_request false toy (const_hash x35) b pk rq pf cm cr in
  let* z := bb_respond false toy (const_hash x35) b rq pk cm cr csk {| s_open := 3; s_betas := fun i => 100 + Z.of_nat i; s_xs := fun i => 500; s_dopen := 99 |} in
  let* _ := bb_verify_response false toy (const_hash x35) b pk (fst z) (snd z) rq cm cr in
  let* Ps := bb_extract toy (fst z) (snd x) in
  let k := of_bytes (bsk_k sk) in let y := of_bytes (bsk_y sk) in
  Ok (k, y, length (rq_cts rq), map (fun mrP => peqb toy (pmul toy (fst (fst mrP) + k + y * snd (fst mrP)) (snd mrP)) (pgen toy)) (combine (combine ms rs) Ps)))
  = Ok (65, 51, 2%nat, [true; true; true]).
Proof. vm_compute. reflexivity. Qed.
(** Failing cases: randomness 7 shares a factor with 77; 14 + 65 is the order; 79 is a dummy that vanishes. *)
Example C50_failures_ex :
  exb_keys (fun b csk pk sk => exb_request [5] [7] (exb_e 7) b pk) = Err InvalidArgument /\
  exb_keys (fun b csk pk sk => let* x := exb_request [14] [0] (exb_e 3) b pk in
    bb_respond false toy (const_hash x35) b (fst (fst x)) pk 1 1 csk {| s_open := 3; s_betas := fun i => 100; s_xs := fun i => 500; s_dopen := 99 |}) = Err InvalidArgument /\
  exb_keys (fun b csk pk sk => let* x := exb_request [15] [0] (exb_e 3) b pk in
    bb_respond false toy (const_hash x35) b (fst (fst x)) pk 1 1 csk {| s_open := 3; s_betas := fun i => 79; s_xs := fun i => 500; s_dopen := 99 |}) = Err Internal.
Proof. split; [|split]; vm_compute; reflexivity. Qed.
