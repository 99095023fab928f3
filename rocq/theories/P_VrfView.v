(** C97: what the verifier of the verifiable random function sees shows nothing but the function values. *)
From Coq Require Import Znumtheory.
From Verif Require Import Base M_BigNum L_BigNum M_Num L_Mod L_Num L_NT M_EC L_EC L_Cipher M_Proto M_Pedersen M_Wire M_VRF S_Exp S_Pedersen S_VRF L_Exp L_CS L_Protocol L_Pedersen L_VRF L_Toy
  S_Hide L_Hide S_HideMask L_HideCom L_HideKey L_HideMix L_HideMask L_HideView P_Pedersen P_VRF P_Hide P_HideCom.

(** Everything a verifier receives from a holder with a new key and m messages: the public key with its proof, a commitment to the messages, the function values and their proof.
    The draws: the openings of the two commitments, two dummy values for the key proof, m + 2 dummy values for the proof of the values. *)
Definition vrf_bounds (C : ec) (v : dy_vrf C) (m : nat) : list Z :=
  let n := pp_n (pd_par (dv_ped C v)) in let t := 2 ^ (dp_chal (dv_par C v) + dp_sec (dv_par C v)) in let q := ec_order C in
  [n; n] ++ [q * t; n * t] ++ (q * t :: repeat (q * t) m ++ [n * t]).
Definition vrf_view (C : ec) (sha512 : bytes -> bytes) (v : dy_vrf C) (rk : Z) (ms : list Z) (ds : list Z) : outcome (bytes * keys_proof * Z * list (pt C) * apply_proof) :=
  let* (pk, sk, kp) := dy_generate C sha512 v rk (nth 0 ds 0) (nth 2 ds 0) (nth 3 ds 0) in
  let* evals := dy_apply C v ms sk in
  let* (com, opn) := ped_commit (dv_ped C v) ms (nth 1 ds 0) in
  let* ap := dy_prove_apply C sha512 v ms evals pk sk com opn (nth 4 ds 0) (fun i => nth (5 + i) ds 0) (nth (5 + length ms) ds 0) in
  Ok (pk, kp, com, evals, ap).

(** The same made up from the public parameters, the function values and the answer c of the hash function alone: both commitments are random powers of h. *)
Definition vrf_made_up (C : ec) (v : dy_vrf C) (evals : list (pt C)) (c : Z) (ds : list Z) : outcome (bytes * keys_proof * Z * list (pt C) * apply_proof) :=
  let pp := pd_par (dv_ped C v) in
  let com := pp_h pp ^ nth 1 ds 0 mod pp_n pp in
  let* pk := to_bytes (pp_h pp ^ nth 0 ds 0 mod pp_n pp) in
  let* kp := simulated_keys_proof c (part 2 2 ds) in
  let* ap := simulated_apply_proof C v evals pk com c (part 4 (2 + length evals) ds) in
  Ok (pk, kp, com, evals, ap).

Lemma distance_scale {R} num k j bs (f g : list Z -> R) : 0 <= k -> 0 <= j -> within_distance num k bs f g -> within_distance (num * 2 ^ j) (j + k) bs f g.
Proof.
  intros Hk Hj H test. specialize (H test). rewrite Z.pow_add_r by lia. assert (0 < 2 ^ j) by (apply Z.pow_pos_nonneg; lia). set (x := Z.abs _) in *. set (y := tuples bs) in *.
  transitivity (2 ^ j * (2 ^ k * x)); [lia|]. transitivity (2 ^ j * (num * y)); [apply Z.mul_le_mono_nonneg_l; lia|lia].
Qed.

(** For every key and all messages: the view is within ((m + 5) 2^-security + 2 u 2^-(challenge + security)) of one made up from the function values alone. *)
Theorem C97_view : forall C sha512 p pp num v rk ms c hord u, ec_laws C -> vrf_created C p pp num v ->
  Forall (fun g => Z.gcd g (pp_n pp) = 1) (pp_gs pp) -> Z.gcd (pp_h pp) (pp_n pp) = 1 ->
  let key := generate_private_key C rk in let m := length ms in let t := dp_chal p + dp_sec p in
  Forall (fun x => 0 <= x < ec_order C) ms -> (m <= length (pp_gs pp))%nat -> (forall x, In x ms -> (key + x) mod ec_order C <> 0) ->
  powers_of (pp_h pp) (pp_n pp) (pp_gs pp) -> pp_h pp ^ hord mod pp_n pp = 1 -> nearly_periods t u hord (pp_n pp) -> oracle_says sha512 (dp_chal p) c ->
  exists evals, Forall2 (vrf_value C (dv_base C v) key) ms evals /\
    within_distance ((Z.of_nat m + 5) * 2 ^ dp_chal p + 2 * u) t (vrf_bounds C v m) (vrf_view C sha512 v rk ms) (vrf_made_up C v evals c).
Proof.
  intros C sha p pp num v rk ms c hord u L Hv Hg Hh key m t Hms Hm Hnz Hpow Hord Hper HO.
  destruct (vrf_created_ok C p pp num v L Hv) as (Ep & Epp & PO & Hs & Hch & Hbase). subst p pp.
  set (pp := pd_par (dv_ped C v)) in *. set (N := pp_n pp) in *. set (q := ec_order C) in *. set (chal := dp_chal (dv_par C v)) in *. set (sec := dp_sec (dv_par C v)) in *. set (T := 2 ^ t).
  assert (HN : 1 < N) by apply PO. pose proof (order_gt1 C L) as Hq. fold q in Hq. assert (HT : 0 < T) by (apply Z.pow_pos_nonneg; lia).
  assert (Hkey : 0 < key < q) by (apply private_key_range; exact L).
  destruct (to_bytes_of key ltac:(lia)) as (kb & Ekb & Vkb).
  assert (EV : exists evals, Forall2 (vrf_value C (dv_base C v) key) ms evals /\ forall sk, of_bytes (dk_key sk) = key -> dy_apply C v ms sk = Ok evals).
  { destruct (C49_apply C v ms {| dk_key := kb; dk_open := [] |} L) as [A _]. cbn [dk_key] in A. rewrite Vkb in A. destruct (A Hnz) as (ps & E & F). exists ps. split; [exact F|].
    intros sk Hsk. unfold dy_apply in E |- *. cbn [dk_key] in E. rewrite Vkb in E. rewrite Hsk. exact E. }
  destruct EV as (evals & Hev & Eapply). exists evals. split; [exact Hev|]. pose proof (Forall2_len _ _ _ Hev) as Lev.
  assert (Nms : nonneg ms) by (eapply Forall_impl; [|exact Hms]; cbn beta; lia).
  set (K := [q * T; N * T]). set (P := q * T :: repeat (q * T) m ++ [N * T]).
  assert (HqT : 0 <= q * T) by (apply Z.mul_nonneg_nonneg; lia). assert (HNT : 0 <= N * T) by (apply Z.mul_nonneg_nonneg; lia).
  assert (NA : Forall (fun x => 0 <= x) [N; N]) by (repeat constructor; lia). assert (NK : Forall (fun x => 0 <= x) K) by (repeat constructor; assumption).
  assert (NP : Forall (fun x => 0 <= x) P) by (constructor; [exact HqT|]; apply Forall_app; split; [apply Forall_repeat; exact HqT|repeat constructor; exact HNT]).
  assert (LP : length P = (2 + m)%nat) by (unfold P; cbn [length]; rewrite app_length, repeat_length; cbn [length]; lia).
  change (vrf_bounds C v m) with ([N; N] ++ K ++ P).
  set (keycom := fun o => commitment (pp_gs pp) (pp_h pp) N (repeat key (length (pp_gs pp))) o). set (mcom := fun o => commitment (pp_gs pp) (pp_h pp) N ms o).
  assert (Rk : forall o, 0 <= keycom o < N) by (intros; apply Z.mod_pos_bound; lia). assert (Rm : forall o, 0 <= mcom o < N) by (intros; apply Z.mod_pos_bound; lia).
  assert (Ecom : forall o, 0 <= o < N -> ped_commit_with_rand (dv_ped C v) ms o = Ok (mcom o)).
  { intros o Ho. apply (commit_ok (dv_ped C v) ms o PO). split; [exact Hm|]. split; [exact Nms|lia]. }
  (* the view once both commitments are known *)
  set (final := fun (kc mc : Z) (kd pd : list Z) => let* pk := to_bytes kc in let* kp := simulated_keys_proof c kd in let* ap := simulated_apply_proof C v evals pk mc c pd in Ok (pk, kp, mc, evals, ap)).
  set (stage1 := fun ds => let o1 := nth 0 ds 0 in let o2 := nth 1 ds 0 in let* pk := to_bytes (keycom o1) in let* ob := to_bytes o1 in let* kp := simulated_keys_proof c (part 2 2 ds) in
    let* ap := dy_prove_apply C sha v ms evals pk {| dk_key := kb; dk_open := ob |} (mcom o2) o2 (nth 4 ds 0) (fun i => nth (5 + i) ds 0) (nth (5 + m) ds 0) in Ok (pk, kp, mcom o2, evals, ap)).
  set (stage2 := fun ds => final (keycom (nth 0 ds 0)) (mcom (nth 1 ds 0)) (part 2 2 ds) (part 4 (2 + m) ds)).
  replace ((Z.of_nat m + 5) * 2 ^ chal + 2 * u) with (2 * 2 ^ chal + ((Z.of_nat m + 3) * 2 ^ chal + 2 * u)) by ring.
  apply (distance_trans _ _ _ _ _ stage1); [|apply (distance_trans _ _ _ _ _ stage2)].
  - apply distance_scale; [lia|lia|]. apply distance_inner; [exact NA|]. intros a Da. pose proof (drawn_len _ _ Da) as La. destruct a as [|o1 [|o2 [|? ?]]]; try discriminate La. clear La.
    inversion Da as [|? ? ? ? R1 Da2]; subst. inversion Da2 as [|? ? ? ? R2 _]; subst. clear Da Da2.
    apply distance_outer; [exact NP|]. intros d Dd. pose proof (drawn_len _ _ Dd) as Ld.
    destruct (C65_key_proof_hides C (dv_par C v) pp num v rk o1 L Hv) as (pk & sk & Hk1 & Hk2 & Epk & D). specialize (D sha c HO). fold q N chal sec t T in D. fold K in D. fold N in Hk2, Epk. rewrite Z.mod_small in Hk2 by exact R1. rewrite Hk1, Hk2 in Epk. fold key in Hk1, Epk. change (to_bytes (keycom o1) = Ok pk) in Epk.
    set (F := fun g : outcome (bytes * dy_private * keys_proof) => let* (pk, sk, kp) := g in let* ev := dy_apply C v ms sk in
      let* ap := dy_prove_apply C sha v ms ev pk sk (mcom o2) o2 (nth 0 d 0) (fun i => nth (1 + i) d 0) (nth (1 + m) d 0) in Ok (pk, kp, mcom o2, ev, ap)).
    pose proof (distance_apply _ _ _ _ _ F D) as D'. cbn beta in D'.
    eapply distance_ext; [| |exact D'].
    + intros k Lk Rk'. destruct k as [|k1 [|k2 [|? ?]]]; try discriminate Lk. unfold vrf_view, F. cbn [app nth Nat.add].
      destruct (dy_generate C sha v rk o1 k1 k2) as [[[pk' sk'] kp']|?| | | ]; cbn [bind]; try reflexivity. destruct (dy_apply C v ms sk') as [ev|?| | | ]; cbn [bind]; try reflexivity.
      unfold ped_commit. fold pp N. rewrite rand_ok by lia. cbn [bind]. rewrite (Z.mod_small o2) by exact R2. rewrite Ecom by exact R2. reflexivity.
    + intros k Lk Rk'. destruct k as [|k1 [|k2 [|? ?]]]; try discriminate Lk. unfold stage1, F. cbn [app nth Nat.add]. rewrite Epk. cbn [bind]. destruct (to_bytes_of o1 ltac:(lia)) as (ob & Eob & Vob). rewrite Eob. cbn [bind].
      change (part 2 2 (o1 :: o2 :: k1 :: k2 :: d)) with [k1; k2]. destruct (simulated_keys_proof c [k1; k2]) as [kp|?| | | ]; cbn [bind]; try reflexivity. rewrite (Eapply sk Hk1). cbn [bind].
      unfold dy_prove_apply. cbn [dk_key dk_open]. rewrite Vkb, Vob, Hk1, Hk2. reflexivity.
  - apply distance_scale; [lia|lia|]. rewrite app_assoc. apply distance_inner; [apply Forall_app; split; assumption|]. intros ak Dak. pose proof (drawn_len _ _ Dak) as Lak.
    destruct ak as [|o1 [|o2 [|k1 [|k2 [|? ?]]]]]; try discriminate Lak. clear Lak. inversion Dak as [|? ? ? ? R1 Da2]; subst. inversion Da2 as [|? ? ? ? R2 _]; subst. clear Dak Da2.
    destruct (to_bytes_of (keycom o1) ltac:(apply Rk)) as (pk & Epk & Vpk). destruct (to_bytes_of o1 ltac:(lia)) as (ob & Eob & Vob).
    pose proof (C65_apply_proof_hides C sha (dv_par C v) pp num v ms evals pk {| dk_key := kb; dk_open := ob |} (mcom o2) o2 c L Hv Hg Hh) as D. cbv zeta in D. cbn [dk_key dk_open] in D. rewrite Vkb, Vob in D.
    specialize (D Hkey ltac:(apply R1) Vpk Hms Hm ltac:(apply R2) (Eapply {| dk_key := kb; dk_open := ob |} Vkb) (Ecom o2 R2) HO). fold q N chal sec t T m in D. fold P in D.
    set (F := fun a : outcome apply_proof => let* kp := simulated_keys_proof c [k1; k2] in let* ap := a in Ok (pk, kp, mcom o2, evals, ap)).
    pose proof (distance_apply _ _ _ _ _ F D) as D'. cbn beta in D'.
    eapply distance_ext; [| |exact D'].
    + intros d _ _. unfold stage1, F. cbn [app nth Nat.add]. rewrite Epk, Eob. cbn [bind]. reflexivity.
    + intros d Ld _. unfold stage2, final, F. cbn [app nth]. rewrite Epk. cbn [bind]. change (part 2 2 (o1 :: o2 :: k1 :: k2 :: d)) with [k1; k2].
      assert (E4 : part 4 (2 + m) (o1 :: o2 :: k1 :: k2 :: d) = d). { rewrite LP in Ld. rewrite <- Ld. rewrite <- (app_nil_r d) at 2. exact (part_mid [o1; o2; k1; k2] d []). }
      rewrite E4. reflexivity.
  - apply distance_outer; [apply Forall_app; split; assumption|]. intros kd Dkd. destruct (part_drawn _ _ _ Dkd) as (k & d & -> & Dk & Dd). pose proof (drawn_len _ _ Dk) as Lk. pose proof (drawn_len _ _ Dd) as Ld. rewrite LP in Ld.
    destruct k as [|k1 [|k2 [|? ?]]]; try discriminate Lk.
    destruct (multi_exp_power (pp_h pp) N (pp_gs pp) (repeat key (length (pp_gs pp))) ltac:(lia) Hpow ltac:(apply Forall_repeat; lia)) as (w1 & Hw1 & E1).
    destruct (multi_exp_power (pp_h pp) N (pp_gs pp) ms ltac:(lia) Hpow Nms) as (w2 & Hw2 & E2). destruct Hper as (HE & Hu & Hb & Hr).
    set (pw := fun x => pp_h pp ^ (x mod hord) mod N).
    assert (Epw : forall x, 0 <= x -> pp_h pp ^ x mod N = pw x).
    { intros x Hx. unfold pw. apply eqmod_eq; [lia|]. pose proof (Z.mod_pos_bound x hord HE). pose proof (Z.div_pos x hord Hx HE). rewrite (Z.div_mod x hord) at 1 by lia.
      rewrite (Z.pow_add_r _ (hord * (x / hord))), (Z.pow_mul_r _ hord) by (try lia; apply Z.mul_nonneg_nonneg; lia).
      assert (O1 : eqmod N (pp_h pp ^ hord) 1) by (apply eq_eqmod; rewrite Hord, Z.mod_1_l by lia; reflexivity).
      rewrite (eqmod_pow N _ _ (x / hord) O1), Z.pow_1_l, Z.mul_1_l by lia. reflexivity. }
    assert (Eper : forall l i, pw (nth i (every_period hord l) 0) = pw (nth i l 0)).
    { intros l i. unfold every_period, pw. pose proof (map_nth (fun x => x mod hord) l 0 i) as Q. cbn beta in Q. rewrite Z.mod_0_l in Q by lia. rewrite Q, Z.mod_mod by lia. reflexivity. }
    assert (C1 : forall o, 0 <= o -> keycom o = pw (o + w1)).
    { intros o Ho. unfold keycom, commitment. rewrite <- Epw by lia. apply eqmod_eq; [lia|]. rewrite E1, (Z.pow_add_r _ o) by lia. exists 0. ring. }
    assert (C2 : forall o, 0 <= o -> mcom o = pw (o + w2)).
    { intros o Ho. unfold mcom, commitment. rewrite <- Epw by lia. apply eqmod_eq; [lia|]. rewrite E2, (Z.pow_add_r _ o) by lia. exists 0. ring. }
    pose proof (periodic_close t u hord N 2 [w1; w2] (fun o => final (pw (nth 0 o 0)) (pw (nth 1 o 0)) [k1; k2] d) ltac:(lia) (conj HE (conj Hu (conj Hb Hr))) eq_refl ltac:(repeat constructor; assumption)
      ltac:(intros o; cbn beta; rewrite !Eper; reflexivity)) as D. change (Z.of_nat 2) with 2 in D. change (repeat N 2) with [N; N] in D. cbn beta in D.
    assert (E4 : forall o1 o2, part 4 (2 + m) (o1 :: o2 :: k1 :: k2 :: d) = d). { intros o1 o2. rewrite <- Ld. rewrite <- (app_nil_r d) at 2. exact (part_mid [o1; o2; k1; k2] d []). }
    eapply distance_ext; [| |exact D].
    + intros o Lo Ro. destruct o as [|o1 [|o2 [|? ?]]]; try discriminate Lo. inversion Ro as [|? ? ? ? R1 Ro2]; subst. inversion Ro2 as [|? ? ? ? R2 _]; subst.
      unfold stage2. cbn [app nth shift]. rewrite E4. change (part 2 2 (o1 :: o2 :: k1 :: k2 :: d)) with [k1; k2]. rewrite C1, C2 by lia. reflexivity.
    + intros o Lo Ro. destruct o as [|o1 [|o2 [|? ?]]]; try discriminate Lo. inversion Ro as [|? ? ? ? R1 Ro2]; subst. inversion Ro2 as [|? ? ? ? R2 _]; subst.
      unfold vrf_made_up, final. fold pp N. rewrite <- Lev. fold m. cbn [app nth]. rewrite E4. change (part 2 2 (o1 :: o2 :: k1 :: k2 :: d)) with [k1; k2]. rewrite !Epw by lia. reflexivity.
Qed.
Print Assumptions C97_view.

(** Two holders with different keys and messages whose function values are the same cannot be told apart. *)
Theorem C97_only_the_values : forall C sha512 p pp num v rk ms rk' ms' evals c hord u, ec_laws C -> vrf_created C p pp num v ->
  Forall (fun g => Z.gcd g (pp_n pp) = 1) (pp_gs pp) -> Z.gcd (pp_h pp) (pp_n pp) = 1 ->
  let m := length ms in let t := dp_chal p + dp_sec p in
  Forall (fun x => 0 <= x < ec_order C) (ms ++ ms') -> (m <= length (pp_gs pp))%nat ->
  Forall2 (vrf_value C (dv_base C v) (generate_private_key C rk)) ms evals -> Forall2 (vrf_value C (dv_base C v) (generate_private_key C rk')) ms' evals ->
  powers_of (pp_h pp) (pp_n pp) (pp_gs pp) -> pp_h pp ^ hord mod pp_n pp = 1 -> nearly_periods t u hord (pp_n pp) -> oracle_says sha512 (dp_chal p) c ->
  within_distance (2 * ((Z.of_nat m + 5) * 2 ^ dp_chal p + 2 * u)) t (vrf_bounds C v m) (vrf_view C sha512 v rk ms) (vrf_view C sha512 v rk' ms').
Proof.
  intros C sha p pp num v rk ms rk' ms' evals c hord u L Hv Hg Hh m t Hms Hm V V' Hpow Hord Hper HO. apply Forall_app in Hms. destruct Hms as [Hms Hms'].
  pose proof (Forall2_len _ _ _ V) as L1. pose proof (Forall2_len _ _ _ V') as L2.
  assert (NZ : forall key xs es, Forall2 (vrf_value C (dv_base C v) key) xs es -> forall x, In x xs -> (key + x) mod ec_order C <> 0).
  { intros key xs es F. induction F as [|x e xs es [H _] F IH]; intros y Hy; [destruct Hy|]. destruct Hy as [<-|Hy]; [exact H|apply IH; exact Hy]. }
  assert (U : forall key xs es es', Forall2 (vrf_value C (dv_base C v) key) xs es -> Forall2 (vrf_value C (dv_base C v) key) xs es' -> es = es').
  { intros key xs es es' F. revert es'. induction F as [|x e xs es H F IH]; intros es' F'; inversion F' as [|? e' ? es'' H' F'']; subst; [reflexivity|]. f_equal; [|apply IH; exact F''].
    exact (proj1 (C49_function C (dv_base C v) key x x e e' L H H') eq_refl). }
  destruct (C97_view C sha p pp num v rk ms c hord u L Hv Hg Hh Hms Hm (NZ _ _ _ V) Hpow Hord Hper HO) as (ev & Fv & D).
  destruct (C97_view C sha p pp num v rk' ms' c hord u L Hv Hg Hh Hms' ltac:(lia) (NZ _ _ _ V') Hpow Hord Hper HO) as (ev' & Fv' & D').
  rewrite (U _ _ _ _ Fv V) in D. rewrite (U _ _ _ _ Fv' V') in D'. cbv zeta in D, D'. replace (length ms') with m in D' by (unfold m; lia). fold m t in D. fold t in D'.
  set (x := (Z.of_nat m + 5) * 2 ^ dp_chal p + 2 * u) in *. replace (2 * x) with (x + x) by ring. eapply distance_trans; [exact D|]. apply distance_sym. exact D'.
Qed.
Print Assumptions C97_only_the_values.

(** A case that meets all hypotheses: keys 11 and 10, messages 5 and 6. *)
Definition exv_pp : ped_params := {| pp_gs := [8; 128]; pp_h := 2; pp_n := 8589934591 |}.
Example C97_ex : exists v e sha, vrf_created toy ex_dp exv_pp 2 v /\ Forall (fun g => Z.gcd g (pp_n exv_pp) = 1) (pp_gs exv_pp) /\ Z.gcd (pp_h exv_pp) (pp_n exv_pp) = 1 /\
  generate_private_key toy 10 = 11 /\ generate_private_key toy 9 = 10 /\
  Forall2 (vrf_value toy (dv_base toy v) (generate_private_key toy 10)) [5] [e] /\ Forall2 (vrf_value toy (dv_base toy v) (generate_private_key toy 9)) [6] [e] /\
  powers_of (pp_h exv_pp) (pp_n exv_pp) (pp_gs exv_pp) /\ pp_h exv_pp ^ 33 mod pp_n exv_pp = 1 /\ nearly_periods (dp_chal ex_dp + dp_sec ex_dp) 1 33 (pp_n exv_pp) /\
  oracle_says sha (dp_chal ex_dp) 37.
Proof.
  assert (X : exists pd, created exv_pp 2 pd) by (apply (C47_create exv_pp 2); cbn; lia). destruct X as (pd & Hpd). set (v := {| dv_par := ex_dp; dv_base := pgen toy; dv_ped := pd |} : dy_vrf toy).
  assert (Hv : vrf_created toy ex_dp exv_pp 2 v).
  { assert (Eb : point_of_bytes toy (dp_base ex_dp) = Ok (pgen toy)) by (apply (point_of_bytes_enc toy toy_laws); apply (gen_not_inf toy toy_laws)). split; [|split; [exact Hpd|cbn; lia]]. unfold dy_create. rewrite Eb. reflexivity. }
  destruct (to_bytes_of 11 ltac:(lia)) as (kb & _ & Vk). destruct (C49_apply toy v [5] {| dk_key := kb; dk_open := [] |} toy_laws) as [A _]. cbn [dk_key] in A. rewrite Vk in A.
  destruct A as (ps & _ & F); [intros m [<-|[]]; discriminate|]. inversion F as [|? e ? ? V F']; subst. inversion F'; subst.
  destruct (oracle_can_say (dp_chal ex_dp) 37) as (sha & Hs); [cbn; lia|cbn; lia|]. exists v, e, sha.
  split; [exact Hv|]. split; [repeat constructor|]. split; [reflexivity|]. split; [reflexivity|]. split; [reflexivity|]. split; [constructor; [exact V|constructor]|]. split; [constructor; [exact V|constructor]|].
  split; [constructor; [exists 3; split; [lia|reflexivity]|constructor; [exists 7; split; [lia|reflexivity]|constructor]]|]. split; [reflexivity|]. split; [|exact Hs].
  unfold nearly_periods. cbn [exv_pp pp_n ex_dp dp_chal dp_sec]. change (8589934591 mod 33) with 7. cbn. lia.
Qed.
