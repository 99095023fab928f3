(** C96, continued: the keys of the two pseudorandom function protocols are drawn without bias, both parts together, whatever else is drawn for the proof or the encryptions beside them. *)
From Verif Require Import Base M_BigNum L_BigNum M_Num L_Num L_Mod L_NT M_EC L_EC M_DJ M_CS L_CS M_Pedersen S_Pedersen L_Pedersen P_Pedersen M_VRF L_VRF P_VRF M_BB L_BB P_BB
  S_Hide L_Hide L_HideKey L_HideMix L_HideView S_Uniform L_Uniform P_Uniform L_Toy.

Lemma uniform_nothing : uniform same_list 1 [] (fun _ => Ok []) (fun l => l = []).
Proof.
  split; [lia|]. split; intros l Hl; unfold frequency; cbn [count gives].
  - subst l. reflexivity.
  - destruct l; [congruence|reflexivity].
Qed.
Lemma uniform_two b1 b2 c1 c2 (f : list Z -> outcome (list Z)) : 0 < b1 -> 0 < b2 -> (forall d1 d2, 0 <= d1 < b1 -> 0 <= d2 < b2 -> f [d1; d2] = Ok [d1 + c1; d2 + c2]) ->
  uniform same_list 1 [b1; b2] f (fun l => exists x y, l = [x; y] /\ c1 <= x < c1 + b1 /\ c2 <= y < c2 + b2).
Proof.
  intros H1 H2 Hf.
  pose (one (b c : Z) := fun ds : list Z => Ok (hd 0 ds + c) : outcome Z).
  assert (U : forall b c, 0 < b -> uniform Z.eqb 1 [b] (one b c) (fun x => c <= x < c + b)) by (intros b c Hb; apply uniform_shift; [exact Hb|reflexivity]).
  assert (D : forall b c x, c <= x < c + b \/ ~ c <= x < c + b) by (intros; lia).
  pose proof (uniform_cons _ _ _ _ _ _ _ _ (D b2 c2) (U b2 c2 H2) uniform_nothing) as V.
  pose proof (uniform_cons _ _ _ _ _ _ _ _ (D b1 c1) (U b1 c1 H1) V) as W. cbn [app] in W. change (1 * (1 * 1)) with 1 in W.
  eapply uniform_ext; [|eapply uniform_good; [|exact W]].
  - intros ds Hds. inversion Hds as [|? d1 ? r1 Hd1 Hr1]; subst. inversion Hr1 as [|? d2 ? r2 Hd2 Hr2]; subst. inversion Hr2; subst. rewrite Hf by assumption. reflexivity.
  - intros l.
    assert (G : match l with [] => False | x :: xs => c1 <= x < c1 + b1 /\ match xs with [] => False | y :: ys => c2 <= y < c2 + b2 /\ ys = [] end end <-> exists x y, l = [x; y] /\ c1 <= x < c1 + b1 /\ c2 <= y < c2 + b2).
    { split.
      - destruct l as [|x [|y ys]]; try tauto. intros (A & B & ->). exists x, y. auto.
      - intros (x & y & -> & A & B). auto. }
    first [exact G|symmetry; exact G].
Qed.

(** The key of the Dodis-Yampolskiy function and the opening of the commitment that is its public key: every pair of a number in 1 .. order-1 and a number in 0 .. N-1 is equally likely. *)
Theorem C96_vrf_keys : forall C sha512 p pp num v rdk rdo, ec_laws C -> vrf_created C p pp num v ->
  Forall (fun g => Z.gcd g (pp_n pp) = 1) (pp_gs pp) -> Z.gcd (pp_h pp) (pp_n pp) = 1 ->
  unbiased same_list [ec_order C - 1; pp_n pp]
    (fun ds => let* r := dy_generate C sha512 v (nth 0 ds 0) (nth 1 ds 0) rdk rdo in Ok [of_bytes (dk_key (snd (fst r))); of_bytes (dk_open (snd (fst r)))])
    (fun l => exists key opening, l = [key; opening] /\ 0 < key < ec_order C /\ 0 <= opening < pp_n pp).
Proof.
  intros C sha p pp num v rdk rdo L Hv Hg Hh. pose proof (order_gt1 C L) as N1. destruct (vrf_created_ok C p pp num v L Hv) as (Ep & Epp & PO & _). assert (HN : 1 < pp_n pp) by (subst pp; apply PO).
  eapply uniform_unbiased. eapply uniform_good; [|apply (uniform_two (ec_order C - 1) (pp_n pp) 1 0)]; [|lia|lia|].
  - intros l. split; intros (x & y & -> & A & B); exists x, y; (split; [reflexivity|lia]).
  - intros d1 d2 H1 H2. cbn [nth]. destruct (C49_keys_honest C sha p pp num v d1 d2 rdk rdo L Hv Hg Hh) as (pk & sk & pf & E & _). rewrite E. cbn [bind fst snd].
    assert (Q : of_bytes (dk_key sk) = d1 + 1 /\ of_bytes (dk_open sk) = d2 + 0); [|destruct Q as [-> ->]; reflexivity].
    unfold dy_generate in E. apply bind_ok in E. destruct E as ((com, opn) & Ec & E). apply bind_ok in E. destruct E as (pkb & _ & E). apply bind_ok in E. destruct E as (kb & Ek & E). apply bind_ok in E. destruct E as (ob & Eo & E).
    repeat (apply bind_ok in E; destruct E as (? & _ & E)). injection E as _ <- _. cbn [dk_key dk_open].
    unfold ped_commit in Ec. unfold generate_private_key in Ek. rewrite Z.mod_small in Ek by lia.
    apply to_bytes_ok in Ek. apply to_bytes_ok in Eo. destruct Ek as [_ ->], Eo as [_ ->]. split; [lia|].
    apply bind_ok in Ec. destruct Ec as (r & Er & Ec). apply bind_ok in Ec. destruct Ec as (c & _ & Ec). injection Ec as _ <-.
    rewrite Epp in Er. unfold generate_rand_less_than in Er. destruct (Z.leb_spec (pp_n pp) 0); [lia|]. injection Er as <-. rewrite Z.mod_small by exact H2. lia.
Qed.
Print Assumptions C96_vrf_keys.

(** The two secrets of the Boneh-Boyen function: every pair of numbers in 1 .. order-1 is equally likely. *)
Theorem C96_boneh_boyen_keys : forall flag C p b n s g xs ys csk pp num ek ey, ec_laws C -> bb_system flag C p b n s g xs ys csk pp num ->
  (forall i, (i < length ys)%nat -> (exists r, In r (ek i) /\ Z.gcd (r mod n) n = 1) /\ (exists r, In r (ey i) /\ Z.gcd (r mod n) n = 1)) ->
  unbiased same_list [ec_order C - 1; ec_order C - 1]
    (fun ds => let* r := bb_generate_keys flag C b (nth 0 ds 0) (nth 1 ds 0) ek ey in Ok [of_bytes (bsk_k (snd r)); of_bytes (bsk_y (snd r))])
    (fun l => exists k y, l = [k; y] /\ 0 < k < ec_order C /\ 0 < y < ec_order C).
Proof.
  intros flag C p b n s g xs ys csk pp num ek ey L Sy He. pose proof (order_gt1 C L) as N1.
  eapply uniform_unbiased. eapply uniform_good; [|apply (uniform_two (ec_order C - 1) (ec_order C - 1) 1 1)]; [|lia|lia|].
  - intros l. split; intros (x & y & -> & A & B); exists x, y; (split; [reflexivity|lia]).
  - intros d1 d2 H1 H2. cbn [nth]. destruct (C50_keys flag C p b n s g xs ys csk pp num d1 d2 ek ey L Sy He) as (pk & sk & E & _). rewrite E. cbn [bind fst snd].
    unfold bb_generate_keys in E. apply bind_ok in E. destruct E as (kb & Ek & E). apply bind_ok in E. destruct E as (yb & Ey & E). apply bind_ok in E. destruct E as (cts & _ & E). injection E as _ <-. cbn [bsk_k bsk_y].
    unfold generate_private_key in Ek, Ey. rewrite Z.mod_small in Ek, Ey by lia. apply to_bytes_ok in Ek. apply to_bytes_ok in Ey. destruct Ek as [_ ->], Ey as [_ ->]. do 2 f_equal; [lia|]. f_equal. lia.
Qed.
Print Assumptions C96_boneh_boyen_keys.

(** Objects that meet the hypotheses: those of the examples of C49 and C50. *)
Example C96_vrf_keys_ex : exists v, vrf_created toy ex_dp ex_pp 2 v /\ Forall (fun g => Z.gcd g (pp_n ex_pp) = 1) (pp_gs ex_pp) /\ Z.gcd (pp_h ex_pp) (pp_n ex_pp) = 1.
Proof.
  assert (X : exists pd, created ex_pp 2 pd) by (apply (C47_create ex_pp 2); cbn; lia). destruct X as (pd & Hpd). exists {| dv_par := ex_dp; dv_base := pgen toy; dv_ped := pd |}.
  split; [|split; [repeat constructor|reflexivity]]. assert (Eb : point_of_bytes toy (dp_base ex_dp) = Ok (pgen toy)) by (apply (point_of_bytes_enc toy toy_laws); apply (gen_not_inf toy toy_laws)).
  split; [|split; [exact Hpd|cbn; lia]]. unfold dy_create. rewrite Eb. reflexivity.
Qed.
Example C96_boneh_boyen_keys_ex : exists b csk, bb_system false toy exb_p b 77 4 exb_g exb_xs exb_ys csk exb_pp 2 /\
  (forall i, (i < length exb_ys)%nat -> (exists r, In r [7; Z.of_nat i + 5] /\ Z.gcd (r mod 77) 77 = 1) /\ (exists r, In r [Z.of_nat i + 2] /\ Z.gcd (r mod 77) 77 = 1)).
Proof.
  destruct exb_system as (b & csk & S). exists b, csk. split; [exact S|]. intros i Hi. cbn in Hi.
  destruct i as [|[|i]]; [| |lia]; (split; eexists; [split; [right; left; reflexivity|reflexivity]|split; [left; reflexivity|reflexivity]]).
Qed.
