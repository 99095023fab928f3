(** What ElGamal ciphertexts show about their contents (C83). *)
From Verif Require Import Base M_EC L_EC L_Toy L_Cipher M_ElGamal S_ElGamal L_ElGamal S_Hide L_Hide L_HideKey L_HideMix L_HideView S_Ddh L_Ddh P_Ddh S_Secrecy L_Secrecy.

(** The key combined from a fresh share and shares with known private keys. *)
Lemma combined C before after k : ec_laws C -> 0 <= k < ec_order C - 1 ->
  eg_combine C (map (fun r => fst (eg_generate C r)) (before ++ k :: after)) =
  Ok (joint C (L_ElGamal.zsum_list (map (generate_private_key C) (before ++ after))) (drawn_point C k)).
Proof.
  intros L Hk. set (keys := map (generate_private_key C) (before ++ k :: after)).
  assert (Es : map (fun r => fst (eg_generate C r)) (before ++ k :: after) = map (fun x => {| eg_g := pgen C; eg_y := pmul C x (pgen C) |}) keys).
  { unfold keys. rewrite map_map. apply map_ext. intros r. unfold eg_generate. cbn [fst]. rewrite (point_mul_eq C L). reflexivity. }
  rewrite Es. assert (Ez : L_ElGamal.zsum_list keys = (k + 1) + L_ElGamal.zsum_list (map (generate_private_key C) (before ++ after))).
  { unfold keys. rewrite !map_app, !zsum_app. cbn [map]. rewrite (key_draw C k Hk). change (L_ElGamal.zsum_list (k + 1 :: map (generate_private_key C) after)) with (k + 1 + L_ElGamal.zsum_list (map (generate_private_key C) after)). ring. }
  transitivity (Ok {| eg_g := pgen C; eg_y := pmul C (L_ElGamal.zsum_list keys) (pgen C) |}).
  - destruct keys as [|x keys'] eqn:Ek; [unfold keys in Ek; destruct before; discriminate|]. cbn [map eg_combine eg_g eg_y]. rewrite (shares_loop_ok C L). cbn [bind L_ElGamal.zsum_list fold_right]. rewrite (pmul_add C L). reflexivity.
  - unfold joint, drawn_point. rewrite Ez, (pmul_add C L). reflexivity.
Qed.
Lemma keys_nonneg C l : ec_laws C -> 0 <= L_ElGamal.zsum_list (map (generate_private_key C) l).
Proof. intros L. induction l as [|r l IH]; [cbn; lia|]. cbn [map L_ElGamal.zsum_list fold_right]. fold (L_ElGamal.zsum_list (map (generate_private_key C) l)). pose proof (private_key_range C L r). lia. Qed.

(** ** C83. An observer talks to an encrypter whose public key is combined from shares; of one share the observer does not know the private key, all others may be its own.  In each turn it
    asks for an encryption of one of two points of its choice, or a re-randomisation of one of two ciphertexts of its choice, depending on all earlier answers.  If all answers are about the
    first alternatives, it says yes for nearly as many draws as if all are about the second: the difference is bounded by the gaps of explicit Diffie-Hellman players, two for each turn, and by
    2 order - 1 out of (order - 1)^2 for each turn.  [ask] and [guess] are arbitrary functions, so they may depend on [before] and [after]. *)
Theorem C83_ciphertexts_hide : forall C before after turns ask guess, ec_laws C ->
  let says_yes second := S_Hide.count (draws C (1 + turns)) (fun ds => match ds with
    | k :: r => match eg_combine C (map (fun raw => fst (eg_generate C raw)) (before ++ k :: after)) with
        | Ok pk => guess pk (talk C pk ask second [] r)
        | _ => false end
    | _ => false end) in
  let known := fold_right Z.add 0 (map (fun raw => snd (eg_generate C raw)) (before ++ after)) in
  (ec_order C - 1) * Z.abs (says_yes false - says_yes true) <=
  secrecy_total C known ask guess turns + Z.of_nat turns * ((2 * ec_order C - 1) * tuples (draws C turns)).
Proof.
  intros C before after turns ask guess L says_yes known. pose proof (all_turns C L known (keys_nonneg C (before ++ after) L) ask guess turns) as H.
  replace (says_yes false) with (mixed C known ask guess turns turns). 1: replace (says_yes true) with (mixed C known ask guess turns 0). 1: replace (2 * ec_order C - 1) with (2 * (ec_order C - 1) + 1) by ring; exact H.
  - unfold says_yes, mixed. apply L_Hide.count_ext. intros ds Hl Hd. destruct ds as [|k r]; [reflexivity|]. cbn in Hd. inversion Hd; subst. rewrite combined by assumption. reflexivity.
  - unfold says_yes, mixed. apply L_Hide.count_ext. intros ds Hl Hd. destruct ds as [|k r]; [reflexivity|]. cbn in Hd. inversion Hd; subst. rewrite combined by assumption. cbv zeta.
    assert (Er : length r = turns). { cbn [length] in Hl. unfold draws in Hl. rewrite repeat_length in Hl. lia. } rewrite <- Er, firstn_all, skipn_all. reflexivity.
Qed.
Print Assumptions C83_ciphertexts_hide.

(** An observer on the concrete curve that asks for an encryption of one of two points, then for re-randomisations of the answer or of something else, with a share of its own. *)
Definition demo_ask (pk : eg_public toy) (seen : list (eg_ct toy)) : request toy :=
  match seen with [] => AskEncrypt (pgen toy) (pinf toy) | c :: _ => AskRerandomize c (eg_zero toy) end.
Example C83_ex (guess : eg_public toy -> list (eg_ct toy) -> bool) : let says_yes second := S_Hide.count (draws toy 4) (fun ds => match ds with
    | k :: r => match eg_combine toy (map (fun raw => fst (eg_generate toy raw)) ([17] ++ k :: [3; 5])) with Ok pk => guess pk (talk toy pk demo_ask second [] r) | _ => false end
    | _ => false end) in
  (ec_order toy - 1) * Z.abs (says_yes false - says_yes true) <= secrecy_total toy 28 demo_ask guess 3 + 3 * ((2 * ec_order toy - 1) * tuples (draws toy 3)).
Proof. exact (C83_ciphertexts_hide toy [17] [3; 5] 3 demo_ask guess toy_laws). Qed.

(** ** The shares must come from someone who knows their private keys.  Who publishes a share last can compute, from the public shares alone, one with which the combined key is the public key of
    any private key [x] it likes: it then decrypts everything alone.  The library asks for no proof. *)
Definition last_share (C : ec) (x : Z) (others : list (eg_public C)) : eg_public C :=
  {| eg_g := pgen C; eg_y := padd C (pmul C x (pgen C)) (pneg C (fold_right (padd C) (pinf C) (map (eg_y C) others))) |}.
Theorem C83_last_share : forall C raws x m raw, ec_laws C ->
  let others := map (fun r => fst (eg_generate C r)) raws in
  exists pk, eg_combine C (others ++ [last_share C x others]) = Ok pk /\ eg_decrypt C x (eg_encrypt C pk m raw) = m.
Proof.
  intros C raws x m raw L others.
  assert (G : forall s, In s others -> eg_g C s = pgen C) by (intros s Hs; apply in_map_iff in Hs; destruct Hs as (r & <- & _); reflexivity).
  assert (S : forall g l y, (forall s, In s l -> eg_g C s = g) -> eg_shares_loop C g y l = Ok (padd C y (fold_right (padd C) (pinf C) (map (eg_y C) l)))).
  { intros g l. induction l as [|s l IH]; intros y Hl; [cbn; rewrite (add_inf_r C L); reflexivity|]. cbn [eg_shares_loop map fold_right]. rewrite (Hl s) by (left; reflexivity).
    replace (peqb C g g) with true by (symmetry; apply (peqb_spec C L); reflexivity). cbn [negb]. rewrite IH by (intros t Ht; apply Hl; right; exact Ht). rewrite (padd_assoc C L). reflexivity. }
  assert (E : eg_combine C (others ++ [last_share C x others]) = Ok {| eg_g := pgen C; eg_y := pmul C x (pgen C) |}).
  { assert (T : fold_right (padd C) (pinf C) (map (eg_y C) (others ++ [last_share C x others])) = pmul C x (pgen C)).
    { rewrite map_app. cbn [map last_share eg_y]. generalize (pmul C x (pgen C)). intros P. set (Y := fold_right (padd C) (pinf C) (map (eg_y C) others)).
      assert (F : forall l Q, fold_right (padd C) (pinf C) (l ++ [Q]) = padd C (fold_right (padd C) (pinf C) l) Q).
      { intros l Q. induction l as [|R l IH]; [cbn; rewrite (padd_comm C L); reflexivity|]. cbn [app fold_right]. rewrite IH. apply (padd_assoc C L). }
      rewrite F. fold Y. rewrite (padd_comm C L P), (padd_assoc C L), (padd_neg C L). apply (padd_inf C L). }
    assert (GA : forall s, In s (others ++ [last_share C x others]) -> eg_g C s = pgen C) by (intros s Hs; apply in_app_iff in Hs; destruct Hs as [Hs|[<-|[]]]; [apply G, Hs|reflexivity]).
    destruct (others ++ [last_share C x others]) as [|s l] eqn:El; [destruct others; discriminate|]. cbn [eg_combine]. rewrite S by (intros t Ht; rewrite (GA s), (GA t); cbn; tauto).
    cbn [bind]. cbn [map fold_right] in T. rewrite T, (GA s) by (left; reflexivity). reflexivity. }
  eexists. split; [exact E|]. apply (decrypt_encrypts C L). apply (encrypts_enc C L).
Qed.
Print Assumptions C83_last_share.
Example C83_share_ex : let others := map (fun r => fst (eg_generate toy r)) [3; 17; 70] in
  match eg_combine toy (others ++ [last_share toy 9 others]) with Ok pk => peqb toy (eg_decrypt toy 9 (eg_encrypt toy pk (pmul toy 5 (pgen toy)) 33)) (pmul toy 5 (pgen toy)) = true | _ => False end.
Proof. vm_compute. reflexivity. Qed.
