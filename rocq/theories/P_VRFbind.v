(** C76: from proofs of wrong statements about a key or about evaluations, a commitment is opened in two ways. *)
From Coq Require Import Znumtheory.
From Verif Require Import Base M_BigNum M_Num M_EC M_Proto M_Pedersen M_VRF S_Pedersen S_VRF L_BigNum L_Num L_Mod L_DJ L_EC L_Cipher L_Toy L_Pedersen L_VRF P_Pedersen P_VRF.

(** Two answers to one first message, with the opening (xs, o) of the statement known. *)
Lemma two_answers pp K d xs o a1 r1 a2 r2 c1 c2 : 0 < pp_n pp -> nonneg xs -> 0 <= o -> nonneg a2 -> 0 <= r2 -> 0 <= c2 <= c1 ->
  eqmod (pp_n pp) K (raw_commit pp xs o) -> eqmod (pp_n pp) (K ^ c1 * d) (raw_commit pp a1 r1) -> eqmod (pp_n pp) (K ^ c2 * d) (raw_commit pp a2 r2) ->
  commitment (pp_gs pp) (pp_h pp) (pp_n pp) (vadd (vscale (c1 - c2) xs) a2) ((c1 - c2) * o + r2) = commitment (pp_gs pp) (pp_h pp) (pp_n pp) a1 r1.
Proof.
  intros HN Nx Ho Na Hr Hc EK E1 E2. change (raw_commit pp (vadd (vscale (c1 - c2) xs) a2) ((c1 - c2) * o + r2) mod pp_n pp = raw_commit pp a1 r1 mod pp_n pp).
  apply mod_eqmod_iff; [exact HN|]. rewrite raw_commit_add; [|apply nonneg_vscale; [lia|exact Nx]|exact Na|nia|exact Hr]. rewrite raw_commit_scale by (assumption || lia).
  rewrite <- E1, <- E2. rewrite <- (eqmod_pow (pp_n pp) K (raw_commit pp xs o) (c1 - c2) EK). replace (K ^ c1) with (K ^ (c1 - c2) * K ^ c2) by (rewrite <- Z.pow_add_r by lia; f_equal; lia). exists 0. ring.
Qed.

(** Key proofs: whoever knows an opening of a public key and answers two different challenges for one first message d has the same key in every slot of the opening, or opens one
    commitment with two different vectors, both given explicitly. *)
Theorem C76_unequal_key_opens_twice : forall C H1 H2 p pp num v pk xs o pf1 pf2 d, ec_laws C -> vrf_created C p pp num v ->
  Forall (fun x => 0 <= x) xs -> length xs = length (pp_gs pp) -> 0 <= o -> of_bytes pk = commitment (pp_gs pp) (pp_h pp) (pp_n pp) xs o ->
  let com := commitment (pp_gs pp) (pp_h pp) (pp_n pp) in let all x := repeat x (length (pp_gs pp)) in
  let c1 := of_bytes (kp_challenge pf1) in let c2 := of_bytes (kp_challenge pf2) in
  let m1 := of_bytes (kp_masked_key pf1) in let m2 := of_bytes (kp_masked_key pf2) in let o1 := of_bytes (kp_masked_open pf1) in let o2 := of_bytes (kp_masked_open pf2) in
  dy_verify_keys C H1 v pk pf1 = Ok tt -> dy_verify_keys C H2 v pk pf2 = Ok tt ->
  (of_bytes pk ^ c1 * d) mod pp_n pp = com (all m1) o1 -> (of_bytes pk ^ c2 * d) mod pp_n pp = com (all m2) o2 -> c2 < c1 ->
  (exists key, xs = all key) \/
  (vadd (vscale (c1 - c2) xs) (all m2) <> all m1 /\ com (vadd (vscale (c1 - c2) xs) (all m2)) ((c1 - c2) * o + o2) = com (all m1) o1).
Proof.
  intros C H1 H2 p pp num v pk xs o pf1 pf2 d L Hv Nx Lx Ho Epk com all c1 c2 m1 m2 o1 o2 _ _ Q1 Q2 Hc. pose proof Hv as (_ & (HN & _) & _).
  assert (P2 : 0 <= c2) by apply of_bytes_nonneg. assert (0 <= m2) by apply of_bytes_nonneg. assert (0 <= o2) by apply of_bytes_nonneg.
  destruct (list_eq_dec Z.eq_dec (vadd (vscale (c1 - c2) xs) (all m2)) (all m1)) as [Ev|Hne]; [left|right; split; [exact Hne|]].
  - exists (nth 0 xs 0). apply (nth_ext _ _ 0 0); [unfold all; rewrite repeat_length; exact Lx|]. intros i Hi. unfold all. rewrite repeat_nth. destruct (Nat.ltb_spec i (length (pp_gs pp))); [|lia].
    assert (X : forall j, (j < length xs)%nat -> (c1 - c2) * nth j xs 0 = m1 - m2).
    { intros j Hj. assert (Ej : nth j (vadd (vscale (c1 - c2) xs) (all m2)) 0 = nth j (all m1) 0) by (rewrite Ev; reflexivity). unfold all in Ej. rewrite vadd_nth, vscale_nth, !repeat_nth in Ej.
      destruct (Nat.ltb_spec j (length (pp_gs pp))); lia. }
    pose proof (X i Hi). pose proof (X 0%nat ltac:(lia)). nia.
  - unfold com. apply (two_answers pp (of_bytes pk) d xs o (all m1) o1 (all m2) o2 c1 c2); try assumption; try lia.
    + apply nonneg_repeat. assumption.
    + rewrite Epk. unfold commitment. apply eqmod_mod.
    + apply mod_eqmod_iff; [lia|exact Q1].
    + apply mod_eqmod_iff; [lia|exact Q2].
Qed.
Print Assumptions C76_unequal_key_opens_twice.

(** Evaluation proofs: with the openings of the public key (one key in every slot) and of the commitment to the messages known, two different challenges answered for one hashed
    string mean that every evaluation is the value of the function, or that one commitment is opened with two different vectors, both given explicitly. *)
Theorem C76_wrong_evaluation_opens_twice : forall C H1 H2 p pp num v evals ms key ok om pk com cb pf1 pf2 c1 c2, ec_laws C -> vrf_created C p pp num v ->
  let commit := commitment (pp_gs pp) (pp_h pp) (pp_n pp) in let all x := repeat x (length (pp_gs pp)) in
  0 <= key -> Forall (fun m => 0 <= m) ms -> (length ms <= length (pp_gs pp))%nat -> 0 <= ok -> 0 <= om -> of_bytes pk = commit (all key) ok -> com = commit ms om ->
  dy_verify_apply C H1 v evals pk com pf1 = Ok tt -> dy_verify_apply C H2 v evals pk com pf2 = Ok tt ->
  ap_commit pf1 = ap_commit pf2 -> ap_points pf1 = ap_points pf2 -> to_bytes com = Ok cb ->
  let input := apply_hash_input p pk cb (map (ec_enc C) evals) (ap_commit pf1) (ap_points pf1) in
  random_oracle 512 H1 input (2 ^ dp_chal p) = Ok c1 -> random_oracle 512 H2 input (2 ^ dp_chal p) = Ok c2 -> c2 < c1 -> 2 ^ dp_chal p <= ec_order C ->
  let a1 := map of_bytes (ap_masked pf1) in let a2 := map of_bytes (ap_masked pf2) in
  let second := vadd (vscale (c1 - c2) (vadd ms (all key))) a2 in
  (forall i e, nth_error evals i = Some e -> vrf_value C (dv_base C v) key (nth i ms 0) e) \/
  (second <> a1 /\ commit second ((c1 - c2) * (om + ok) + of_bytes (ap_masked_open pf2)) = commit a1 (of_bytes (ap_masked_open pf1))).
Proof.
  intros C H1 H2 p pp num v evals ms key ok om pk com cb pf1 pf2 c1 c2 L Hv commit all Hkey Nm Lm Hok Hom Epk Ecom V1 V2 Eac Eap Ecb input R1 R2 Hc Hq a1 a2 second.
  pose proof (order_gt1 C L) as Hn. pose proof Hv as (_ & (HN & _) & _). assert (Hcom : 0 <= com) by (rewrite Ecom; apply Z.mod_pos_bound; lia).
  destruct (C49_verify_apply C H1 p pp num v evals pk com pf1 L Hv Hcom) as [[A1 _]|[_ [B|[_ B]]]]; [|congruence|congruence].
  destruct (C49_verify_apply C H2 p pp num v evals pk com pf2 L Hv Hcom) as [[A2 _]|[_ [B|[_ B]]]]; [|congruence|congruence].
  destruct A1 as (c1' & dpts1 & cb1 & L1 & M1 & D1 & _ & P1 & Cb1 & O1 & _ & F1 & W1). destruct A2 as (c2' & dpts2 & cb2 & _ & M2 & D2 & _ & P2 & Cb2 & O2 & _ & F2 & W2).
  assert (cb1 = cb) by congruence. assert (cb2 = cb) by congruence. subst cb1 cb2. rewrite <- Eac, <- Eap in O2. rewrite <- Eap in P2. rewrite <- Eac in W2. fold input in O1, O2.
  assert (c1' = c1) by congruence. assert (c2' = c2) by congruence. assert (dpts2 = dpts1) by congruence. subst c1' c2' dpts2. fold a1 in M1, F1, W1. fold a2 in M2, F2, W2.
  destruct (vrf_created_ok C p pp num v L Hv) as (_ & _ & _ & _ & Hch & Hb).
  assert (Hc1 : 0 <= c1 < 2 ^ dp_chal p) by (apply ro_pow2_range in R1; lia). assert (Hc2 : 0 <= c2 < 2 ^ dp_chal p) by (apply ro_pow2_range in R2; lia).
  assert (Nn : forall l, nonneg (map of_bytes l)) by (intros l; apply Forall_forall; intros x Hx; apply in_map_iff in Hx; destruct Hx as (b & <- & _); apply of_bytes_nonneg).
  destruct (list_eq_dec Z.eq_dec second a1) as [Ev|Hne]; [left|right; split; [exact Hne|]].
  - intros i e Ee. assert (Hi : (i < length evals)%nat) by (apply nth_error_Some; congruence).
    assert (Em1 : nth_error a1 i = Some (nth i a1 0)) by (apply nth_error_nth'; lia). assert (Em2 : nth_error a2 i = Some (nth i a2 0)) by (apply nth_error_nth'; lia).
    destruct (nth_error dpts1 i) as [dp|] eqn:Edp; [|apply nth_error_None in Edp; lia].
    specialize (F1 i e _ dp Ee Em1 Edp). specialize (F2 i e _ dp Ee Em2 Edp).
    assert (Ei : (c1 - c2) * (key + nth i ms 0) = nth i a1 0 - nth i a2 0).
    { rewrite <- Ev. unfold second, all. rewrite vadd_nth, vscale_nth, vadd_nth, repeat_nth. destruct (Nat.ltb_spec i (length (pp_gs pp))); [ring|lia]. }
    assert (X : pmul C (c1 - c2) (pmul C (key + nth i ms 0) e) = pmul C (c1 - c2) (dv_base C v)).
    { rewrite <- (pmul_mul C L), Ei. rewrite (pmul_sub C L (nth i a1 0) (nth i a2 0)), F1, F2, (pmul_sub C L c1 c2). set (P := pmul C c1 (dv_base C v)). set (Q := pmul C c2 (dv_base C v)).
      rewrite (neg_add C L). rewrite (add_swap C L dp P (pneg C dp) (pneg C Q)). rewrite (padd_neg C L), (padd_inf C L). reflexivity. }
    assert (G : rel_prime (c1 - c2) (ec_order C)).
    { apply rel_prime_sym, prime_rel_prime; [apply (order_prime C L)|]. intros [j Hj]. assert (j <> 0) by nia. assert (1 <= j) by nia. nia. }
    assert (Y : pmul C (key + nth i ms 0) e = dv_base C v).
    { apply Zis_gcd_gcd in G; [|lia]. destruct (Zis_gcd_bezout (c1 - c2) (ec_order C) 1) as [u w Huw]; [apply Zgcd_1_rel_prime; exact G|].
      assert (U : eqmod (ec_order C) (u * (c1 - c2)) 1) by (exists (- w); lia).
      rewrite <- (pmul_1 C (pmul C (key + nth i ms 0) e)). rewrite <- (pmul_eqmod C L _ _ _ U), (pmul_mul C L), X, <- (pmul_mul C L), (pmul_eqmod C L _ _ _ U). apply (pmul_1 C). }
    split; [|exact Y]. intros Z0. apply Hb. rewrite <- Y. rewrite (pmul_eqmod C L _ 0); [reflexivity|]. apply Z.mod_divide in Z0; [|lia]. destruct Z0 as [j Hj]. exists j. lia.
  - unfold commit, second. apply (two_answers pp (com * of_bytes pk) (of_bytes (ap_commit pf1)) (vadd ms (all key)) (om + ok) a1 (of_bytes (ap_masked_open pf1)) a2 (of_bytes (ap_masked_open pf2)) c1 c2); try lia.
    + apply nonneg_vadd; [exact Nm|apply nonneg_repeat; exact Hkey].
    + apply Nn.
    + apply of_bytes_nonneg.
    + rewrite raw_commit_add; [|exact Nm|apply nonneg_repeat; exact Hkey|exact Hom|exact Hok]. rewrite Ecom, Epk. unfold commit, commitment. rewrite !eqmod_mod. reflexivity.
    + apply mod_eqmod_iff; [lia|]. rewrite Z.mul_comm. symmetry. exact W1.
    + apply mod_eqmod_iff; [lia|]. rewrite Z.mul_comm. symmetry. exact W2.
Qed.
Print Assumptions C76_wrong_evaluation_opens_twice.

(** Both cases happen. Messages 5 and 70: honest proofs under two hash functions, the evaluations are right (15 = 10 + 5 times the first is the base). A prover who knows that 9^253 = 1 modulo
    1081 proves the evaluation at 258 instead of 5 for the same commitment: both proofs are accepted, the evaluation is not the one at 5, and the two openings differ. *)
Example C76_ex :
  match ex_run (fun v => let* (pk, sk, kp) := dy_generate toy (const_hash x35) v 41 777 12345 67890 in
                         let* com := ped_commit_with_rand (dv_ped toy v) [5; 70] 31 in
                         let* ev := dy_apply toy v [5; 70] sk in let* ev' := dy_apply toy v [258; 70] sk in
                         let prove H ms ev := dy_prove_apply toy H v ms ev pk sk com 31 99 (fun i => Z.of_nat i * 1001 + 7) 4242 in
                         let* a := prove (const_hash x53) [5; 70] ev in let* b := prove (const_hash x35) [5; 70] ev in
                         let* a' := prove (const_hash x53) [258; 70] ev' in let* b' := prove (const_hash x35) [258; 70] ev' in
                         let test ev a b := forallb (fun i => i) [is_ok (dy_verify_apply toy (const_hash x53) v ev pk com a); is_ok (dy_verify_apply toy (const_hash x35) v ev pk com b); bytes_eqb (ap_commit a) (ap_commit b)] in
                         let key := of_bytes (dk_key sk) in
                         let second a b := vadd (vscale (41 - 26) (vadd [5; 70] (repeat key 2))) (map of_bytes (ap_masked b)) in
                         Ok (test ev a b, test ev' a' b', peqb toy (pmul toy (key + 5) (hd (pinf toy) ev)) (dv_base toy v), peqb toy (pmul toy (key + 5) (hd (pinf toy) ev')) (dv_base toy v),
                             map (fun xy => fst xy - snd xy) (combine (second a b) (map of_bytes (ap_masked a))), map (fun xy => snd xy - fst xy) (combine (second a' b') (map of_bytes (ap_masked a'))))) with
  | Ok r => r = (true, true, true, false, [0; 0], [15 * 253; 0])
  | _ => False end /\ 2 ^ dp_chal ex_dp <= 79 /\ random_oracle 512 (const_hash x53) [] (2 ^ 6) = Ok 41 /\ random_oracle 512 (const_hash x35) [] (2 ^ 6) = Ok 26.
Proof. vm_compute. repeat split; try reflexivity; discriminate. Qed.
